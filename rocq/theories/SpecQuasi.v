(** * Specifications for load stepping *)
From Coq Require Import Reals.
From Verif Require Import Base Num ModelScalar ModelQuasi.
Local Open Scope R_scope.

Fixpoint increasing (l : list R) : Prop :=
  match l with
  | a :: ((b :: _) as r) => a < b /\ increasing r
  | _ => True
  end.

(** The accepted steps go from [t0] to [t1] without gaps, each forward in time. *)
Fixpoint covers (t0 : R) (l : list (load_step RN)) (t1 : R) : Prop :=
  match l with
  | [] => t1 = t0
  | a :: r => ls_from a = t0 /\ t0 < ls_to a /\ covers (ls_to a) r t1
  end.

(** The attempt ended with a residual not above the tolerance, or below 100 times it. *)
Definition solved (solve : nat -> RN * RN) (k : nat) : Prop :=
  fst (solve k) <= snd (solve k) \/ fst (solve k) < 100 * snd (solve k).

(** [t] divides a scheduled interval [a, b] in a dyadic proportion; scheduled times do. *)
Definition subdivides (steps : list R) (t : R) : Prop :=
  exists i a b (m k : nat), nth_error steps i = Some a /\ nth_error steps (S i) = Some b /\ (m <= 2 ^ k)%nat /\
    t = a + (b - a) * (INR m / 2 ^ k).

(** The accepted steps are exactly the scheduled ones, in order. *)
Fixpoint as_scheduled (attempt : nat) (t0 : R) (steps : list R) : list (load_step RN) :=
  match steps with
  | [] => []
  | t :: r => {| ls_attempt := attempt; ls_from := (t0 : T RN); ls_to := t |} :: as_scheduled (S attempt) t r
  end.

(** Runs stop: from some fuel on the result is this. *)
Definition stops_with (solve : nat -> RN * RN) (ad : option adaptive) (steps : list R) (r : ending RN * nat * list (load_step RN)) : Prop :=
  exists fuel0, forall fuel, (fuel0 <= fuel)%nat -> execute_quasi_static (N:=RN) solve ad steps fuel = Ok (Some r).
