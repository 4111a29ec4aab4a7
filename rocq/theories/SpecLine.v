(** * What a line search should return *)
From Coq Require Import Reals SpecFloat.
From Verif Require Import Base Num ModelScalar.

Section Spec.
  Context {N : Num}.
  (** Finite values are compared as in a total order (ties allowed). *)
  Definition totally_ordered (finite : N -> bool) : Prop :=
    (forall a b, finite a = true -> finite b = true -> ltb a b = true -> ltb b a = false) /\
    (forall a b c, finite a = true -> finite b = true -> finite c = true -> ltb a b = false -> ltb b c = false -> ltb a c = false).

  (** [a] has the least of the values [l] (pairs of step and residual). *)
  Definition least (finite : N -> bool) (l : list (N * N)) (a r : N) : Prop :=
    In (a, r) l /\ finite r = true /\ forall a' r', In (a', r') l -> finite r' = true -> ltb r' r = false.
End Spec.

(** std::isfinite of a double *)
Definition finite64 (a : spec_float) : bool := match a with S754_zero _ | S754_finite _ _ _ => true | _ => false end.

Section Trials.
  Context {N : Num}.
  Local Open Scope num_scope.
  Variables (finite : N -> bool) (evaluate : nat -> list N -> list N -> outcome (N * list N)) (origin lhs delta : list N) (dt : N).

  (** Increment, positions and velocities with the step [alpha]. *)
  Definition increment_at (alpha : N) : list N := map (fun p => fst p + alpha * snd p) (combine delta lhs).
  Definition position_at (alpha : N) : list N := map (fun p => fst p + snd p) (combine origin (increment_at alpha)).
  Definition velocity_at (alpha : N) : list N := map (fun d => d / dt) (increment_at alpha).

  (** [trials k steps l]: evaluations k, k+1, ... with these steps gave the pairs [l] of step
      and residual norm. *)
  Definition trials (k : nat) (steps : list N) (l : list (N * N)) : Prop :=
    map fst l = steps /\
    forall i a r, nth_error l i = Some (a, r) -> exists vec, evaluate (k + i)%nat (position_at a) (velocity_at a) = Ok (r, vec).

  (** The least finite residual below [bound], or (1, [bound]) when there is none. *)
  Definition best_below (bound : N) (l : list (N * N)) (a r : N) : Prop :=
    (least finite l a r /\ ltb r bound = true) \/
    (a = 1 /\ r = bound /\ forall a' r', In (a', r') l -> finite r' = true -> ltb r' bound = false).

  (** Steps of the first and second round. *)
  Definition coarse_steps : list N := [lit 1 10; lit 2 10; lit 3 10; lit 5 10; lit 75 100; 1].
  Definition fine_steps : list N :=
    map (fun i => lit 2 1000 * ofZ (Z.of_nat i)) (seq 1 25) ++
    map (fun i => lit 1 100 * ofZ (Z.of_nat i) + lit 5 100) (seq 1 15) ++
    map (fun i => lit 5 100 * ofZ (Z.of_nat i) + lit 2 10) (seq 1 6) ++
    [lit 75 100; 1; lit 15 10; 2; ofZ 5; ofZ 10].

  (** The search from positions [y] and velocities [v] returns: 0 when the residual vanishes
      already; the best of the first round (a guess between -0.1 and 10, and six steps) when it
      reduces the residual by more than 2%; otherwise the best of this and a second round when
      it reduces it by more than 0.01%; otherwise that or a step of the second round with a
      larger residual. *)
  Definition searched (y v : list N) (alpha : N) : Prop :=
    exists n0 vec, evaluate 0%nat y v = Ok (n0, vec) /\ finite n0 = true /\
    if n0 =? 0 then alpha = 0
    else exists g l1 a1 r1, (g = [] \/ exists a, g = [a] /\ (- lit 1 10 <? a) = true /\ (a <? ofZ 10) = true) /\
      trials 2 (g ++ coarse_steps) l1 /\ best_below (ofZ (10 ^ 50)) l1 a1 r1 /\
      if lit 2 100 <? (n0 - r1) / n0 then alpha = a1
      else exists l2 a2 r2, trials (2 + length l1) fine_steps l2 /\ best_below (ofZ (10 ^ 50)) (l1 ++ l2) a2 r2 /\
        if lit 1 10000 <? (n0 - r2) / n0 then alpha = a2
        else alpha = a2 \/ exists r, In (alpha, r) l2 /\ finite r = true /\ (n0 <? r) = true.
End Trials.
