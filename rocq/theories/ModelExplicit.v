(** * The explicit solver

    Model of src/core/Peridigm.cpp:1290-1594 (executeExplicit).  Not modelled: timers,
    progress output, the data loader, the rebalance of contact blocks, the re-creation of
    the damage models (1452-1464). *)
From Coq Require Import String SpecFloat.
From Verif Require Import Base Num ModelScalar ModelInput ModelBC.

(** A loop over the entries of vectors of equal length; out of range otherwise. *)
Fixpoint map2_ub {A B C} (f : A -> B -> C) (l : list A) (m : list B) : outcome (list C) :=
  match l, m with
  | [], [] => Ok []
  | a :: l', b :: m' => let? r := map2_ub f l' m' in Ok (f a b :: r)
  | _, _ => UB
  end.

(** std::floor of a double (cpp:1322), exactly *)
Definition floor64 (x : spec_float) : option Z :=
  match x with
  | S754_zero _ => Some 0%Z
  | S754_finite s m e => Some (Z.shiftl (if s then Z.neg m else Z.pos m) e)
  | _ => None
  end.

Section Explicit.
  Context {N : Num}.
  Local Open Scope num_scope.

  (** floor of a double; None for infinities and NaN *)
  Variable floorZ : N -> option Z.

  (** cpp:1322.  The conversion of a value outside the range of int is undefined, and it
      comes before the comparison with INT_MAX (1325-1332), which therefore never matters. *)
  Definition number_of_steps (ti tf dt : N) : outcome Z :=
    match floorZ ((tf - ti) / dt) with
    | Some z => if int_ok z then Ok z else UB
    | None => UB
    end.

  Variable compiles : string -> bool.
  Variable run : string -> V3 N -> N -> N -> option N.
  Variable finite : N -> bool.
  Variable sets : string -> option (list nat).
  Variables boundary forces : list (cond N).
  (** Everything behind the model evaluator (materials, damage, contact, the two-step
      histories of their fields, import and export of the vectors): from its state and the
      displacement, position and velocity it computes a new state, the force density and, if
      there is contact, the contact force density. *)
  Variable M : Type.
  Variable evaluate : M -> list N -> list N -> list N -> outcome (M * list N * option (list N)).
  Variable rho : list N.

  (** The vectors of the solver.  They are taken as a whole: the loops are entry by entry and
      do not see how the entries are distributed over processors. *)
  Record estate := { e_b : bstate N; e_y : list N; e_a : list N; e_mat : M }.

  Definition flat (x : list (V3 N)) : list N := concat (map (fun p => [vx p; vy p; vz p]) x).
  (** BLAS AXPY *)
  Definition axpy (alpha : N) (x y : list N) : outcome (list N) := map2_ub (fun x y => y + alpha * x) x y.

  (** cpp:1418-1423 and 1568-1573: the density of the point an entry belongs to *)
  Definition acceleration (f ext : list N) : outcome (list N) :=
    let? s := map2_ub add f ext in
    map2_ub div s (concat (map (fun r => [r; r; r]) rho)).

  (** cpp:1393-1423 and 1536-1573; the checks for NaN only in the loop *)
  Definition force_and_acceleration (check : bool) (m : M) (b : bstate N) (y : list N)
      (external : outcome (bstate N)) : outcome (M * bstate N * list N) :=
    let? (m', f, c) := evaluate m (bs_field b TU) y (bs_field b TV) in
    let? b' := external in
    if check && negb (forallb finite f) then Err else
    if check && negb (forallb finite (bs_field b' TForce)) then Err else
    let? f := match c with
              | None => Ok f
              | Some c => if check && negb (forallb finite c) then Err else map2_ub (fun f c => c + f) f c
              end in
    let? a := acceleration f (bs_field b' TForce) in
    Ok (m', b', a).

  (** cpp:1387-1424: forces first, then the conditions at the initial time *)
  Definition initial_evaluation (ti : N) (s : estate) : outcome estate :=
    let external :=
      let? b := apply_conds compiles run finite sets ti ti (e_b s) boundary in
      apply_forces compiles run finite sets ti ti b forces in
    let? (m, b, a) := force_and_acceleration false (e_mat s) (e_b s) (e_y s) external in
    Ok {| e_b := b; e_y := e_y s; e_a := a; e_mat := m |}.

  (** cpp:1480: the half step of the velocity *)
  Definition kick (dt : N) (s : estate) : outcome (bstate N) :=
    let? v := axpy (dt / 2) (e_a s) (bs_field (e_b s) TV) in Ok (set_field (e_b s) TV v).

  (** cpp:1478-1577 *)
  Definition explicit_step (dt tc tp : N) (s : estate) : outcome estate :=
    let? b := kick dt s in
    let? b := apply_conds compiles run finite sets tc tp b boundary in
    let? b := apply_forces compiles run finite sets tc tp b forces in
    let? xu := map2_ub add (flat (bs_x b)) (bs_field b TU) in
    let? y := map2_ub (fun xu v => xu + dt * v) xu (bs_field b TV) in
    let? u := axpy dt (bs_field b TV) (bs_field b TU) in
    let b := set_field b TU u in
    let? (m, b, a) := force_and_acceleration true (e_mat s) b y (Ok b) in
    let? v := axpy (dt / 2) a (bs_field b TV) in
    Ok {| e_b := set_field b TV v; e_y := y; e_a := a; e_mat := m |}.

  (** cpp:1447-1589: [todo] steps, the last one done being [step] at time [t].  Returns the
      times and states written to the output, in order. *)
  Fixpoint explicit_loop (todo : nat) (step : Z) (ti dt t : N) (s : estate) : outcome (list (N * estate)) :=
    match todo with
    | O => Ok []
    | S k =>
        let t' := ti + ofZ (step + 1) * dt in
        let? s' := explicit_step dt t' t s in
        let? r := explicit_loop k (step + 1) ti dt t' s' in
        Ok ((t', s') :: r)
    end.

  (** cpp:1290-1594; [restart] when the state comes from restart files (1388) *)
  Definition execute_explicit (restart : bool) (ti tf dt : N) (s : estate) : outcome (list (N * estate)) :=
    let? n := number_of_steps ti tf dt in
    let? s := if restart then Ok s else initial_evaluation ti s in
    let? r := explicit_loop (Z.to_nat n) 0 ti dt ti s in
    Ok ((ti, s) :: r).
End Explicit.
Arguments estate N M : clear implicits.
Arguments Build_estate {N M}.
Arguments e_b {N M}. Arguments e_y {N M}. Arguments e_a {N M}. Arguments e_mat {N M}.
