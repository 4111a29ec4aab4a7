(** * The implicit (Newmark) solver

    Model of src/core/Peridigm.cpp:3620-4016 (executeImplicit) without multiphysics, except
    for the residual of the fluid pressure.  Not modelled: timers, output to the terminal, the
    tangent matrix and the linear solver, whose result is arbitrary. *)
From Coq Require Import String.
From Verif Require Import Base Num ModelScalar ModelInput ModelBC ModelExplicit.

Section Newmark.
  Context {N : Num}.
  Local Open Scope num_scope.
  Variable floorZ : N -> option Z.
  Variable compiles : string -> bool.
  Variable run : string -> V3 N -> N -> N -> option N.
  Variable finite : N -> bool.
  Variable sets : string -> option (list nat).
  Variables boundary forces : list (cond N).
  Variable M : Type.
  (** As for the explicit solver; contact forces are not used. *)
  Variable evaluate : M -> list N -> list N -> list N -> outcome (M * list N * option (list N)).
  Variable rho : list N.
  (** Layout of the unknowns *)
  Variables (p : physics) (d : dofs).
  (** cpp:3846-3874: what the linear solver leaves in displacementIncrement, given the number of
      solves so far and the right-hand side. *)
  Variable solver : nat -> list N -> list N.
  (** cpp:3646-3650 *)
  Variables (tolerance : N) (max_iterations : Z) (dt beta gamma : N).

  Notation state := (estate N M).

  (** cpp:3723-3726: u2 and v2 from the values at the beginning of the step *)
  Definition predict_u (u v a : list N) : outcome (list N) :=
    let? va := map2_ub (fun v a => dt * v + lit 1 2 * (dt * dt) * (1 - 2 * beta) * a) v a in
    map2_ub add u va.
  Definition predict_v (v a : list N) : outcome (list N) :=
    map2_ub (fun v a => v + dt * (1 - gamma) * a) v a.

  (** cpp:3748-3756 and 3888-3895: a, v and y from u *)
  Definition correct (u2 v2 u : list N) (s : state) : outcome state :=
    let? du := map2_ub sub u u2 in
    let a := map (fun e => (1 / (beta * (dt * dt))) * e) du in
    let? v := map2_ub (fun v2 a => v2 + dt * gamma * a) v2 a in
    let? y := map2_ub add (flat (bs_x (e_b s))) u in
    Ok {| e_b := set_field (set_field (e_b s) TU u) TV v; e_y := y; e_a := a; e_mat := e_mat s |}.

  (** Epetra_Vector::Norm2 *)
  Definition norm2 (l : list N) : N := sqr_root (fold_left (fun s e => s + e * e) l 0).

  (** cpp:3784-3837 and 3913-3978: evaluation, body forces and residual; [tc] and [tp] are
      timeCurrent and timePrevious, which are those of the beginning of the step *)
  Definition residual_of (tc tp : N) (s : state) : outcome (state * list N) :=
    let? (m, f, _) := evaluate (e_mat s) (bs_field (e_b s) TU) (e_y s) (bs_field (e_b s) TV) in
    let? b := apply_forces compiles run finite sets tc tp (e_b s) forces in
    let? ra := map2_ub mul (concat (map (fun r => [r; r; r]) rho)) (e_a s) in
    let? rf := map2_ub sub ra f in
    let? re := map2_ub sub rf (bs_field b TForce) in
    let? r := insert_zeros p d (dof_map d (bs_gids b)) sets boundary (map (fun e => beta * (dt * dt) * e) re) in
    Ok ({| e_b := b; e_y := e_y s; e_a := e_a s; e_mat := m |}, r).

  (** cpp:3842-3984: at most [left] corrections; [k] solves were made before.  Returns the
      state, the residual and the number of solves. *)
  Fixpoint newton (left : nat) (k : nat) (tc tp : N) (u2 v2 : list N) (s : state) (r : list N) : outcome (state * list N * nat) :=
    match left with
    | O => Ok (s, r, k)
    | S left' =>
        if tolerance <? norm2 r then
          let? u := map2_ub add (bs_field (e_b s) TU) (solver k (map (fun e => - (1) * e) r)) in
          let? s := correct u2 v2 u s in
          let? (s, r) := residual_of tc tp s in
          newton left' (S k) tc tp u2 v2 s r
        else Ok (s, r, k)
    end.

  (** cpp:3715-3984 *)
  Definition implicit_step (k : nat) (tc tp : N) (s : state) : outcome (state * list N * nat) :=
    let? u2 := predict_u (bs_field (e_b s) TU) (bs_field (e_b s) TV) (e_a s) in
    let? v2 := predict_v (bs_field (e_b s) TV) (e_a s) in
    let? s := correct u2 v2 u2 s in
    let? (s, r) := residual_of tc tp s in
    newton (Z.to_nat (max_iterations + 1)) k tc tp u2 v2 s r.

  (** cpp:3711-4015: times and states written to the output with the last residual and the
      number of solves so far *)
  Fixpoint implicit_loop (todo : nat) (step : Z) (k : nat) (ti tc tp : N) (s : state) : outcome (list (N * state * list N * nat)) :=
    match todo with
    | O => Ok []
    | S n =>
        let? (s', r, k') := implicit_step k tc tp s in
        let t := ti + ofZ (step + 1) * dt in
        let? rest := implicit_loop n (step + 1) k' ti t tc s' in
        Ok ((t, s', r, k') :: rest)
    end.

  (** cpp:3641-3709 and the loop: the conditions are applied at the initial time only *)
  Definition execute_implicit (ti tf : N) (s : state) : outcome (list (N * state * list N * nat)) :=
    let? n := number_of_steps floorZ ti tf dt in
    let? b := apply_conds compiles run finite sets ti ti (e_b s) boundary in
    let? b := apply_forces compiles run finite sets ti ti b forces in
    let s := {| e_b := b; e_y := e_y s; e_a := e_a s; e_mat := e_mat s |} in
    let? r := implicit_loop (Z.to_nat n) 0 0 ti ti ti s in
    Ok ((ti, s, [], 0%nat) :: r).
End Newmark.

(** cpp:3828-3829 and 3969-3971: the entry of the residual for the fluid pressure, before the
    first and after each later correction *)
Definition fluid_residual_first {N : Num} (dt pressure before flow density compressibility : N) : N :=
  ((pressure - before) / dt - flow / (density * compressibility))%num.
Definition fluid_residual_later {N : Num} (dt pressure before flow : N) : N := ((pressure - before) / dt - flow)%num.
