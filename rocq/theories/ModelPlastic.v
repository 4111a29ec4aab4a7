(** * Plastic multiplier update and load histories

    src/materials/elastic_plastic_hardening.cxx:57-60 and 260-327 (the closed-form
    multiplier increment), and the sequence of evaluations a time integrator makes of
    the plastic and viscoelastic kernels of ModelForce.v. *)
From Coq Require Import ZArith.
From Verif Require Import Base Num ModelNeigh ModelForce.

Section Hardening.
  Context {N : Num}.
  Local Open Scope num_scope.
  (** std::abs *)
  Definition nabs (a : N) : N := if a <? 0 then - a else a.
  (** sign, elastic_plastic_hardening.cxx:57-60 *)
  Definition sign_of (v : N) : N := if 0 <? v then 1 else if v <? 0 then - (1) else 0.

  (** cos, acos and pow(., 1./3.) are parameters, as is DBL_MAX. *)
  Context (cosf acosf cbrt : N -> N) (dbl_max : N).

  (** one of the three tests [if( root > 0.0 && std::abs(root) < std::abs(min) ) min = root] *)
  Definition smaller_root (min root : N) : N :=
    if (0 <? root) && (nabs root <? nabs min) then root else min.

  (** updateDeltaLambda, elastic_plastic_hardening.cxx:260-327 (lambda is lambdaN, psi the
      pointWiseYieldValue) *)
  Definition updateDeltaLambda (tdNorm lambda psi alpha H : N) : N :=
    let a := 2 / alpha + lambda + psi / H in
    let b := (H + 2 * alpha * H * lambda + 2 * alpha * psi) / (alpha * alpha * H) in
    let c := (2 * H * lambda + 2 * psi - tdNorm * tdNorm) / (2 * alpha * alpha * H) in
    let Q := (a * a - 3 * b) / ofZ 9 in
    let R := (2 * a * a * a - ofZ 9 * a * b + ofZ 27 * c) / ofZ 54 in
    if R * R <? Q * Q * Q then
      let theta := acosf (R / sqr_root (Q * Q * Q)) in
      let root1 := - (2) * sqr_root Q * cosf (theta / 3) - a / 3 in
      let root2 := - (2) * sqr_root Q * cosf (theta / 3 + 2 * pi / 3) - a / 3 in
      let root3 := - (2) * sqr_root Q * cosf (theta / 3 - 2 * pi / 3) - a / 3 in
      let min := smaller_root (smaller_root (smaller_root dbl_max root1) root2) root3 in
      if min =? dbl_max then 0 else min
    else
      let A := - sign_of R * cbrt (nabs R + sqr_root (R * R - Q * Q * Q)) in
      let B := Q / A in
      let val := A + B - a / 3 in
      if val <? 0 then 0 else val.
End Hardening.

(** ** Load histories

    In one time step an integrator evaluates the force any number of times from the
    same old state (iterations, line search, finite differences); the state written by
    the last evaluation becomes the old state of the next step
    (Peridigm.cpp: computeForce ... workset/updateState; see C02).  Each evaluation
    rewrites the whole new state, so the earlier ones leave no trace. *)
Section History.
  Context {C S : Type} (eval : S -> C -> outcome S).
  (** the configurations evaluated in one step; the last one is accepted *)
  Definition load_step (s : S) (cs : list C * C) : outcome S :=
    let? _ := foldM (fun _ c => let? _ := eval s c in Ok tt) tt (fst cs) in
    eval s (snd cs).
  Definition history (s : S) (h : list (list C * C)) : outcome S := foldM load_step s h.
End History.

Section Plastic.
  Context {N : Num}.
  (** What changes from one evaluation to the next: deformed coordinates, dilatation, bond
      damage.  The plastic state: plastic extension per bond, multiplier per point. *)
  Record config := Config { cf_y : list (V3 N); cf_theta : list N; cf_dmg : list N }.
  Definition pstate := (list N * list N)%type.

  (** One evaluation of the force on a zeroed force array (ModelEvaluator.cpp:62-131). *)
  Definition ep_eval (K MU sigma h : N) (planar : option N) (nbrs : list (list nat)) (x : list (V3 N)) (v m : list N)
    (s : pstate) (c : config) : outcome pstate :=
    let? (f, out) := run_kernel (elastic_plastic K MU sigma h planar x (cf_y c) v m (cf_theta c) (cf_dmg c) (fst s) (snd s))
                                nbrs (map (fun _ => vzero) x) in
    Ok (new_edp out, new_lambda out).
  Definition hard_eval (update : N -> N -> N -> N -> N -> N) (K MU H sigma h : N) (nbrs : list (list nat)) (x : list (V3 N)) (v m scf : list N)
    (s : pstate) (c : config) : outcome pstate :=
    let? (f, out) := run_kernel (hardening update K MU H sigma h x (cf_y c) v m (cf_theta c) (cf_dmg c) scf (fst s) (snd s))
                                nbrs (map (fun _ => vzero) x) in
    Ok (new_edp out, new_lambda out).

  (** Successive time steps of the viscoelastic solid, each with its own step size,
      coordinates and dilatations (viscoelastic.cxx, Peridigm_ViscoelasticMaterial.cpp);
      the bond damage is the same throughout (the kernel itself assumes it for the two ends
      of a step).  The state is the old configuration and the back extensions. *)
  Definition visco_state := (list (V3 N) * list N * list N)%type.
  Definition visco_step (expf : N -> N) (K MU lambda tau : N) (nbrs : list (list nat)) (x : list (V3 N)) (v m dmg : list N)
    (s : visco_state) (st : N * (list (V3 N) * list N)) : outcome visco_state :=
    let '(yN, thN, edbN) := s in
    let '(dt, (y, th)) := st in
    let? (f, out) := run_kernel (visco expf K MU lambda tau dt x yN y v m thN th dmg edbN) nbrs (map (fun _ => vzero) x) in
    Ok (y, th, new_edb out).
  Definition visco_steps expf K MU lambda tau nbrs x v m dmg (s : visco_state) (sts : list (N * (list (V3 N) * list N))) : outcome visco_state :=
    foldM (visco_step expf K MU lambda tau nbrs x v m dmg) s sts.
End Plastic.
Arguments config N : clear implicits.
Arguments pstate N : clear implicits.
