(** * The viscoplastic update of Needleman

    src/materials/viscoplastic_needleman_correspondence.cxx: the stress update of a
    correspondence material whose yield stress depends on the plastic strain and on the
    plastic strain rate.  exp and pow are arguments.  ViscoplasticNeedlemanFindRoot (409-566)
    is called by nobody and not modelled. *)
From Coq Require Import ZArith.
From Verif Require Import Base Num ModelForce ModelCorr ModelPlastic ModelGlobal ModelJ2.

Section Needleman.
  Context {N : Num}.
  Variables (expf : N -> N) (powf : N -> N -> N).
  Local Open Scope num_scope.

  (** strain hardening exponent, rate hardening exponent, reference strain rate, reference strains 0 and 1,
      Peridigm_ViscoPlasticNeedlemanCorrespondenceMaterial.cpp:66-70 *)
  Record flow := mkflow { w_n : N; w_m : N; w_rate : N; w_e0 : N; w_e1 : N }.

  (** ViscoplasticNeedlemanYieldFunction, 387-406, for the plastic multiplier [dl] and the plastic strain [ep] *)
  Definition needleman_yield (w : flow) (Y dt dl ep : N) : N :=
    Y * powf (1 + ep / w_e0 w) (w_n w) / (1 + powf (ep / w_e1 w) 2) * powf (sqr_root (2 / 3) * dl / dt / w_rate w) (w_m w).

  (** fb and fc, 246-252: the residual whose root is sought, with the projected strain increment [inc] and the
      magnitude [magN] of the old deviator *)
  Definition needleman_residual (w : flow) (Y G dt inc magN eN dl : N) : N :=
    inc - dl - 1 / 2 / G * (sqr_root (2 / 3) * needleman_yield w Y dt dl (eN + dl) - magN).

  (** the bisection loop, 244-277: the multiplier and whether the test 268 ended the loop.  [budget] iterations are
      left; when they are used up a message is printed and the last value is taken. *)
  Fixpoint bisect (F : N -> N) (budget : nat) (a b c : N) : (N * bool)%type :=
    match budget with
    | O => (c, false)
    | S budget =>
        let fb := F b in
        let fc := F c in
        let (a, b) := if (0 <? fb) && (0 <? fc) then (a, c) else if (fb <? 0) && (fc <? 0) then (a, c) else (c, b) in
        let c' := (a + b) / 2 in
        if nabs (c' - c) / nabs c' <? lit 1 (10 ^ 6) then (c', true) else bisect F budget a b c'
    end.
  Definition bisect_limit : nat := Z.to_nat 100000.
  (** 237-241: from the interval [0, 1] *)
  Definition needleman_multiplier (F : N -> N) : (N * bool)%type := bisect F bisect_limit 0 1 ((0 + 1) / 2).

  (** updateElasticViscoplasticCauchyStress for one point whose reduced yield stress is [Y], 131-384.
      The second component says whether the bisection ended by its test (true when it was not needed). *)
  Definition needleman (w : flow) (K G Y dt : N) (d s : M3 N) (eN : N) : (J2 N * bool)%type :=
    let e := dev_inc dt d in
    let tr := trial K G dt d s in
    let dev := deviator tr in
    let mag := magnitude dev in
    let vm := von_mises dev in
    if vm <? Y then (j2 tr vm eN, true)
    else
      let devN := deviator s in
      let (dl, ok) := needleman_multiplier (needleman_residual w Y G dt (contract dev e / mag) (sqr_root (contract devN devN)) eN) in
      let surface := needleman_yield w Y dt dl (eN + sqr_root (2 / 3) * dl) in
      if surface <? vm then (radial G surface eN e s dev (spherical tr) mag, ok)
      else (j2 tr vm eN, ok).

  (** the loop over the points, 127-129: the yield stress is reduced around the flaw with the point's model
      coordinates, 176-189 (the formula is the one of [reduced]) *)
  Fixpoint needleman_points (w : flow) (K G Y : N) (flaw : option (V3 N * N * N)) (dt : N) (xs : list (V3 N)) (ds ss : list (M3 N)) (es : list N) : outcome (list (J2 N)) :=
    match xs, ds, ss, es with
    | [], [], [], [] => Ok []
    | x :: xs, d :: ds, s :: ss, e :: es =>
        let? rs := needleman_points w K G Y flaw dt xs ds ss es in
        Ok (fst (needleman w K G (reduced expf Y flaw x) dt d s e) :: rs)
    | _, _, _, _ => UB
    end.
End Needleman.
Arguments flow : clear implicits.
