(** * Bond volumes: the part of a neighbour's cell within the horizon

    src/io/bond_volume/quick_grid/calculators.h:63-195, calculators.cxx:116-319.  The reader of the YAML
    file (calculators.cxx:63-113) is not modelled. *)
From Coq Require Import ZArith.
From Verif Require Import Base Num ModelForce ModelGrid ModelCylinder.

Section BondVolume.
  Context {N : Num}.
  Local Open Scope num_scope.

  (** InsideSphere, src/io/utilities/Vector3D.h:156-164 *)
  Definition inside_sphere (radius : N) (u v : V3 N) : bool :=
    let dx := vx v - vx u in
    let dy := vy v - vy u in
    let dz := vz v - vz u in
    dx * dx + dy * dy + dz * dz - radius * radius <? 0.

  (** nX = nY = nZ = nR = nTheta = 16, calculators.h:86-88 and 130-132 *)
  Definition sub_cells : nat := 16.
  (** the Spec1D of one direction of a cell, calculators.cxx:144-146, 201-203 and 238-240 *)
  Definition sub_spec (middle width : N) : spec1 N := Spec1 sub_cells (middle - width / 2) width.

  (** VolumeFractionCalculator, calculators.h:114-151 *)
  Record box_calc := BoxCalc { bc_horizon : N; bc_dx : N; bc_dy : N; bc_dz : N }.
  Definition make_box (sx sy sz : spec1 N) (horizon : N) : box_calc := BoxCalc horizon (cell_size sx) (cell_size sy) (cell_size sz).
  Definition box_diagonal (c : box_calc) : N := sqr_root (bc_dx c * bc_dx c + bc_dy c * bc_dy c + bc_dz c * bc_dz c).
  Definition box_cell_volume (c : box_calc) : N := bc_dx c * bc_dy c * bc_dz c.
  (** VolumeFractionCalculator::operator(), calculators.cxx:234-267 *)
  Definition box_volume (c : box_calc) (P Q : V3 N) : N :=
    let sx := sub_spec (vx Q) (bc_dx c) in
    let sy := sub_spec (vy Q) (bc_dy c) in
    let sz := sub_spec (vz Q) (bc_dz c) in
    let dV := cell_size sx * cell_size sy * cell_size sz in
    fold_left (fun vol x =>
      fold_left (fun vol y =>
        fold_left (fun vol z => vol + (if inside_sphere (bc_horizon c) P (v3 x y z) then dV else 0))
          (discretization sz) vol)
        (discretization sy) vol)
      (discretization sx) 0.

  (** RingVolumeFractionCalculator, calculators.h:63-111, with the functions cos, sin and atan2 of the C library *)
  Record ring_calc := RingCalc { rc_horizon : N; rc_dr : N; rc_dt : N; rc_dz : N; rc_outer : N; rc_centre : V3 N }.
  Definition make_ring_calc (r : ring N) (axis : spec1 N) (horizon : N) : ring_calc :=
    RingCalc horizon (cell_size (ray_spec r)) (cell_size (ring_spec r)) (cell_size axis) (r_outer r) (r_centre r).
  Definition ring_diagonal (c : ring_calc) : N :=
    sqr_root (rc_dr c * rc_dr c + rc_outer c * rc_dt c * (rc_outer c * rc_dt c) + rc_dz c * rc_dz c).
  Section Polar.
    Variables cosf sinf : N -> N.
    Variable atan2f : N -> N -> N.
    (** the three Spec1D of a cell, calculators.cxx:117-154 and 173-211: the axis is (0, 0, 1) *)
    Definition ring_specs (c : ring_calc) (Q : V3 N) : spec1 N * spec1 N * spec1 N :=
      let axis := v3 0 0 1 in
      let qc := vsub Q (rc_centre c) in
      let h := vdot qc axis in
      let qZ := v3 (vx axis * h) (vy axis * h) (vz axis * h) in
      let qR := vsub qc qZ in
      let rC := sqr_root (vx qR * vx qR + vy qR * vy qR + vz qR * vz qR) in
      let zC := vz (rc_centre c) + h in
      let thetaC := atan2f (vy qR) (vx qR) in
      (sub_spec rC (rc_dr c), sub_spec thetaC (rc_dt c), sub_spec zC (rc_dz c)).
    (** RingVolumeFractionCalculator::cellVolume, 116-168 *)
    Definition ring_cell_volume (c : ring_calc) (Q : V3 N) : N :=
      let '(sr, st, sz) := ring_specs c Q in
      fold_left (fun vol r =>
        let dV := r * cell_size sr * cell_size st * cell_size sz in
        fold_left (fun vol _ => fold_left (fun vol _ => vol + dV) (discretization sz) vol) (discretization st) vol)
        (discretization sr) 0.
    (** RingVolumeFractionCalculator::operator(), 171-232: the centre is not added to the points (219-225) *)
    Definition ring_volume (c : ring_calc) (P Q : V3 N) : N :=
      let '(sr, st, sz) := ring_specs c Q in
      fold_left (fun vol r =>
        let dV := r * cell_size sr * cell_size st * cell_size sz in
        fold_left (fun vol theta =>
          let x := r * cosf theta in
          let y := r * sinf theta in
          fold_left (fun vol z => vol + (if inside_sphere (rc_horizon c) P (v3 x y z) then dV else 0))
            (discretization sz) vol)
          (discretization st) vol)
        (discretization sr) 0.
  End Polar.

  (** one neighbourhood, calculators.cxx:280-295 and 307-314: [p] is the place of the point, [n] neighbours are
      left in [list].  What is written, in order; the array written to is long enough, as the
      header demands (calculators.h:169-170).  Volumes and what is left of the list. *)
  Fixpoint bond_row (calc : V3 N -> V3 N -> N) (x : list (V3 N)) (p n : nat) (list : list nat) : outcome (Datatypes.list N * Datatypes.list nat) :=
    match n with
    | O => Ok ([], list)
    | S n' =>
        match list with
        | [] => UB
        | q :: list' =>
            let? P := at_ub x p in
            let? Q := at_ub x q in
            let? (vs, rest) := bond_row calc x p n' list' in
            Ok (calc P Q :: vs, rest)
        end
    end.
  (** compute_bond_volume for all owned points, calculators.cxx:270-296: [owned] points are left, the next is [p] *)
  Fixpoint bond_volume_rows (calc : V3 N -> V3 N -> N) (x : list (V3 N)) (owned p : nat) (list : list nat) : outcome (Datatypes.list N) :=
    match owned with
    | O => Ok []
    | S owned' =>
        match list with
        | [] => UB
        | n :: list' =>
            let? (vs, rest) := bond_row calc x p n list' in
            let? ws := bond_volume_rows calc x owned' (S p) rest in
            Ok (vs ++ ws)
        end
    end.
End BondVolume.
Arguments box_calc : clear implicits.
Arguments ring_calc : clear implicits.
