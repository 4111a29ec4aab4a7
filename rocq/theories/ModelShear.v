(** * Shear correction factor

    src/materials/material_utilities.cxx:86-146 and 330-501 and its use by
    Peridigm_MultiphysicsElasticMaterial.cpp:181-193 and Peridigm_ElasticPlasticHardeningMaterial.cpp:130-145.

    [y] is the scratch copy of the coordinates that the materials make; owned points come first. *)
From Coq Require Import ZArith.
From Verif Require Import Base Num ModelForce.

Section Shear.
  Context {N : Num}.
  Local Open Scope num_scope.

  (** material_utilities.h, enum PURE_SHEAR *)
  Inductive shear_mode := XY | ZX | YZ.

  (** material_utilities.cxx:112-142: where the neighbour at [XP] of the point at [X] is put *)
  Definition shear_to (mode : shear_mode) (gamma : N) (X XP : V3 N) : V3 N :=
    let d := vsub XP X in
    let zx := match mode with ZX => gamma * vx d | _ => 0 end in
    let xz := match mode with ZX => gamma * vz d | _ => 0 end in
    let xy := match mode with XY => gamma * vy d | _ => 0 end in
    let yx := match mode with XY => gamma * vx d | _ => 0 end in
    let yz := match mode with YZ => gamma * vz d | _ => 0 end in
    let zy := match mode with YZ => gamma * vy d | _ => 0 end in
    v3 (vx XP + xy + xz) (vy XP + yz + yx) (vz XP + zx + zy).
  (** material_utilities.cxx:95-146 *)
  Definition set_pure_shear (mode : shear_mode) (gamma : N) (x : list (V3 N)) (X : V3 N) (js : list nat) (y : list (V3 N))
    : outcome (list (V3 N)) :=
    foldM (fun y j => let? XP := at_ub x j in upd_ub y j (shear_to mode gamma X XP)) y js.

  (** computeDilatation of one point, material_utilities.cxx:333-373; bondDamage = 0.0 *)
  Definition dilatation_one (omega : N -> N -> N) (h : N) (x y : list (V3 N)) (v : list N) (m : N) (X Y : V3 N) (js : list nat) : outcome N :=
    foldM (fun theta j =>
             let? vj := at_ub v j in
             let? XP := at_ub x j in
             let? YP := at_ub y j in
             let d := vlen (vsub XP X) in
             let e := vlen (vsub YP Y) - d in
             Ok (theta + 3 * omega d h * (1 - 0) * d * e * vj / m)) 0 js.
  (** compute_norm_2_deviatoric_extension, material_utilities.cxx:376-444 *)
  Definition norm_deviatoric (omega : N -> N -> N) (h : N) (x y : list (V3 N)) (v : list N) (m : N) (X Y : V3 N) (js : list nat) : outcome N :=
    let? theta := dilatation_one omega h x y v m X Y js in
    foldM (fun s j =>
             let? vj := at_ub v j in
             let? XP := at_ub x j in
             let? YP := at_ub y j in
             let zeta := vlen (vsub XP X) in
             let ed := vlen (vsub YP Y) - zeta - theta * zeta / 3 in
             Ok (s + ed * omega zeta h * ed * vj)) 0 js.

  (** One of the three probes, e.g. material_utilities.cxx:474-477 *)
  Definition probe (omega : N -> N -> N) (h gamma : N) (x : list (V3 N)) (v : list N) (m : N) (p : nat) (js : list nat) (mode : shear_mode)
    (y : list (V3 N)) : outcome (list (V3 N) * N) :=
    let? X := at_ub x p in
    let? y := upd_ub y p X in
    let? y := set_pure_shear mode gamma x X js y in
    let? Y := at_ub y p in
    let? s := norm_deviatoric omega h x y v m X Y js in
    Ok (y, s).
  (** material_utilities.cxx:467-499: one owned point; [scf > max_dsf] *)
  Definition shear_point (omega : N -> N -> N) (h gamma : N) (x : list (V3 N)) (v m : list N) (p : nat) (js : list nat) (y : list (V3 N))
    : outcome (list (V3 N) * N) :=
    let? mp := at_ub m p in
    let? (y, s1) := probe omega h gamma x v mp p js XY y in
    let? (y, s2) := probe omega h gamma x v mp p js ZX y in
    let max := if s1 <? s2 then s2 else s1 in
    let? (y, s3) := probe omega h gamma x v mp p js YZ y in
    let max := if max <? s3 then s3 else max in
    let? X := at_ub x p in
    let? y := upd_ub y p X in
    Ok (y, ofZ 4 * gamma * gamma * mp / max / ofZ 15).
  Fixpoint shear_points (omega : N -> N -> N) (h gamma : N) (x : list (V3 N)) (v m : list N) (p : nat) (nbrs : list (list nat)) (y : list (V3 N))
    {struct nbrs} : outcome (list N) :=
    match nbrs with
    | [] => Ok []
    | js :: rest =>
      let? (y, s) := shear_point omega h gamma x v m p js y in
      let? r := shear_points omega h gamma x v m (1 + p) rest y in
      Ok (s :: r)
    end.
  (** computeShearCorrectionFactor, material_utilities.cxx:447-501; gamma = 1.0e-6 *)
  Definition shear_factors (omega : N -> N -> N) (h : N) (x : list (V3 N)) (v m : list N) (nbrs : list (list nat)) (y : list (V3 N))
    : outcome (list N) :=
    shear_points omega h (lit 1 1000000) x v m 0 nbrs y.

  (** MultiphysicsElasticMaterial.cpp:181-193: weighted volumes and factors; [apply] is "Apply Shear Correction Factor" *)
  Definition multiphysics_initialize (apply : bool) (omega : N -> N -> N) (h : N) (x y : list (V3 N)) (v : list N) (nbrs : list (list nat))
    : outcome (list N * list N) :=
    let? m := dilatations (fun p _ js => weightedVolume omega x v h p js) 0 0 nbrs in
    let? s := if apply then shear_factors omega h x v m nbrs y else Ok (map (fun _ => 1) nbrs) in
    Ok (m, s).
  (** ElasticPlasticHardeningMaterial.cpp:130-145: the factors are inverted *)
  Definition hardening_initialize (apply : bool) (omega : N -> N -> N) (h : N) (x y : list (V3 N)) (v : list N) (nbrs : list (list nat))
    : outcome (list N * list N) :=
    let? m := dilatations (fun p _ js => weightedVolume omega x v h p js) 0 0 nbrs in
    let? s := if apply then let? s := shear_factors omega h x v m nbrs y in Ok (map (fun a => 1 / a) s)
              else Ok (map (fun _ => 1) nbrs) in
    Ok (m, s).
End Shear.
