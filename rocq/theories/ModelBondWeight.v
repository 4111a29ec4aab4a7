(** * Weighted volume, dilatation and deviatoric extension with bond volumes

    src/materials/material_utilities.cxx:523-680, of one point [X] (deformed: [Y]) with the neighbours
    [js]; [bv] are the volumes of its bonds, in the order of the neighbours. *)
From Coq Require Import ZArith.
From Verif Require Import Base Num ModelForce.

Section BondWeight.
  Context {N : Num}.
  Local Open Scope num_scope.
  Variables x y : list (V3 N).
  Variable h : N.

  (** the loops over neighbours and bond volumes, 547-557, 588-607 and 647-676 *)
  Fixpoint over_bonds (f : N -> nat -> N -> outcome N) (acc : N) (js : list nat) (bv : list N) : outcome N :=
    match js, bv with
    | [], _ => Ok acc
    | j :: js', b :: bv' => let? acc' := f acc j b in over_bonds f acc' js' bv'
    | _ :: _, [] => UB
    end.
  (** computeWeightedVolume, 531-561 *)
  Definition weighted_bv (omega : N -> N -> N) (X : V3 N) (js : list nat) (bv : list N) : outcome N :=
    over_bonds (fun m j b =>
      let? XP := at_ub x j in
      let z2 := vdot (vsub XP X) (vsub XP X) in
      Ok (m + omega (sqr_root z2) h * z2 * b)) 0 js bv.
  (** computeDilatation, 565-609; bondDamage is 0 *)
  Definition dilatation_bv (omega : N -> N -> N) (X Y : V3 N) (m : N) (js : list nat) (bv : list N) : outcome N :=
    over_bonds (fun theta j b =>
      let? XP := at_ub x j in
      let? YP := at_ub y j in
      let d := vlen (vsub XP X) in
      let e := vlen (vsub YP Y) - d in
      Ok (theta + 3 * omega d h * (1 - 0) * d * e * b / m)) 0 js bv.
  (** compute_norm_2_deviatoric_extension, 612-679: the dilatation takes the influence function of the
      program, [omega0], whatever [omega] is given (638) *)
  Definition deviatoric_bv (omega0 omega : N -> N -> N) (X Y : V3 N) (m : N) (js : list nat) (bv : list N) : outcome N :=
    let? theta := dilatation_bv omega0 X Y m js bv in
    over_bonds (fun s j b =>
      let? XP := at_ub x j in
      let? YP := at_ub y j in
      let zeta := vlen (vsub XP X) in
      let dY := vlen (vsub YP Y) in
      let ed := dY - zeta - theta * zeta / 3 in
      Ok (s + ed * omega zeta h * ed * b)) 0 js bv.
End BondWeight.
