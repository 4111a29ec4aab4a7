(** * The linear peridynamic solid with weights for its bonds

    src/materials/Peridigm_LinearLPSPVMaterial.cpp:233-394.  The loops of the material are its own;
    with cell volumes its force is [linear_lps] (ModelForce).  Here: the dilatation, and the force
    with the improved quadrature.  The quadrature weights come from a library outside the sources
    and are an argument; so are the stored influence function values. *)
From Coq Require Import ZArith.
From Verif Require Import Base Num ModelForce.

Section Linear.
  Context {N : Num}.
  Local Open Scope num_scope.
  Variables x y : list (V3 N).
  Variables infl dmg : list N.
  (** neighborWeight of bond [k] to neighbour [j], 270-278 and 335-343 *)
  Variable weight : nat -> nat -> outcome N.

  (** the loops over the bonds of a point, [k] is bondIndex *)
  Fixpoint bonds_from {A} (f : A -> nat -> nat -> outcome A) (acc : A) (k : nat) (js : list nat) : outcome A :=
    match js with
    | [] => Ok acc
    | j :: js' => let? acc' := f acc k j in bonds_from f acc' (1 + k) js'
    end.
  (** neighbour minus point: zeta and difference of the displacements, 279-283 and 344-348 *)
  Definition bond_of (X Y : V3 N) (j : nat) : outcome (V3 N * V3 N) :=
    let? XP := at_ub x j in
    let? YP := at_ub y j in
    Ok (vsub XP X, vsub (vsub YP XP) (vsub Y X)).

  (** precompute, one point, 262-291 *)
  Definition lin_dilatation (m : list N) (p k : nat) (js : list nat) : outcome N :=
    let? X := at_ub x p in
    let? Y := at_ub y p in
    let? s := bonds_from (fun acc k j =>
      let? wt := weight k j in
      let? (z, du) := bond_of X Y j in
      let? om := at_ub infl k in
      let? b := at_ub dmg k in
      Ok (acc + om * (1 - b) * vdot z du * wt)) 0 k js in
    match js with
    | [] => Ok s
    | _ => let? mp := at_ub m p in Ok (s * (3 / mp))
    end.

  (** temp1 zeta + temp2 matVec, 349-364, with dilatation and weighted volume of one end *)
  Definition lin_pull (K MU om th m : N) (z du : V3 N) : V3 N :=
    let t1 := (ofZ 9 * K - ofZ 15 * MU) * om * th / (3 * m) in
    let t2 := ofZ 15 * MU * om / (m * vdot z z) in
    let row a := a * vx z * vx du + a * vy z * vy du + a * vz z * vz du in
    v3 (t1 * vx z + t2 * row (vx z)) (t1 * vy z + t2 * row (vy z)) (t1 * vz z + t2 * row (vz z)).
  (** computeForce, one point, with the improved quadrature, 326-379: both halves go to the point
      itself; the second is without the bond damage (372-374) *)
  Definition improved_force (K MU : N) (m theta : list N) (p k : nat) (js : list nat) : outcome (V3 N) :=
    let? X := at_ub x p in
    let? Y := at_ub y p in
    bonds_from (fun acc k j =>
      let? wt := weight k j in
      let? (z, du) := bond_of X Y j in
      let? om := at_ub infl k in
      let? mp := at_ub m p in
      let? th := at_ub theta p in
      let? b := at_ub dmg k in
      let acc := vadd acc (vscale wt (vscale (1 - b) (lin_pull K MU om th mp z du))) in
      let? mj := at_ub m j in
      let? tj := at_ub theta j in
      Ok (vsub acc (vscale wt (vscale (- (1)) (lin_pull K MU om tj mj z du))))) vzero k js.

  (** the loops over the points, 262 and 326 *)
  Fixpoint points_from {A} (f : nat -> nat -> list nat -> outcome A) (p k : nat) (nbrs : list (list nat)) : outcome (list A) :=
    match nbrs with
    | [] => Ok []
    | js :: rest => let? a := f p k js in let? r := points_from f (1 + p) (length js + k) rest in Ok (a :: r)
    end.
End Linear.
(** the two sources of the weights *)
Definition cell_weight {N : Num} (v : list N) (k j : nat) : outcome N := at_ub v j.
Definition bond_weight {N : Num} (l : list N) (k j : nat) : outcome N := at_ub l k.
