(** * Small displacements *)
From Coq Require Import Reals List.
From Verif Require Import Base Num ModelFilter ModelGeom SpecGeom.
Local Open Scope R_scope.

(** the displacement of a point *)
Definition moved_by (X Y : point) : point := vsub Y X.
(** displacements y3 are c1 times those of y1 plus c2 times those of y2 *)
Definition superposed (c1 c2 : R) (x y1 y2 y3 : list point) : Prop :=
  length y3 = length x /\ length y1 = length x /\ length y2 = length x /\
  forall i X Y1 Y2 Y3, nth_error x i = Some X -> nth_error y1 i = Some Y1 -> nth_error y2 i = Some Y2 -> nth_error y3 i = Some Y3 ->
    moved_by X Y3 = mix2 c1 c2 (moved_by X Y1) (moved_by X Y2).
(** numbers likewise *)
Definition superposed_values (c1 c2 : R) (t1 t2 t3 : list R) : Prop :=
  length t3 = length t1 /\ forall i a b, nth_error t1 i = Some a -> nth_error t2 i = Some b -> nth_error t3 i = Some (c1 * a + c2 * b).
(** a translation and a small rotation about the axis w *)
Definition rigid_displacement (a w : point) (x y : list point) : Prop :=
  forall i X Y, nth_error x i = Some X -> nth_error y i = Some Y -> moved_by X Y = vadd a (vcross w X).
(** an even expansion, about any centre *)
Definition even_displacement (a : point) (e : R) (x y : list point) : Prop :=
  forall i X Y, nth_error x i = Some X -> nth_error y i = Some Y -> moved_by X Y = vadd a (vscale (N:=RN) e X).
(** The linear peridynamic solid: the force state of a bond with influence om and linear strain eps at an end with
    weighted volume m and dilatation th, volumetric and deviatoric part. *)
Definition linear_state (K G om m th eps : R) : R := om / m * (3 * K * th + 15 * G * (eps - th / 3)).
(** The strain of the bond from X to XP whose ends move to Y and YP, to first order. *)
Definition linear_strain (X XP Y YP : point) : R :=
  let z := vsub XP X in vdot z (vsub (moved_by XP YP) (moved_by X Y)) / vdot z z.
