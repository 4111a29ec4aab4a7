(** * Bonds with volumes, and even expansion *)
From Coq Require Import Reals List.
From Verif Require Import Base Num ModelForce SpecGeom.
Local Open Scope R_scope.

(** neighbours with positions, and bond volumes *)
Definition bonds_ok (x : list point) (js : list nat) (bv : list R) : Prop := Forall2 (fun j _ => (j < length x)%nat) js bv.
(** the neighbourhood expands evenly by the factor 1 + e and is moved and turned in any way: all distances from the point grow by it *)
Definition expands (e : R) (x y : list point) (X Y : point) (js : list nat) : Prop :=
  forall j XP YP, In j js -> nth_error x j = Some XP -> nth_error y j = Some YP -> distance YP Y = (1 + e) * distance XP X.
(** the volumes of the bonds are those of the cells of the neighbours *)
Definition cell_volumes {N : Num} (v : list N) (js : list nat) (bv : list N) : Prop := Forall2 (fun j b => nth_error v j = Some b) js bv.
