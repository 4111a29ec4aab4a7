(** * Specification of the Error output *)
From Coq Require Import Reals Permutation.
From Coquelicot Require Import Coquelicot.
From Verif Require Import Base Num ModelError.
Local Open Scope R_scope.

(** An axis-aligned box and its eight corners. *)
Record box := Box { x_lo : R; x_hi : R; y_lo : R; y_hi : R; z_lo : R; z_hi : R }.
Definition pt (a b c : R) : V3 RN := v3 (N:=RN) a b c.
Definition corners (b : box) : list (V3 RN) :=
  [ pt (x_lo b) (y_lo b) (z_lo b); pt (x_hi b) (y_lo b) (z_lo b);
    pt (x_hi b) (y_hi b) (z_lo b); pt (x_lo b) (y_hi b) (z_lo b);
    pt (x_lo b) (y_lo b) (z_hi b); pt (x_hi b) (y_lo b) (z_hi b);
    pt (x_hi b) (y_hi b) (z_hi b); pt (x_lo b) (y_hi b) (z_hi b) ].
(** [spans nodes b]: the nodes are the corners of [b], in any order. *)
Definition spans (nodes : list (V3 RN)) (b : box) : Prop := Permutation nodes (corners b).

Definition side_x (b : box) : R := x_hi b - x_lo b.
Definition side_y (b : box) : R := y_hi b - y_lo b.
Definition side_z (b : box) : R := z_hi b - z_lo b.
(** All sides at least [s]. *)
Definition sides_at_least (s : R) (b : box) : Prop := s <= side_x b /\ s <= side_y b /\ s <= side_z b.
Definition is_cube (b : box) : Prop := side_x b = side_y b /\ side_y b = side_z b.
(** All coordinates between [-m] and [m]. *)
Definition inside (m : R) (b : box) : Prop :=
  - m <= x_lo b /\ x_hi b <= m /\ - m <= y_lo b /\ y_hi b <= m /\ - m <= z_lo b /\ z_hi b <= m.

(** The displacement the output compares with: u(x,y,z) = (x^2, 0, 0). *)
Definition reference (x y z : R) : V3 RN := pt (x * x) 0 0.
(** The squared distance of [u] from it at one place. *)
Definition deviation (u : V3 RN) (x y z : R) : R :=
  (vx u - vx (reference x y z)) ^ 2 + (vy u - vy (reference x y z)) ^ 2 + (vz u - vz (reference x y z)) ^ 2.
(** The squared distance integrated over the box. *)
Definition squared_error (u : V3 RN) (b : box) : R :=
  RInt (fun x => RInt (fun y => RInt (fun z => deviation u x y z) (z_lo b) (z_hi b)) (y_lo b) (y_hi b)) (x_lo b) (x_hi b).

(** One material point: its element, reference and current position. *)
Record cell := Cell { c_box : box; c_x : V3 RN; c_y : V3 RN }.
Definition cell_error (c : cell) : R := squared_error (vsub (c_y c) (c_x c)) (c_box c).
(** [stores b cs]: the owned points of [b] are [cs]. *)
Definition stores (b : eblock RN) (cs : list cell) : Prop :=
  eb_n b = length cs /\
  forall i c, nth_error cs i = Some c ->
    nth_error (eb_x b) i = Some (c_x c) /\ nth_error (eb_y b) i = Some (c_y c) /\
    exists nodes, Forall2 (fun field p => nth_error field i = Some p) (eb_nodes b) nodes /\ spans nodes (c_box c).
