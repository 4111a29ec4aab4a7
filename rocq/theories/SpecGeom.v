(** * Elements and spheres in space *)
From Coq Require Import Reals.
From Coquelicot Require Import Coquelicot.
From Verif Require Import Base Num ModelGeom.
Local Open Scope R_scope.

Notation point := (V3 RN).

(** The point with the weights u, v, ... at p, q, ... *)
Definition mix2 (u v : R) (p q : point) : point := vadd (vscale (N:=RN) u p) (vscale (N:=RN) v q).
Definition mix3 (u v w : R) (p q r : point) : point := vadd (mix2 u v p q) (vscale (N:=RN) w r).
Definition mix4 (u v w x : R) (p q r s : point) : point := vadd (mix3 u v w p q r) (vscale (N:=RN) x s).

(** A full triangle and a full tetrahedron, by barycentric coordinates. *)
Definition in_triangle (p q r y : point) : Prop :=
  exists u v w, 0 <= u /\ 0 <= v /\ 0 <= w /\ u + v + w = 1 /\ y = mix3 u v w p q r.
Definition in_tet (e : tetra RN) (y : point) : Prop :=
  exists u v w x, 0 <= u /\ 0 <= v /\ 0 <= w /\ 0 <= x /\ u + v + w + x = 1 /\ y = mix4 u v w x (t0 e) (t1 e) (t2 e) (t3 e).

(** The convex hull of some points: the smallest convex set that contains them. *)
Inductive hull (l : list point) : point -> Prop :=
| hull_node p : In p l -> hull l p
| hull_mix s x y : 0 <= s <= 1 -> hull l x -> hull l y -> hull l (mix2 (1 - s) s x y).

Definition distance (p q : point) : R := vlen (vsub p q).

(** A point on one of the triangles that make up the surface of an element. *)
Definition on_surface (l : list (point * point * point)) (y : point) : Prop :=
  exists p q r, In (p, q, r) l /\ in_triangle p q r y.

(** Three points not on one line; four points not in one plane. *)
Definition proper_triangle (p q r : point) : Prop := vcross (vsub q p) (vsub r p) <> v3 (N:=RN) 0 0 0.

(** The oriented volume of a parallelepiped with these edges (the 3x3 determinant) and of a tetrahedron. *)
Definition det3 (a b c : point) : R := vdot a (vcross b c).
Definition oriented_volume (p q r s : point) : R := det3 (vsub q p) (vsub r p) (vsub s p) / 6.

(** h is the distance of s from the plane through p, q, r. *)
Definition height (p q r s : point) (h : R) : Prop :=
  (exists v w, distance s (mix3 (1 - v - w) v w p q r) = h) /\
  (forall v w, h <= distance s (mix3 (1 - v - w) v w p q r)).

(** The area of a triangle. *)
Definition area (p q r : point) : R := vlen (vcross (vsub q p) (vsub r p)) / 2.

Definition shift_tet (e : tetra RN) (d : point) : tetra RN :=
  tet (vadd (t0 e) d) (vadd (t1 e) d) (vadd (t2 e) d) (vadd (t3 e) d).
Definition shift_hex (h : hexa RN) (d : point) : hexa RN :=
  hex (vadd (h0 h) d) (vadd (h1 h) d) (vadd (h2 h) d) (vadd (h3 h) d)
      (vadd (h4 h) d) (vadd (h5 h) d) (vadd (h6 h) d) (vadd (h7 h) d).

(** The parallelepiped with corner o and edges u, v, w, in the node order of a hexahedron. *)
Definition block (o u v w : point) : hexa RN :=
  hex o (vadd o u) (vadd (vadd o u) v) (vadd o v)
      (vadd o w) (vadd (vadd o u) w) (vadd (vadd (vadd o u) v) w) (vadd (vadd o v) w).
Definition in_block (o u v w : point) (y : point) : Prop :=
  exists a b c, 0 <= a <= 1 /\ 0 <= b <= 1 /\ 0 <= c <= 1 /\
    y = vadd o (vadd (vadd (vscale (N:=RN) a u) (vscale (N:=RN) b v)) (vscale (N:=RN) c w)).

(** The trilinear map of the unit cube onto a hexahedron, and its partial derivatives. *)
Definition comb8 (c : list R) (h : hexa RN) : point :=
  match c with
  | [c0; c1; c2; c3; c4; c5; c6; c7] =>
    vadd (mix4 c0 c1 c2 c3 (h0 h) (h1 h) (h2 h) (h3 h)) (mix4 c4 c5 c6 c7 (h4 h) (h5 h) (h6 h) (h7 h))
  | _ => v3 (N:=RN) 0 0 0
  end.
Definition trilinear (h : hexa RN) (x y z : R) : point :=
  comb8 [(1 - x) * (1 - y) * (1 - z); x * (1 - y) * (1 - z); x * y * (1 - z); (1 - x) * y * (1 - z);
         (1 - x) * (1 - y) * z; x * (1 - y) * z; x * y * z; (1 - x) * y * z] h.
Definition trilinear_x (h : hexa RN) (y z : R) : point :=
  comb8 [- ((1 - y) * (1 - z)); (1 - y) * (1 - z); y * (1 - z); - (y * (1 - z)); - ((1 - y) * z); (1 - y) * z; y * z; - (y * z)] h.
Definition trilinear_y (h : hexa RN) (x z : R) : point :=
  comb8 [- ((1 - x) * (1 - z)); - (x * (1 - z)); x * (1 - z); (1 - x) * (1 - z); - ((1 - x) * z); - (x * z); x * z; (1 - x) * z] h.
Definition trilinear_z (h : hexa RN) (x y : R) : point :=
  comb8 [- ((1 - x) * (1 - y)); - (x * (1 - y)); - (x * y); - ((1 - x) * y); (1 - x) * (1 - y); x * (1 - y); x * y; (1 - x) * y] h.
Definition jacobian (h : hexa RN) (x y z : R) : R := det3 (trilinear_x h y z) (trilinear_y h x z) (trilinear_z h x y).

(** The volume of the image of the unit cube. *)
Definition trilinear_volume (h : hexa RN) : R :=
  RInt (fun x => RInt (fun y => RInt (fun z => jacobian h x y z) 0 1) 0 1) 0 1.

(** The flux of the field x/3 through a triangle, and through a quadrilateral face divided
    into four triangles at the mean of its corners. *)
Definition flux3 (p q r : point) : R := det3 p q r / 6.
Definition mean4 (p q r s : point) : point := mix4 (/ 4) (/ 4) (/ 4) (/ 4) p q r s.
Definition flux4 (f : point * point * point * point) : R :=
  let '(p, q, r, s) := f in
  let m := mean4 p q r s in flux3 p q m + flux3 q r m + flux3 r s m + flux3 s p m.

(** The faces of a hexahedron, corners counterclockwise seen from outside. *)
Definition faces (h : hexa RN) : list (point * point * point * point) :=
  [ (h0 h, h1 h, h5 h, h4 h); (h1 h, h2 h, h6 h, h5 h); (h2 h, h3 h, h7 h, h6 h);
    (h3 h, h0 h, h4 h, h7 h); (h0 h, h3 h, h2 h, h1 h); (h4 h, h5 h, h6 h, h7 h) ].
Definition turn (f : point * point * point * point) := let '(p, q, r, s) := f in (q, r, s, p).
Definition reverse (f : point * point * point * point) := let '(p, q, r, s) := f in (s, r, q, p).
Fixpoint total (l : list R) : R := match l with [] => 0 | a :: l' => a + total l' end.

(** A hexahedron cut at the fraction s between two opposite faces. *)
Definition cut_lower (s : R) (h : hexa RN) : hexa RN :=
  let m := mix2 (1 - s) s in
  hex (h0 h) (h1 h) (h2 h) (h3 h) (m (h0 h) (h4 h)) (m (h1 h) (h5 h)) (m (h2 h) (h6 h)) (m (h3 h) (h7 h)).
Definition cut_upper (s : R) (h : hexa RN) : hexa RN :=
  let m := mix2 (1 - s) s in
  hex (m (h0 h) (h4 h)) (m (h1 h) (h5 h)) (m (h2 h) (h6 h)) (m (h3 h) (h7 h)) (h4 h) (h5 h) (h6 h) (h7 h).

(** The same hexahedron with its nodes numbered from another face: the faces 0321, 0154 and
    0473 in turn take the place of the bottom. *)
Definition renumber (h : hexa RN) : hexa RN :=
  hex (h0 h) (h3 h) (h7 h) (h4 h) (h1 h) (h2 h) (h6 h) (h5 h).
