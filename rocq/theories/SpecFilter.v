(** * Bonds and surfaces in space *)
From Coq Require Import Reals.
From Verif Require Import Base Num SpecGeom.
Local Open Scope R_scope.

(** The points of a bond, ends included. *)
Definition segment (p q y : point) : Prop := exists t, 0 <= t <= 1 /\ y = mix2 (1 - t) t p q.
(** The points of a bond, ends excluded. *)
Definition open_segment (p q y : point) : Prop := exists t, 0 < t < 1 /\ y = mix2 (1 - t) t p q.

(** The extent of a bond across a plane with normal n. *)
Definition extent (n p q : point) : R := Rabs (vdot (vsub q p) n).

(** A rectangle with one corner, normal n, its bottom edge along b with length lb, its other edge
    along b x n with length la; the second one is enlarged by a relative and absolute e. *)
Definition rectangle (n corner b : point) (lb la : R) (y : point) : Prop :=
  exists s t, 0 <= s <= la /\ 0 <= t <= lb /\ y = vadd corner (vadd (vscale (N:=RN) s (vcross b n)) (vscale (N:=RN) t b)).
Definition rectangle_grown (e : R) (n corner b : point) (lb la : R) (y : point) : Prop :=
  exists s t, - e < s < la * (1 + e) /\ - e < t < lb * (1 + e) /\ y = vadd corner (vadd (vscale (N:=RN) s (vcross b n)) (vscale (N:=RN) t b)).

(** A disk without its rim. *)
Definition disk (centre n : point) (r : R) (y : point) : Prop := vdot (vsub y centre) n = 0 /\ distance y centre < r.

(** A triangle with corners p, q, r enlarged by e (in barycentric coordinates). *)
Definition triangle_grown (e : R) (p q r y : point) : Prop :=
  exists a b, - e < a /\ - e < b /\ a + b < 1 + 2 * e /\ y = vadd p (vadd (vscale (N:=RN) a (vsub r p)) (vscale (N:=RN) b (vsub q p))).

(** The unit normal of a triangle. *)
Definition normal_of (p q r : point) : point :=
  let n := vcross (vsub q p) (vsub r p) in vscale (N:=RN) (/ vlen n) n.

(** A quadrilateral whose diagonals meet. *)
Definition convex_quad (p q r s : point) : Prop :=
  exists a b, 0 < a < 1 /\ 0 < b < 1 /\ mix2 (1 - a) a p r = mix2 (1 - b) b q s.
