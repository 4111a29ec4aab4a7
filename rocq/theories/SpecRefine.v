(** * Neighbours by intersection with the horizon (C73) *)
From Coq Require Import Reals Sorting.Sorted.
From Verif Require Import Base Num ModelGeom ModelRefine SpecGeom SpecInterface.
Local Open Scope R_scope.

(** The corners of an element given by its nodes: tetrahedra have 4 or 10 nodes, hexahedra 8 or 20,
    the corners first; a sphere has one node and no extent. *)
Definition corners_of (nodes : list point) : list point :=
  match length nodes with 4 | 10 => firstn 4 nodes | 8 | 20 => firstn 8 nodes | _ => [] end%nat.
Definition known (nodes : list point) : Prop := In (length nodes) [1; 4; 8; 10; 20]%nat.
(** The largest distance between two corners of one element, zero if there are none *)
Definition largest_dimension (elements : list (list point)) (D : R) : Prop :=
  (forall e p q, In e elements -> In p (corners_of e) -> In q (corners_of e) -> distance p q <= D) /\
  (D = 0 \/ exists e p q, In e elements /\ In p (corners_of e) /\ In q (corners_of e) /\ distance p q = D).

(** A point of the surface of the hexahedron [h] lies in the (open, closed) ball. *)
Definition meets_inside (h : hexa RN) (x : point) (r : R) : Prop := exists y, on_surface (hex_triangles h) y /\ distance y x < r.
Definition meets (h : hexa RN) (x : point) (r : R) : Prop := exists y, on_surface (hex_triangles h) y /\ distance y x <= r.

(** The elements of a processor: global numbers (owned ones first), hexahedra, centroids; the
    positions and horizons of the owned ones are the first of these. *)
Record hex_elements (gids : list Z) (corners : Z -> list point) (hx : Z -> hexa RN) (lists : list (list nat)) : Prop := {
  he_gids : NoDup gids; he_owned : (length lists <= length gids)%nat;
  he_range : Forall (Forall (fun j => j < length gids)%nat) lists;
  he_corners : forall g, In g gids -> corners g = hex_nodes (hx g);
  he_proper : forall g p q r, In g gids -> In (p, q, r) (hex_triangles (hx g)) -> proper_triangle p q r }.

(** The global numbers listed as neighbours of owned element [i] *)
Definition listed_gids (gids : list Z) (l : list nat) (out : list Z) : Prop := Forall2 (fun j g => nth_error gids j = Some g) l out.
