(** * Clouds of points distributed by axis-aligned cuts, for C25 *)
From Coq Require Import Reals Permutation.
From Verif Require Import Base Num ModelTree ModelFilter ModelParallel SpecGeom SpecTree.
Local Open Scope R_scope.

(** Recursive bisection of space by planes normal to an axis.  Either side may own points on the plane. *)
Inductive cutting := Whole (rank : nat) | Cut (c : component) (v : R) (below above : cutting).
Fixpoint ranks (t : cutting) : list nat :=
  match t with Whole r => [r] | Cut _ _ a b => ranks a ++ ranks b end.
Definition along (c : component) (x : point) : R := get (N:=RN) x c.
Fixpoint region (t : cutting) (rank : nat) (x : point) : Prop :=
  match t with
  | Whole r => r = rank
  | Cut c v a b => along c x <= v /\ region a rank x \/ v <= along c x /\ region b rank x
  end.

(** The points of the whole cloud: processor and local id *)
Definition is_point (ps : list (processor RN)) (r i : nat) (p : processor RN) : Prop := nth_error ps r = Some p /\ (i < owned p)%nat.

(** A cloud distributed over the processors by a recursive bisection; every processor has points. *)
Record distributed (t : cutting) (ps : list (processor RN)) : Prop := {
  each_rank_once : Permutation (ranks t) (seq 0 (length ps));
  not_empty : forall p, In p ps -> (0 < owned p)%nat;
  in_region : forall r i p, is_point ps r i p -> region t r (at_x p i);
  gids_differ : forall r i p r' i' p', is_point ps r i p -> is_point ps r' i' p' -> gid p i = gid p' i' -> r = r' /\ i = i';
  horizons_nonneg : forall r i p, is_point ps r i p -> 0 <= horizon p i;
  sorted_by_axis : forall p, In p ps -> sorted_order (at_x p) (owned p) (by_axis p)
}.

(** The box is a closed box. *)
Definition in_box (b : range RN) (x : point) : Prop := forall c, along c (low b) <= along c x <= along c (high b).

(** Zoltan_LB_Box_Assign: at least all processors whose region meets the box, none twice; or only those. *)
Definition assigns (t : cutting) (n : nat) (assign : range RN -> list nat) : Prop :=
  forall b, NoDup (assign b) /\ (forall q, In q (assign b) -> (q < n)%nat) /\
  forall q x, (q < n)%nat -> in_box b x -> region t q x -> In q (assign b).
Definition assigns_only (t : cutting) (assign : range RN -> list nat) : Prop :=
  forall b q, (exists x, in_box b x) -> In q (assign b) -> exists x, in_box b x /\ region t q x.

(** Zoltan's bisection of n points into n parts: one point in each part; the box search finds, without
    repetition, at least the parts of the points in the box. *)
Definition bisects (xs : list point) (t : zoltan_tree RN) : Prop :=
  Permutation (parts t) (seq 0 (length xs)) /\
  forall b, NoDup (box t b) /\ (forall q, In q (box t b) -> (q < length xs)%nat) /\
  forall i x q, nth_error xs i = Some x -> nth_error (parts t) i = Some q -> in_box b x -> In q (box t b).

(** Points of different processors never share the coordinate across a plane that separates the two regions. *)
Definition strictly_cut (t : cutting) (ps : list (processor RN)) : Prop :=
  forall r i p r' i' p', is_point ps r i p -> is_point ps r' i' p' -> r <> r' ->
    forall c v, (forall x y, region t r x -> region t r' y -> along c x <= v <= along c y) -> along c (at_x p i) < along c (at_x p' i').

(** No filter removes the bond; [same] says that both ends are the same point. *)
Definition unfiltered (fs : list (filter RN)) (same : Prop) (x y : point) : Prop :=
  forall f, In f fs -> ~ (same /\ include_self f = false) /\ cuts f x y = false.

(** [l] holds every point of the cloud within the horizon of point (r, i) that no filter removes, once, and nothing else. *)
Definition exact_neighbors (ps : list (processor RN)) (fs : list (filter RN)) (r i : nat) (p : processor RN) (l : list nat) : Prop :=
  NoDup l /\ (forall g, In g l -> exists r' i' p', is_point ps r' i' p' /\ g = gid p' i') /\
  forall r' i' p', is_point ps r' i' p' ->
    (In (gid p' i') l <-> distance (at_x p' i') (at_x p i) <= horizon p i /\ unfiltered fs (r' = r /\ i' = i) (at_x p i) (at_x p' i')).
