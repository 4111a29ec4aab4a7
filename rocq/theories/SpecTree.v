(** * Point clouds, for C22-C24 *)
From Coq Require Import Reals Sorting.Sorted Permutation.
From Verif Require Import Base Num ModelTree SpecGeom.

(** A possible result of sorting the ids of n points by a coordinate: every id once, in ascending order of
    the coordinate, points with the same coordinate in any order. *)
Definition sorted_ids (pos : nat -> point) (n : nat) (c : component) (l : list nat) : Prop :=
  Permutation l (seq 0 n) /\ StronglySorted (fun i j => (coordinate (N:=RN) pos c i <= coordinate (N:=RN) pos c j)%R) l.
Definition sorted_order (pos : nat -> point) (n : nat) (order : part) : Prop := forall c, sorted_ids pos n c (order c).

(** No two of the points coincide. *)
Definition all_distinct (pos : nat -> point) (n : nat) : Prop := forall i j, i < n -> j < n -> pos i = pos j -> i = j.

(** All coordinates are at most the largest number in magnitude. *)
Definition representable (M : R) (p : point) : Prop := forall c, (- M <= get (N:=RN) p c <= M)%R.
