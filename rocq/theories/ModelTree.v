(** * The search tree of src/io/kdtree.h

    kdtree, point_array, find_median, make_tree, search, nn_search, all_neighbors_within_radius,
    nearest_neighbor_search.  The array of coordinates is a function [pos] from point ids to
    positions.  Reads and writes beyond an array and null pointers are outcome UB. *)
From Verif Require Import Base Num ModelScalar.

(** component and span_axis, kdtree.h 81-87 *)
Inductive component := CompX | CompY | CompZ.
Definition next_component (c : component) : component :=
  match c with CompX => CompY | CompY => CompZ | CompZ => CompX end.
Definition same_component (a b : component) : bool :=
  match a, b with CompX, CompX | CompY, CompY | CompZ, CompZ => true | _, _ => false end.

Section Tree.
  Context {N : Num}.
  Local Open Scope num_scope.

  (** numeric_limits<value_type>::max() *)
  Variable max_value : N.
  (** The coordinates of the points *)
  Variable pos : nat -> V3 N.

  Definition get (p : V3 N) (c : component) : N := match c with CompX => vx p | CompY => vy p | CompZ => vz p end.
  Definition coordinate (c : component) (id : nat) : N := get (pos id) c.

  (** point::operator<=, kdtree.h 106-113 *)
  Definition point_le (p q : V3 N) : bool := ((vx p <=? vx q) && (vy p <=? vy q) && (vz p <=? vz q))%bool.

  (** rectangular_range, kdtree.h 149-209 *)
  Record range := { low : V3 N; high : V3 N }.
  Definition whole_range : range := {| low := v3 (- max_value) (- max_value) (- max_value); high := v3 max_value max_value max_value |}.
  Definition cube (p : V3 N) (r : N) : range := {| low := v3 (vx p - r) (vy p - r) (vz p - r); high := v3 (vx p + r) (vy p + r) (vz p + r) |}.
  (** intersect, kdtree.h 134-147 *)
  Definition set_component (p : V3 N) (c : component) (x : N) : V3 N :=
    match c with CompX => v3 x (vy p) (vz p) | CompY => v3 (vx p) x (vz p) | CompZ => v3 (vx p) (vy p) x end.
  Definition range_left (r : range) (c : component) (cut : N) : range := {| low := low r; high := set_component (high r) c cut |}.
  Definition range_right (r : range) (c : component) (cut : N) : range := {| low := set_component (low r) c cut; high := high r |}.
  Definition contains_point (r : range) (p : V3 N) : bool := (point_le (low r) p && point_le p (high r))%bool.
  Definition contains_along (r : range) (p : V3 N) (c : component) : bool := ((get (low r) c <=? get p c) && (get p c <=? get (high r) c))%bool.
  Definition contains_range (r s : range) : bool := (point_le (low r) (low s) && point_le (high s) (high r))%bool.
  Definition intersects_along (r s : range) (c : component) : bool :=
    (negb (get (high r) c <? get (low s) c) && negb (get (high s) c <? get (low r) c))%bool.

  (** A part of the point set during construction: for every component the ids of its points, in
      the order of that coordinate.  The code keeps three arrays and the start and size of the part. *)
  Definition part := component -> list nat.
  Definition first_id (l : list nat) : outcome nat := at_ub l 0.
  Definition last_id (l : list nat) : outcome nat := at_ub l (Nat.sub (length l) 1).

  (** get_spanning_axis, kdtree.h 400-451 *)
  Definition extent (p : part) (c : component) : outcome N :=
    let? a := first_id (p c) in
    let? b := last_id (p c) in
    let d := coordinate c b - coordinate c a in
    Ok (if d <? 0 then - d else d).
  Definition spanning_axis (p : part) : outcome (component * N) :=
    let? sx := extent p CompX in
    let? sy := extent p CompY in
    let? sz := extent p CompZ in
    let '(c, s) := if sx <? sy then (CompY, sy) else (CompX, sx) in
    let '(c, s) := if s <? sz then (CompZ, sz) else (c, s) in
    let? a := first_id (p c) in
    Ok (c, coordinate c a + s / 2).

  (** find_median on one axis, kdtree.h 453-474, as an offset into the part.  std::lower_bound:
      the first of all but the last element that is not less than the value, else the last. *)
  Fixpoint lower_bound (c : component) (l : list nat) (value : N) : nat :=
    match l with
    | [] => 0
    | i :: l' => if coordinate c i <? value then S (lower_bound c l' value) else 0
    end.
  Fixpoint go_back (c : component) (l : list nat) (value : N) (j : nat) : outcome nat :=
    let? i := at_ub l j in
    match j with
    | O => Ok O
    | S j' => if value <=? coordinate c i then go_back c l value j' else Ok j
    end.
  Definition median_offset (c : component) (l : list nat) : outcome nat :=
    let? a := first_id l in
    let? b := last_id l in
    let span := coordinate c b - coordinate c a in
    let value := coordinate c a + span / 2 in
    let m := lower_bound c (removelast l) value in
    match m with
    | O => Ok O
    | S j =>
        let? i := at_ub l j in
        if coordinate c i <? value then Ok m else go_back c l value j
    end.

  (** The points of [l], those below the cut written from the start, the others from [k] on:
      kdtree.h 505-539.  A place never written is None.  A write beyond the part is UB; in the code it hits
      another part of the same array or leaves the array. *)
  Definition distribute (c : component) (cut : N) (k : nat) (l : list nat) : outcome (list nat) :=
    let? r := foldM (fun (s : nat * nat * list (option nat)) i =>
                let '(i_left, i_right, a) := s in
                if coordinate c i <? cut
                then let? a' := upd_ub a i_left (Some i) in Ok (S i_left, i_right, a')
                else let? a' := upd_ub a i_right (Some i) in Ok (i_left, S i_right, a'))
              (0%nat, k, repeat None (length l)) l in
    mapO (fun x : option nat => match x with Some i => Ok i | None => UB end) (snd r).

  (** find_median, kdtree.h 476-563 *)
  Record median := { m_id : nat; m_left : nat; m_axis : component; m_cut : N; m_part : part }.
  Definition find_median (p : part) : outcome median :=
    let? a := spanning_axis p in
    let '(c, cut) := a in
    let? k := median_offset c (p c) in
    let? q := distribute c cut k (p (next_component c)) in
    let? r := distribute c cut k (p (next_component (next_component c))) in
    let? id := at_ub (p c) k in
    Ok {| m_id := id; m_left := k; m_axis := c; m_cut := cut;
          m_part := fun a => if same_component a c then p c else if same_component a (next_component c) then q else r |}.

  (** node, kdtree.h 692-699; a node without children is a leaf *)
  Inductive tree := Null | Leaf (id : nat) | Node (id : nat) (axis : component) (cut : N) (left right : tree).

  (** make_tree, kdtree.h 940-991.  [free] is the number of nodes left in the array of nodes; taking
      one more is a write beyond the array.  Every call for a part that is not empty takes a node, so
      that [fuel] runs out only after the nodes have. *)
  Fixpoint make_tree (fuel free : nat) (p : part) : outcome (tree * nat) :=
    match fuel with
    | O => UB
    | S f =>
        if Nat.eqb (length (p CompX)) 0 then Ok (Null, free)
        else
          match free with
          | O => UB
          | S free =>
              let? m := find_median p in
              let child (free : nat) (q : part) : outcome (tree * nat) :=
                if Nat.eqb (length (q CompX)) 1
                then match free with
                     | O => UB
                     | S free' => let? id := first_id (q (m_axis m)) in Ok (Leaf id, free')
                     end
                else make_tree f free q in
              let? l := child free (fun a => firstn (m_left m) (m_part m a)) in
              let? r := child (snd l) (fun a => skipn (m_left m) (m_part m a)) in
              Ok (Node (m_id m) (m_axis m) (m_cut m) (fst l) (fst r), snd r)
          end
    end.

  (** get_tree and the constructor, kdtree.h 570-575, 730-767.  [order] is the result of sorting the ids
      0 ... n-1 by each coordinate (std::sort, kdtree.h 332-336, 374-378). *)
  Record kdtree := { kd_points : nat; kd_root : tree }.
  Definition get_tree (order : part) (n : nat) : outcome kdtree :=
    match n with
    | O => Ok {| kd_points := 0; kd_root := Null |}
    | S O => Ok {| kd_points := 1; kd_root := Leaf 0 |}
    | _ => let? r := make_tree (Nat.mul 2 n) (Nat.sub (Nat.mul 2 n) 1) order in Ok {| kd_points := n; kd_root := fst r |}
    end.

  (** report_node, kdtree.h 925-936 *)
  Fixpoint report (t : tree) : outcome (list nat) :=
    match t with
    | Null => UB
    | Leaf id => Ok [id]
    | Node _ _ _ l r =>
        let? a := match l with Null => Ok [] | _ => report l end in
        let? b := match r with Null => Ok [] | _ => report r end in
        Ok (a ++ b)
    end.

  (** search, kdtree.h 844-914 *)
  Fixpoint search (t : tree) (r R : range) : outcome (list nat) :=
    match t with
    | Null => UB
    | Leaf id => Ok (if contains_point R (pos id) then [id] else [])
    | Node _ c cut l rt =>
        let rl := range_left r c cut in
        let rr := range_right r c cut in
        let? a := if contains_range R rl then report l
                  else if intersects_along R rl c then search l rl R else Ok [] in
        let? b := if contains_range R rr then report rt
                  else if intersects_along R rr c then search rt rr R else Ok [] in
        Ok (a ++ b)
    end.

  (** all_neighbors_cube, kdtree.h 649-685 *)
  Definition all_neighbors_cube (k : kdtree) (center : V3 N) (h : N) : outcome (list nat) :=
    let R := cube center h in
    match kd_points k with
    | O => Ok []
    | S O => Ok (if contains_point R (pos 0) then [0%nat] else [])
    | _ => search (kd_root k) whole_range R
    end.

  (** all_neighbors_within_radius, kdtree.h 607-647; the scratch array has one place per point *)
  Definition all_neighbors_within_radius (k : kdtree) (center : V3 N) (R : N) : outcome (list nat) :=
    let? ns := all_neighbors_cube k center R in
    let h := 2 * R / sqr_root 3 in
    let H := cube center (h / 2) in
    let kept := List.filter (fun j =>
      let q := pos j in
      if contains_point H q then true
      else
        let dx := vx center - vx q in
        let dy := vy center - vy q in
        let dz := vz center - vz q in
        dx * dx + dy * dy + dz * dz <=? R * R) ns in
    if (length kept <=? kd_points k)%nat then Ok kept else UB.

  (** point_array::distance_squared, kdtree.h 350-357 *)
  Definition distance_squared (id : nat) (q : V3 N) : N :=
    let dx := vx (pos id) - vx q in
    let dy := vy (pos id) - vy q in
    let dz := vz (pos id) - vz q in
    dx * dx + dy * dy + dz * dz.

  (** nn_search, kdtree.h 769-842 *)
  Fixpoint nn_search (t : tree) (r : range) (q : V3 N) : outcome nat :=
    match t with
    | Null => UB
    | Leaf id => Ok id
    | Node id c cut l rt =>
        let left := range_left r c cut in
        let right := range_right r c cut in
        let is_left := contains_along left q c in
        let? candidate := if is_left then nn_search l left q else nn_search rt right q in
        let candidate := if distance_squared id q <? distance_squared candidate q then id else candidate in
        let box := cube q (sqr_root (distance_squared candidate q)) in
        let? new := if is_left
                    then if intersects_along right box c then nn_search rt right q else Ok candidate
                    else if intersects_along left box c then nn_search l left q else Ok candidate in
        Ok (if distance_squared new q <? distance_squared candidate q then new else candidate)
    end.

  (** nearest_neighbor_search, kdtree.h 577-605 *)
  Definition nearest_neighbor_search (k : kdtree) (q : V3 N) : outcome nat :=
    match kd_points k with
    | O => Err
    | S O => Ok 0%nat
    | _ => nn_search (kd_root k) whole_range q
    end.

  (** JAMSearchTree, src/io/Peridigm_JAMSearchTree.cpp 51-64 *)
  Definition FindPointsWithinRadius (order : part) (n : nat) (point : V3 N) (radius : N) : outcome (list nat) :=
    let? k := get_tree order n in all_neighbors_within_radius k point radius.
End Tree.
Arguments tree : clear implicits.
Arguments kdtree : clear implicits.
Arguments range : clear implicits.
