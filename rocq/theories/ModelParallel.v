(** * The parallel neighbourhood search

    UTILITIES::constructFrameSet (src/io/utilities/Sortable.cxx),
    NeighborhoodList::createAndAddNeighborhood and buildNeighborhoodList
    (src/io/pdneigh/NeighborhoodList.cxx), ZoltanSearchTree (src/io/Peridigm_ZoltanSearchTree.cpp).
    What the Zoltan library computes is an argument: the processors whose region meets a box, the
    part of every point, the parts whose region meets a box.  The arrays of a processor are functions
    of the local id below the number of its points. *)
From Verif Require Import Base Num ModelScalar ModelTree ModelFilter.

Section Parallel.
  Context {N : Num}.
  Local Open Scope num_scope.

  (** The data of one processor: NeighborhoodList's num_owned_points, owned_gids, owned_x, horizons.
      [by_axis] is the result of sorting the local ids by every coordinate, Sortable.cxx 235-245. *)
  Record processor := { owned : nat; gid : nat -> nat; at_x : nat -> V3 N; horizon : nat -> N; by_axis : part }.

  (** maxHorizon, NeighborhoodList.cxx 381-386 *)
  Definition max_horizon (p : processor) : N :=
    fold_left (fun m i => if m <? horizon p i then horizon p i else m) (seq 0 (owned p)) 0.

  (** std::upper_bound on a sorted range: the number of leading elements that are not greater *)
  Fixpoint upper_bound (x : nat -> V3 N) (c : component) (l : list nat) (value : N) : nat :=
    match l with
    | [] => 0
    | i :: l' => if value <? coordinate x c i then 0 else S (upper_bound x c l' value)
    end.

  (** constructFrameSet, Sortable.cxx 225-300: on every axis the points near the least and near the greatest
      coordinate.  std::set<int>: ascending, without repetition. *)
  Definition frame_along (p : processor) (h : N) (c : component) : outcome (list nat) :=
    let l := by_axis p c in
    let? i := first_id l in
    let lower := firstn (upper_bound (at_x p) c l (coordinate (at_x p) c i + h)) l in
    let? j := last_id l in
    let upper := skipn (upper_bound (at_x p) c l (coordinate (at_x p) c j - h)) l in
    Ok (lower ++ upper).
  Definition frame_set (p : processor) (h : N) : outcome (list nat) :=
    let? fx := frame_along p h CompX in
    let? fy := frame_along p h CompY in
    let? fz := frame_along p h CompZ in
    Ok (List.filter (fun i => existsb (Nat.eqb i) (fx ++ fy ++ fz)) (seq 0 (owned p))).

  (** What is sent: receiving processor, global id, position.  NeighborhoodList.cxx 400-537.
      [assign] is Zoltan_LB_Box_Assign, which writes to an array of one place per processor. *)
  Definition message := (nat * V3 N)%type.
  Definition sends (assign : range N -> list nat) (procs rank : nat) (p : processor) : outcome (list (nat * message)) :=
    let? frame := frame_set p (max_horizon p) in
    let? ms := mapO (fun i =>
      let to := assign (cube (at_x p i) (horizon p i)) in
      if (procs <? length to)%nat then UB
      else Ok (map (fun q => (q, (gid p i, at_x p i))) (List.filter (fun q => negb (Nat.eqb rank q)) to))) frame in
    Ok (concat ms).
  (** All processors *)
  Fixpoint all_sends (assign : range N -> list nat) (procs rank : nat) (ps : list processor) : outcome (list (nat * message)) :=
    match ps with
    | [] => Ok []
    | p :: ps' =>
        let? a := sends assign procs rank p in
        let? b := all_sends assign procs (S rank) ps' in
        Ok (a ++ b)
    end.
  (** Zoltan_Comm_Do, NeighborhoodList.cxx 544: what a processor receives, up to order *)
  Definition addressed (rank : nat) (sent : list (nat * message)) : list message :=
    map snd (List.filter (fun m => Nat.eqb (fst m) rank) sent).

  (** The overlap arrays, NeighborhoodList.cxx 549-593 *)
  Definition overlap_gids (p : processor) (received : list message) : list nat :=
    map (gid p) (seq 0 (owned p)) ++ map fst received.
  Definition overlap_x (p : processor) (received : list message) : list (V3 N) :=
    map (at_x p) (seq 0 (owned p)) ++ map snd received.

  (** ZoltanSearchTree: [parts] is the part of every point (from Zoltan_LB_Partition into as many parts as
      points), [box] Zoltan_LB_Box_PP_Assign.  Peridigm_ZoltanSearchTree.cpp 119-126: partToCoordIdx, None
      where nothing is written. *)
  Record zoltan_tree := { parts : list nat; box : range N -> list nat }.
  Definition part_to_index (t : zoltan_tree) (n : nat) : outcome (list (option nat)) :=
    foldM (fun a i => let? q := at_ub (parts t) i in upd_ub a q (Some i)) (repeat None n) (seq 0 n).
  (** FindPointsWithinRadius, Peridigm_ZoltanSearchTree.cpp 214-247; searchParts has one place per point *)
  Definition within_radius (t : zoltan_tree) (index : list (option nat)) (xs : list (V3 N)) (pt : V3 N) (r : N) : outcome (list nat) :=
    let found := box t (cube pt r) in
    if (length xs <? length found)%nat then UB else
    foldM (fun acc q =>
      let? o := at_ub index q in
      match o with
      | None => UB
      | Some i =>
          let? x := at_ub xs i in
          let dx := vx x - vx pt in
          let dy := vy x - vy pt in
          let dz := vz x - vz pt in
          Ok (if dx * dx + dy * dy + dz * dz <=? r * r then acc ++ [i] else acc)
      end) [] found.

  (** std::sort of ids *)
  Fixpoint insert_id (i : nat) (l : list nat) : list nat :=
    match l with [] => [i] | j :: l' => if (i <=? j)%nat then i :: l else j :: insert_id i l' end.
  Definition sort_ids (l : list nat) : list nat := fold_right insert_id [] l.

  (** buildNeighborhoodList, NeighborhoodList.cxx 621-761, and the renumbering 605-615.  The two passes do the
      same search.  The result is the list of neighbours of every owned point; for its flat encoding see C26. *)
  Definition neighbors_of (fs : list (filter N)) (p : processor) (received : list message) (t : zoltan_tree) (index : list (option nat)) (i : nat) : outcome (list nat) :=
    let xs := overlap_x p received in
    let? found := within_radius t index xs (at_x p i) (horizon p i) in
    match found with
    | [] => Err
    | _ =>
        let? e := neighborhood_entry fs (sort_ids found) (at_x p i) i xs in
        mapO (at_ub (overlap_gids p received)) (tl e)
    end.
  Definition neighborhoods (fs : list (filter N)) (p : processor) (received : list message) (t : zoltan_tree) : outcome (list (list nat)) :=
    let? index := part_to_index t (length (overlap_x p received)) in
    mapO (neighbors_of fs p received t index) (seq 0 (owned p)).
End Parallel.
Arguments processor : clear implicits.
Arguments zoltan_tree : clear implicits.
Arguments message : clear implicits.
