(** * Neighbourhoods by intersection of elements with the horizon

    Models of the handling of "Compute Element-Horizon Intersections" in
    src/io/discretization/Peridigm_ExodusDiscretization.cpp: the options (71-119), the enlarged
    search radius (computeMaxElementDimension, 887-941) and the removal of the elements that do
    not meet the horizon (removeNonintersectingNeighborsFromNeighborList, 943-1050), on one
    processor with ghosts.  The DEBUGGING_BACKWARDS_COMPATIBILITY branch is not compiled. *)
From Verif Require Import Base Num ModelScalar ModelGeom ModelMesh ModelInterface ModelVtk ModelGlobal.

(** cpp:77-79, 97-109, 117-118: the three optional parameters; the result is storeExodusMesh,
    computeIntersections, constructInterfaces.  computeMaxElementDimension stops the program
    (cpp:889) if the mesh is not stored. *)
Definition read_options (store intersections interfaces : option bool) : outcome (bool * bool * bool) :=
  let s := match store with Some b => b | None => false end in
  let '(c, s) := match intersections with Some b => (b, true) | None => (false, s) end in
  let '(i, s) := match interfaces with Some b => (b, b) | None => (false, s) end in
  if (c && negb s)%bool then Err else Ok (s, c, i).

Section Refine.
  Context {N : Num}.
  Local Open Scope num_scope.

  (** cpp:908-931: one element with the given nodes.  For spheres a length is computed and not
      used. *)
  Definition element_dimension (m : N) (nodes : list (V3 N)) : outcome N :=
    let pairs (k : nat) :=
      foldM (fun m i => foldM (fun m j =>
        if Nat.eqb i j then Ok m
        else let? p := at_ub nodes i in let? q := at_ub nodes j in
             let l := ModelGeom.dist2 p q in Ok (if m <? l then l else m)) m (seq i (k - i))) m (seq 0 k) in
    match length nodes with
    | 1 => Ok m
    | 4 | 10 => pairs 4
    | 8 | 20 => pairs 8
    | _ => Err
    end.
  (** cpp:887-934 on one processor, 936-938 over all *)
  Definition local_dimension (elements : list (list (V3 N))) : outcome N :=
    let? m := foldM element_dimension 0 elements in Ok (sqr_root m).
  Definition max_dimension (procs : list (list (list (V3 N)))) : outcome N :=
    let? l := mapO local_dimension procs in all_reduce nmax l.

  (** The nodes of a hexahedron; others stop the program (cpp:976-977) *)
  Definition hex_of (l : list (V3 N)) : outcome (hexa N) :=
    match l with [a; b; c; d; e; f; g; h] => Ok (hex a b c d e f g h) | _ => Err end.

  (** cpp:968-1007: is the neighbour kept?  [corners] is getExodusMeshNodePositions. *)
  Definition keep (corners : Z -> list (V3 N)) (x : V3 N) (horizon : N) (g : Z) : outcome bool :=
    let? h := hex_of (corners g) in
    let? s := hex_sphere h x horizon in
    Ok (match s with OUTSIDE => false | _ => true end).

  (** cpp:964-1012: the neighbours of one element, as global numbers *)
  Fixpoint kept_row (kp : Z -> outcome bool) (overlap : list Z) (flat : list nat) (n idx : nat) : outcome (list Z) :=
    match n with
    | O => Ok []
    | S n' =>
        let? j := at_ub flat idx in
        let g := gid_at overlap j in
        let? b := kp g in
        let? r := kept_row kp overlap flat n' (idx + 1) in
        Ok (if b then g :: r else r)
    end.
  (** cpp:959-1016: refinedNeighborGlobalIdList, as one list per element; every turn advances in
      the list, so [fuel] equal to its length is enough *)
  Fixpoint kept_rows (corners : Z -> list (V3 N)) (x : list (V3 N)) (horizon : list N) (overlap : list Z) (flat : list nat) (fuel idx elem : nat) : outcome (list (list Z)) :=
    if (length flat <=? idx)%nat then Ok []
    else match fuel with
    | O => UB
    | S k =>
        let? n := at_ub flat idx in
        let? xi := (if (n =? 0)%nat then Ok vzero else at_ub x elem) in
        let? hi := (if (n =? 0)%nat then Ok 0 else at_ub horizon elem) in
        let? row := kept_row (keep corners xi hi) overlap flat n (idx + 1) in
        let? r := kept_rows corners x horizon overlap flat k (idx + 1 + n) (elem + 1) in
        Ok (row :: r)
    end.

  (** cpp:1018-1028: the new overlap map: the owned elements, then the ghosts of the std::set *)
  Definition new_overlap (owned : list Z) (rows : list (list Z)) : list Z :=
    owned ++ filter (fun g => negb (existsb (Z.eqb g) owned)) (fold_left (fun s g => set_insert g s) (concat rows) []).

  (** cpp:1035-1049: the new neighbour list, stored with the counts *)
  Definition new_list (overlap : list Z) (rows : list (list Z)) : outcome (list nat) :=
    let? l := mapO (fun row => mapO (fun g => match lid overlap g with Some k => Ok k | None => Err end) row) rows in
    Ok (flat_map (fun l => length l :: l) l).

  Definition remove_nonintersecting corners x horizon owned overlap flat : outcome (list Z * list nat) :=
    let? rows := kept_rows corners x horizon overlap flat (length flat) 0 0 in
    let o := new_overlap owned rows in
    let? l := new_list o rows in
    Ok (o, l).
End Refine.
