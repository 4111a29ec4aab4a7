(** * The contact search

    src/core/Peridigm_ContactManager.cpp:486-866, without the preprocessor symbol NEW_STUFF (60).
    Which processor gets which point (currentConfigurationDecomp, 605-642) is decided by Zoltan
    and is an argument, as in the search itself (ModelParallel).  Global ids are ints stored in
    doubles where the code stores them in vectors (653, 764); here they are integers throughout.
    The blocks take their part of the contact list as in ModelBlock (589-598) and are left out. *)
From Coq Require Import ZArith.
From Verif Require Import Base Num ModelNeigh ModelBlock ModelScalar ModelTree ModelFilter ModelParallel.
Local Open Scope Z_scope.

(** What the contact manager keeps of the bonds on one processor: oneDimensionalContactMap,
    oneDimensionalOverlapContactMap, bondContactMap (ids with element sizes) and the list of
    neighborhoodData. *)
Record cproc := CProc { cp_owned : emap; cp_overlap : emap; cp_bond : list (Z * Z); cp_list : list Z }.

(** 649-657 *)
Definition number_of_bonds (p : cproc) : outcome (list Z) :=
  mapM (fun g => let l := lid (map fst (cp_bond p)) g in
                 if l =? -1 then Ok 0 else at_z (map snd (cp_bond p)) l) (cp_owned p).
(** 662-681: points without bonds are left out of the bond map *)
Definition bond_map (t : emap) (counts : list Z) : list (Z * Z) :=
  List.filter (fun e => 0 <? snd e) (combine t counts).
Definition points (bm : list (Z * Z)) : Z := fold_left Z.add (map snd bm) 0.

(** 754-766: the vector on the bond map with the global ids of the neighbours *)
Fixpoint neighbor_gids (p : cproc) (k : nat) (idx : Z) (acc : list Z) : outcome (list Z) :=
  match k with
  | O => Ok (acc ++ repeat 0 (Z.to_nat (points (cp_bond p)) - length acc))
  | S k' =>
    let? n := at_z (cp_list p) idx in
    let? nb := read_run (cp_list p) (idx + 1) (Z.to_nat n) in
    if points (cp_bond p) <? Z.of_nat (length acc + length nb) then Err
    else neighbor_gids p k' (idx + 1 + Z.of_nat (length nb)) (acc ++ map (ModelBlock.gid (cp_overlap p)) nb)
  end.
(** The elements of a vector on a bond map, by FirstPointInElementList and ElementSize *)
Fixpoint elements (sizes : list Z) (v : list Z) : list (list Z) :=
  match sizes with
  | [] => []
  | n :: t => firstn (Z.to_nat n) v :: elements t (skipn (Z.to_nat n) v)
  end.
Definition bond_elements (p : cproc) : outcome (list (list Z)) :=
  let? v := neighbor_gids p (length (cp_owned p)) 0 [] in
  Ok (elements (map snd (cp_bond p)) v).

(** 721-733: the ids a point is bonded to *)
Definition bonded_ids (bm : emap) (els : list (list Z)) (g : Z) : outcome (list Z) :=
  let l := lid bm g in if l =? -1 then Ok [] else at_z els l.
(** std::map<int, vector<int>>: operator[] followed by push_back of all of [ids] (718, 741-743) *)
Fixpoint map_append (g : Z) (ids : list Z) (m : list (Z * list Z)) : list (Z * list Z) :=
  match m with
  | [] => [(g, ids)]
  | (h, l) :: m' => if h =? g then (h, l ++ ids) :: m' else (h, l) :: map_append g ids m'
  end.
Fixpoint map_find (g : Z) (m : list (Z * list Z)) : option (list Z) :=
  match m with [] => None | (h, l) :: m' => if h =? g then Some l else map_find g m' end.
(** 715-748, contactNeighborGlobalIDs; [found] are the lists of the search *)
Definition search_contacts (t bm : emap) (els found : list (list Z)) : outcome (list (Z * list Z)) :=
  foldM (fun m gf =>
    let? bonded := bonded_ids bm els (fst gf) in
    Ok (map_append (fst gf) (List.filter (fun h => negb (existsb (Z.eqb h) bonded)) (snd gf)) m)) [] (combine t found).
(** 510-515, 744-745, 528-530 *)
Definition off_ids (t : emap) (ids : list Z) (s : list Z) : list Z :=
  fold_left (fun s g => if lid t g =? -1 then set_insert g s else s) ids s.

(** 800, 839: an id that must be in the overlap map *)
Definition local_or_throw (ov : emap) (g : Z) : outcome Z :=
  let l := lid ov g in if l =? -1 then Err else Ok l.
(** 785-820; the array has a place for every point and every bond *)
Definition local_bonds (t ov : emap) (bm : list (Z * Z)) (els : list (list Z)) : outcome (list Z) :=
  let? flat := foldM (fun acc g =>
      let l := lid (map fst bm) g in
      if l =? -1 then Ok (acc ++ [0])
      else let? e := at_z els l in
           let? loc := mapM (local_or_throw ov) e in
           Ok (acc ++ Z.of_nat (length loc) :: loc)) [] t in
  if Z.of_nat (length t) + points bm <? Z.of_nat (length flat) then UB else Ok flat.
(** 842-865 *)
Definition local_contacts (t ov : emap) (m : list (Z * list Z)) : outcome (list Z) :=
  let size := fold_left (fun s e => s + (Z.of_nat (length (snd e)) + 1)) m 0 in
  let? flat := foldM (fun acc g =>
      match map_find g m with
      | None => Err
      | Some ids => Ok (acc ++ Z.of_nat (length ids) :: map (lid ov) ids)
      end) [] t in
  if size <? Z.of_nat (length flat) then UB else Ok flat.

Section Search.
  Context {N : Num}.

  (** 707-708 *)
  Definition with_radius (r : N) (p : processor N) : processor N :=
    {| owned := owned p; gid := ModelParallel.gid p; at_x := at_x p; horizon := fun _ => r; by_axis := by_axis p |}.

  (** What is new on a processor: the bonds, the owned ids and the list of contactNeighborhoodData *)
  Record searched := Searched { s_proc : cproc; s_owned : list Z; s_contacts : list Z }.

  (** 502-563 on the processor that gets the points of [p]; [received] is what reaches it in the search and
      [tree] its Zoltan tree; the filter is the default one (NeighborhoodList.cxx:164-166) *)
  Definition search_on (counts : list (emap * list Z)) (els : list (emap * list (list Z))) (r : N)
    (p : processor N) (received : list (message N)) (tree : zoltan_tree N) : outcome searched :=
    let t := map (fun i => Z.of_nat (ModelParallel.gid p i)) (seq 0 (owned p)) in
    let? c := mapM (import1 counts) t in
    let bm := bond_map t c in
    let? e := mapM (import1 els) (map fst bm) in
    let? found := neighborhoods [ByDefault false] (with_radius r p) received tree in
    let? m := search_contacts t (map fst bm) e (map (map Z.of_nat) found) in
    let ov := t ++ off_ids t (concat (map snd m)) (off_ids t (concat e) []) in
    let? own := mapM (local_or_throw ov) t in
    let? nl := local_bonds t ov bm e in
    let? cl := local_contacts t ov m in
    Ok {| s_proc := CProc t ov bm nl; s_owned := own; s_contacts := cl |}.

  (** 486-603 on all processors; an int remainder by zero (488) is undefined *)
  Definition rebalance_contact (frequency step : Z) (r : N) (cur : list cproc)
    (target : list (processor N * list (message N) * zoltan_tree N)) : outcome (option (list searched)) :=
    if frequency =? 0 then UB
    else if negb (Z.rem step frequency =? 0) then Ok None
    else
      let? counts := mapM number_of_bonds cur in
      let? els := mapM bond_elements cur in
      let? new := mapM (fun x => let '(p, received, tree) := x in
         search_on (combine (map cp_owned cur) counts)
           (combine (map (fun q => map fst (cp_bond q)) cur) els) r p received tree) target in
      Ok (Some new).
End Search.
Arguments searched : clear implicits.
