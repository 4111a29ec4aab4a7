(** * Local/global maps, block splitting and flat neighbourhood lists *)
From Coq Require Import ZArith.
From Verif Require Import Base ModelNeigh.
Local Open Scope Z_scope.

(** An Epetra_BlockMap, on one processor: the list of its global ids in local order.
    (Element sizes only matter for bond maps; communicator, index base 0 and hashing are
    not modelled.)  [lid] and [gid] are Epetra_BlockMap::LID and GID, which return -1
    for an id that is not there. *)
Definition emap := list Z.
Fixpoint lid_from (m : emap) (g : Z) (i : Z) : Z :=
  match m with
  | [] => -1
  | h :: t => if h =? g then i else lid_from t g (i + 1)
  end.
Definition lid (m : emap) (g : Z) : Z := lid_from m g 0.
Definition gid (m : emap) (l : Z) : Z := if l <? 0 then -1 else nth (Z.to_nat l) m (-1).

(** Unchecked subscript with an [int]. *)
Definition at_z {A} (l : list A) (i : Z) : outcome A :=
  if i <? 0 then UB else at_ub l (Z.to_nat i).

(** std::set<int>::insert and ::erase on the ascending list of the members. *)
Fixpoint set_insert (g : Z) (s : list Z) : list Z :=
  match s with
  | [] => [g]
  | h :: t => if g <? h then g :: s else if g =? h then s else h :: set_insert g t
  end.
Definition set_erase (g : Z) (s : list Z) : list Z := filter (fun h => negb (h =? g)) s.

(** NeighborhoodData, Peridigm_NeighborhoodData.hpp:54-160 (sizes are the lengths). *)
Record ndata := ND { nd_owned : list Z; nd_ptr : list Z; nd_list : list Z }.

(** Read [count] entries from index [i] on: the inner loops over neighbours. *)
Fixpoint read_run (flat : list Z) (i : Z) (count : nat) : outcome (list Z) :=
  match count with
  | O => Ok []
  | S k => let? h := at_z flat i in
           let? t := read_run flat (i + 1) k in
           Ok (h :: t)
  end.
(** A count and the entries behind it. *)
Definition read_nbrs (flat : list Z) (i : Z) : outcome (list Z) :=
  let? n := at_z flat i in read_run flat (i + 1) (Z.to_nat n).

(** The global data handed to BlockBase::initialize on one processor; block ids are
    doubles in the code, integers here. *)
Record gdata := GData { g_owned : emap; g_overlap : emap; g_bond : list (Z * Z); g_block : list Z; g_nd : ndata }.
Record bmaps := BMaps { b_owned : emap; b_bond : list (Z * Z); b_overlap : emap }.

(** Peridigm_BlockBase.cpp:139-144 *)
Fixpoint block_ids (bid : Z) (owned : emap) (blocks : list Z) (i : nat) : outcome (list Z) :=
  match owned with
  | [] => Ok []
  | g :: t =>
    let? b := at_ub blocks i in
    let? r := block_ids bid t blocks (S i) in
    Ok (if b =? bid then g :: r else r)
  end.

(** Peridigm_BlockBase.cpp:150-157 *)
Fixpoint block_bonds (bid : Z) (owned : emap) (blocks : list Z) (bonds : list (Z * Z)) : outcome (list (Z * Z)) :=
  match bonds with
  | [] => Ok []
  | (g, sz) :: t =>
    let? b := at_z blocks (lid owned g) in
    let? r := block_bonds bid owned blocks t in
    Ok (if b =? bid then (g, sz) :: r else r)
  end.

(** Peridigm_BlockBase.cpp:191-200; [k] points remain, the current one is [i] and its
    count is at [idx]. *)
Fixpoint ghost_loop (bid : Z) (overlap : emap) (blocks flat : list Z) (k i : nat) (idx : Z) (s : list Z)
  : outcome (list Z) :=
  match k with
  | O => Ok s
  | S k' =>
    let? n := at_z flat idx in
    let? b := at_ub blocks i in
    let? s' := if b =? bid
               then let? nb := read_run flat (idx + 1) (Z.to_nat n) in
                    Ok (fold_left (fun s l => set_insert (gid overlap l) s) nb s)
               else Ok s in
    ghost_loop bid overlap blocks flat k' (S i) (idx + 1 + n) s'
  end.

(** BlockBase::createMapsFromGlobalMaps, Peridigm_BlockBase.cpp:119-231. *)
Definition createMaps (bid : Z) (g : gdata) : outcome bmaps :=
  let? ids := block_ids bid (g_owned g) (g_block g) 0 in
  let? bonds := block_bonds bid (g_owned g) (g_block g) (g_bond g) in
  let? ghosts := ghost_loop bid (g_overlap g) (g_block g) (nd_list (g_nd g))
                            (length (nd_owned (g_nd g))) 0 0 [] in
  let ghosts' := fold_left (fun s i => set_erase i s) ids ghosts in
  Ok (BMaps ids bonds (ids ++ ghosts')).

(** BlockBase::createNeighborhoodDataFromGlobalNeighborhoodData,
    Peridigm_BlockBase.cpp:233-285: the loop of lines 250-261, collecting owned local
    ids, pointers and list. *)
Fixpoint nbr_loop (overlapB overlapG : emap) (gptr glist : list Z) (owned : emap) (acc : list Z)
  : outcome ndata :=
  match owned with
  | [] => Ok (ND [] [] acc)
  | g :: t =>
    let? p := at_z gptr (lid overlapG g) in
    let? nb := read_nbrs glist p in
    let? n := at_z glist p in
    let loc := map (fun l => lid overlapB (gid overlapG l)) nb in
    let? r := nbr_loop overlapB overlapG gptr glist t (acc ++ n :: loc) in
    Ok (ND (lid overlapB g :: nd_owned r) (Z.of_nat (length acc) :: nd_ptr r) (nd_list r))
  end.
Definition createNeighborhood (b : bmaps) (g : gdata) : outcome ndata :=
  nbr_loop (b_overlap b) (g_overlap g) (nd_ptr (g_nd g)) (nd_list (g_nd g)) (b_owned b) [].

(** BlockBase::initialize, Peridigm_BlockBase.cpp:59-77. *)
Definition block_initialize (bid : Z) (g : gdata) : outcome (bmaps * ndata) :=
  let? b := createMaps bid g in
  let? n := createNeighborhood b g in
  Ok (b, n).

(** ** The search result (src/io/pdneigh/NeighborhoodList.cxx) *)

(** NeighborhoodList::buildNeighborhoodList, second pass, NeighborhoodList.cxx:683-752.
    [trees] are the results of the radius search per owned point (their sum of lengths
    plus one each is the allocated size, lines 635-679), [flags] the filter flags after
    all filters have run (true = excluded).  Writing beyond the allocated array is
    undefined behaviour.  Returns pointers and the written part of the list. *)
Fixpoint keep (ids : list Z) (flags : list bool) : outcome (list Z) :=
  match ids with
  | [] => Ok []
  | i :: t => match flags with
              | [] => UB
              | f :: fs => let? r := keep t fs in Ok (if f then r else i :: r)
              end
  end.
Definition capacity (trees : list (list Z)) : nat :=
  fold_left (fun n t => (n + (length t + 1))%nat) trees 0%nat.
Fixpoint build_loop (cap : nat) (trees : list (list Z)) (flags : list (list bool)) (acc : list Z)
  : outcome (list Z * list Z) :=
  match trees with
  | [] => Ok ([], acc)
  | t :: ts =>
    match flags with
    | [] => UB
    | f :: fs =>
      let? nb := keep t f in
      let acc' := acc ++ Z.of_nat (length nb) :: nb in
      if (cap <? length acc')%nat then UB else
      let? r := build_loop cap ts fs acc' in
      Ok (Z.of_nat (length acc) :: fst r, snd r)
    end
  end.
(** A search that found nothing at all is an error (lines 654-666). *)
Definition buildNeighborhoodList (trees : list (list Z)) (flags : list (list bool)) : outcome (list Z * list Z) :=
  if existsb (fun t => match t with [] => true | _ => false end) trees then Err
  else build_loop (capacity trees) trees flags [].

(** createAndAddNeighborhood, lines 605-615: local indices to global ids, in place;
    also the list size. *)
Fixpoint globalize (gids : emap) (k : nat) (flat : list Z) : outcome (list Z) :=
  match k with
  | O => Ok flat
  | S k' =>
    match flat with
    | [] => UB
    | n :: rest =>
      if (Z.of_nat (length rest) <? n) then UB else
      let? h := foldM (fun acc l => let? g := at_z gids l in Ok (acc ++ [g])) [] (firstn (Z.to_nat n) rest) in
      let? t := globalize gids k' (skipn (Z.to_nat n) rest) in
      Ok (n :: h ++ t)
    end
  end.
Fixpoint list_size (k : nat) (flat : list Z) (acc : Z) : outcome Z :=
  match k with
  | O => Ok acc
  | S k' => match flat with
            | [] => UB
            | n :: rest => if (Z.of_nat (length rest) <? n) then UB
                           else list_size k' (skipn (Z.to_nat n) rest) (acc + n)
            end
  end.

(** createSharedGlobalIds, NeighborhoodList.cxx:282-313. *)
Definition shared_ids (owned : emap) (ptr neigh : list Z) : outcome (list Z) :=
  foldM (fun s p => let? nb := read_nbrs neigh p in
                    Ok (fold_left (fun s g => if existsb (Z.eqb g) owned then s else set_insert g s) nb s))
        [] ptr.

(** createLocalNeighborList, NeighborhoodList.cxx:264-280.  The pointers are those of
    the list, so the entries are written in order; the result is collected in that order. *)
Definition local_list (overlap : emap) (ptr neigh : list Z) : outcome (list Z) :=
  foldM (fun acc p => let? n := at_z neigh p in
                      let? nb := read_nbrs neigh p in
                      Ok (acc ++ n :: map (lid overlap) nb)) [] ptr.

(** ** ProximitySearch::RebalanceNeighborhoodList, Peridigm_ProximitySearch.cpp:55-202 *)
Record rproc := RProc { r_owned : emap; r_overlap : emap; r_list : list Z }.

(** lines 75-80; one unit of fuel per list entry suffices when counts are not negative *)
Fixpoint count_loop (fuel : nat) (flat : list Z) (idx : Z) (counts : list Z) : outcome (list Z) :=
  if idx <? Z.of_nat (length flat) then
    match fuel with
    | O => UB
    | S f => let? n := at_z flat idx in count_loop f flat (idx + 1 + n) (counts ++ [n])
    end
  else Ok counts.
Definition counts_of (p : rproc) : outcome (list Z) :=
  let? c := count_loop (length (r_list p)) (r_list p) 0 [] in
  if (length (r_owned p) <? length c)%nat then UB
  else Ok (c ++ repeat 0 (length (r_owned p) - length c)).

(** lines 119-127: one element per owned point, [-1] for a point without neighbours *)
Fixpoint elements_of (overlap : emap) (flat : list Z) (k : nat) (idx : Z) : outcome (list (list Z)) :=
  match k with
  | O => Ok []
  | S k' => let? n := at_z flat idx in
            let? nb := read_run flat (idx + 1) (Z.to_nat n) in
            let? r := elements_of overlap flat k' (idx + 1 + Z.of_nat (length nb)) in
            Ok ((if n =? 0 then [-1] else map (gid overlap) nb) :: r)
  end.

(** Import with Insert: the value of a global id on the processor that owns it; an id
    that nobody owns is an error. *)
Fixpoint import1 {A} (src : list (emap * list A)) (g : Z) : outcome A :=
  match src with
  | [] => Err
  | (m, vals) :: t => if existsb (Z.eqb g) m then at_z vals (lid m g) else import1 t g
  end.
Fixpoint mapM {A B} (f : A -> outcome B) (l : list A) : outcome (list B) :=
  match l with
  | [] => Ok []
  | a :: t => let? b := f a in let? r := mapM f t in Ok (b :: r)
  end.

(** lines 152-201 on one processor *)
Definition off_processor (owned : emap) (els : list (list Z)) : list Z :=
  fold_left (fun s g => if g =? -1 then s else if lid owned g =? -1 then set_insert g s else s)
            (concat els) [].
Definition fill_list (overlap : emap) (counts : list Z) (els : list (list Z)) : list Z :=
  flat_map (fun ce => fst ce :: map (lid overlap) (firstn (Z.to_nat (fst ce)) (snd ce))) (combine counts els).

Definition rebalance (cur : list rproc) (targets : list emap) : outcome (list (emap * Z * list Z)) :=
  let? counts := mapM counts_of cur in
  let? els := mapM (fun p => elements_of (r_overlap p) (r_list p) (length (r_owned p)) 0) cur in
  mapM (fun t =>
    let? c := mapM (import1 (combine (map r_owned cur) counts)) t in
    let? e := mapM (import1 (combine (map r_owned cur) els)) t in
    let ov := t ++ off_processor t e in
    Ok (ov, fold_left (fun s n => s + (1 + n)) c 0, fill_list ov c e)) targets.

(** ** Import and export of fields between the global vector and a block
    (Peridigm_BlockBase.cpp:79-117), over all processors. *)
Section Fields.
  Context {V : Type} (vplus : V -> V -> V) (vnull : V).

  Definition lookup (m : emap) (vals : list V) (g : Z) : option V :=
    match lid m g with
    | Zneg _ => None
    | l => nth_error vals (Z.to_nat l)
    end.

  (** Export through a reversed importer with combine mode Add
      (target->Export(source, importer, Add)): on-processor values are copied over the
      target (Epetra's Add does not add local entries), values of the same global id on
      the other processors are added. *)
  Definition export_point (src : list (emap * list V)) (me : nat) (g : Z) (old : V) : V :=
    let start := match nth_error src me with
                 | Some (m, vals) => match lookup m vals g with Some v => v | None => old end
                 | None => old
                 end in
    fold_left (fun acc qs => if (fst qs =? me)%nat then acc
                             else match lookup (fst (snd qs)) (snd (snd qs)) g with
                                  | Some v => vplus acc v | None => acc end)
              (combine (seq 0 (length src)) src) start.
  Definition exportAdd (owned : list emap) (src : list (emap * list V)) (tgt : list (list V)) : list (list V) :=
    map (fun x => let '(me, (m, t)) := x in
                  map (fun gv => export_point src me (fst gv) (snd gv)) (combine m t))
        (combine (seq 0 (length owned)) (combine owned tgt)).

  (** Gathering the blocks, e.g. Peridigm.cpp:1397-1402: force = 0; for every block:
      scratch = 0; export into scratch; force += scratch. *)
  Definition zeros (owned : list emap) : list (list V) := map (fun m => map (fun _ => vnull) m) owned.
  Definition addVec (a b : list (list V)) : list (list V) :=
    map (fun xy => map (fun uv => vplus (fst uv) (snd uv)) (combine (fst xy) (snd xy))) (combine a b).
  Definition gather_onto (owned : list emap) (force : list (list V)) (blocks : list (list (emap * list V)))
    : list (list V) :=
    fold_left (fun force src => addVec force (exportAdd owned src (zeros owned))) blocks force.
  Definition gather (owned : list emap) (blocks : list (list (emap * list V))) : list (list V) :=
    gather_onto owned (zeros owned) blocks.

  (** Repeated residual evaluations.  Without multiphysics (Peridigm.cpp:1769-1778) the
      force is set to zero first; the multiphysics branch of evaluateNOX
      (Peridigm.cpp:1744-1768) sets only the combined vector to zero and adds onto
      [force] (and [fluidFlow]) as the last evaluation left it. *)
  Definition evaluations (multiphysics : bool) (owned : list emap) (force : list (list V))
    (calls : list (list (list (emap * list V)))) : list (list V) :=
    fold_left (fun f blocks => if multiphysics then gather_onto owned f blocks
                               else gather owned blocks) calls force.

  (** Import with Insert into the overlap field of a block on one processor. *)
  Definition importInsert (owned : list emap) (src : list (list V)) (overlap : emap) : outcome (list V) :=
    mapM (import1 (combine owned src)) overlap.
End Fields.
