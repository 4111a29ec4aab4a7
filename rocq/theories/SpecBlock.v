(** * Specification vocabulary for maps, blocks and flat neighbourhood lists *)
From Coq Require Import ZArith Sorted.
From Verif Require Import Base ModelBlock.
Local Open Scope Z_scope.

(** The flat form of a list of neighbour lists: for each point the count, then the ids. *)
Definition flat_form (ls : list (list Z)) : list Z :=
  flat_map (fun l => Z.of_nat (length l) :: l) ls.
(** Position of the count of each point. *)
Definition count_positions (ls : list (list Z)) : list Z :=
  map (fun i => Z.of_nat (length (flat_form (firstn i ls)))) (seq 0 (length ls)).

(** Local index [k] of map [m] stands for global id [g]. *)
Definition names (m : list Z) (k g : Z) : Prop := 0 <= k /\ nth_error m (Z.to_nat k) = Some g.

(** Global data in which point number i of the owned points has the neighbours
    [nth i nbrs] (global ids). *)
Definition well_formed (g : gdata) (nbrs : list (list Z)) : Prop :=
  NoDup (g_overlap g) /\
  (exists rest, g_overlap g = g_owned g ++ rest) /\
  length (g_block g) = length (g_owned g) /\
  length (nd_owned (g_nd g)) = length (g_owned g) /\
  length nbrs = length (g_owned g) /\
  (exists ls, nd_list (g_nd g) = flat_form ls /\ nd_ptr (g_nd g) = count_positions ls /\
              Forall2 (Forall2 (names (g_overlap g))) ls nbrs) /\
  (forall b, In b (g_bond g) -> In (fst b) (g_owned g)).

(** Points (with their neighbours) whose block id is [bid], in order. *)
Definition assigned (bid : Z) (g : gdata) (nbrs : list (list Z)) : list (Z * list Z) :=
  map fst (filter (fun x => snd x =? bid) (combine (combine (g_owned g) nbrs) (g_block g))).
Definition block_of (g : gdata) (p : Z) (bid : Z) : Prop :=
  In (p, bid) (combine (g_owned g) (g_block g)).

(** [ghosts] are the ids in [needed] that are not in [owned], ascending, once each. *)
Definition ghosts_of (owned : list Z) (needed : Z -> Prop) (ghosts : list Z) : Prop :=
  StronglySorted Z.lt ghosts /\ forall x, In x ghosts <-> needed x /\ ~ In x owned.

(** What a search list leaves once the excluded bonds (flag true) are dropped. *)
Definition kept_ids (t : list Z) (f : list bool) : list Z := map fst (filter (fun x => negb (snd x)) (combine t f)).

(** A processor of the current decomposition. *)
Definition proc_ok (p : rproc) (nbrs : list (list Z)) : Prop :=
  NoDup (r_overlap p) /\ (forall x, In x (r_overlap p) -> 0 <= x) /\
  length nbrs = length (r_owned p) /\
  exists ls, r_list p = flat_form ls /\ Forall2 (Forall2 (names (r_overlap p))) ls nbrs.

Definition neighbours_are (cur : list (rproc * list (list Z))) (g : Z) (l : list Z) : Prop :=
  exists p nbrs i, In (p, nbrs) cur /\ nth_error (r_owned p) i = Some g /\ nth_error nbrs i = Some l.

(** Sums and the values held for a global id. *)
Section Sums.
  Context {V : Type} (vplus : V -> V -> V) (vnull : V).
  Definition total (l : list V) : V := fold_right vplus vnull l.
  (** all (id, value) pairs of a block field on all processors, of all blocks *)
  Definition entries (blocks : list (list (emap * list V))) : list (Z * V) :=
    flat_map (flat_map (fun mv => combine (fst mv) (snd mv))) blocks.
  Definition held (es : list (Z * V)) (g : Z) : list V :=
    map snd (filter (fun e => fst e =? g) es).
  Definition commutative_sum : Prop :=
    (forall a b, vplus a b = vplus b a) /\ (forall a b c, vplus a (vplus b c) = vplus (vplus a b) c) /\
    (forall a, vplus vnull a = a).
  Definition fields_ok (blocks : list (list (emap * list V))) : Prop :=
    forall src mv, In src blocks -> In mv src -> NoDup (fst mv) /\ length (snd mv) = length (fst mv).
End Sums.
