(** * Properties C04, C05 and C26: blocks, assembly, flat neighbourhood lists *)
From Coq Require Import ZArith Sorted Permutation Reals.
From Verif Require Import Base ModelNeigh ModelBlock SpecBlock ProofBlock ProofNeigh.
Local Open Scope Z_scope.

(** C04.  For every well-formed global description and every block id, building the
    block succeeds; its owned points are the points assigned to it in the global order;
    its overlap points are those followed by exactly the neighbours that are not owned
    in the block, each once; and the local neighbour list, read through the block's
    local-to-global map, is the global one, bond by bond. *)
Theorem C04_block_describes_same_bonds : forall bid g nbrs, well_formed g nbrs ->
  exists b nd ghosts ls, block_initialize bid g = Ok (b, nd) /\
    b_owned b = map fst (assigned bid g nbrs) /\
    b_overlap b = b_owned b ++ ghosts /\ NoDup (b_overlap b) /\
    ghosts_of (b_owned b) (fun x => exists p, In p (assigned bid g nbrs) /\ In x (snd p)) ghosts /\
    b_bond b = filter (fun e => existsb (fun x => (fst x =? fst e) && (snd x =? bid)) (combine (g_owned g) (g_block g))) (g_bond g) /\
    nd_owned nd = map Z.of_nat (seq 0 (length (b_owned b))) /\
    nd_list nd = flat_form ls /\ nd_ptr nd = count_positions ls /\
    Forall2 (Forall2 (names (b_overlap b))) ls (map snd (assigned bid g nbrs)).
Proof. exact block_initialize_ok. Qed.
Print Assumptions C04_block_describes_same_bonds.

(** C04.  When the block ids of all points are among the (distinct) blocks, every owned
    point is owned by exactly one block. *)
Theorem C04_blocks_partition_points : forall g nbrs bids, well_formed g nbrs -> NoDup bids ->
  (forall b, In b (g_block g) -> In b bids) ->
  Permutation (concat (map (fun b => map fst (assigned b g nbrs)) bids)) (g_owned g).
Proof. exact blocks_partition. Qed.
Print Assumptions C04_blocks_partition_points.

(** Five points 10,11,12,20,21 of which 20 and 21 are ghosts of this processor; blocks
    1,2,1. *)
Definition ex_g : gdata :=
  GData [10; 11; 12] [10; 11; 12; 20; 21] [(10, 2); (12, 3)] [1; 2; 1]
        (ND [0; 1; 2] [0; 3; 4] [2; 1; 4;  0;  3; 0; 3; 1]).
Definition ex_nbrs : list (list Z) := [[11; 21]; []; [10; 20; 11]].
Example C04_hypothesis_met : well_formed ex_g ex_nbrs.
Proof.
  repeat split.
  - repeat constructor; simpl; intuition lia.
  - exists [20; 21]. reflexivity.
  - exists [[1; 4]; []; [0; 3; 1]]. split; [reflexivity|]. split; [reflexivity|].
    repeat constructor; simpl; try lia; reflexivity.
  - simpl. intros b [<-|[<-|[]]]; simpl; auto.
Qed.
Example C04_concrete_block : block_initialize 1 ex_g
  = Ok (BMaps [10; 12] [(10, 2); (12, 3)] [10; 12; 11; 20; 21], ND [0; 1] [0; 3] [2; 2; 4; 3; 0; 3; 2]).
Proof. vm_compute. reflexivity. Qed.

(** C05.  After gathering, the global value of a point is the sum of all values held for
    its id by any block on any processor (owned or ghost); any commutative addition. *)
Theorem C05_point_gets_sum_of_held_values :
  forall (V : Type) (vplus : V -> V -> V) (vnull : V), commutative_sum vplus vnull ->
  forall owned blocks, fields_ok blocks ->
  gather vplus vnull owned blocks
  = map (map (fun g => total vplus vnull (held (entries blocks) g))) owned.
Proof. exact (fun V p n H => gather_ok p n H). Qed.
Print Assumptions C05_point_gets_sum_of_held_values.

(** C05.  When every overlap id is owned by exactly one processor, the global total is
    the total over all blocks including ghosts. *)
Theorem C05_total_is_preserved :
  forall (V : Type) (vplus : V -> V -> V) (vnull : V), commutative_sum vplus vnull ->
  forall owned blocks, fields_ok blocks -> NoDup (concat owned) ->
  (forall e, In e (entries blocks) -> In (fst e) (concat owned)) ->
  total vplus vnull (concat (gather vplus vnull owned blocks)) = total vplus vnull (map snd (entries blocks)).
Proof. exact (fun V p n H => gather_total p n H). Qed.
Print Assumptions C05_total_is_preserved.

(** C05.  Importing gives each overlap point the value its owner holds. *)
Theorem C05_import_gives_owner_value :
  forall (V : Type) owned (src : list (list V)) overlap,
  NoDup (concat owned) -> Forall2 (fun m v => length v = length m) owned src ->
  (forall g, In g overlap -> In g (concat owned)) ->
  exists vals, importInsert owned src overlap = Ok vals /\
    Forall2 (fun g v => exists m s i, In (m, s) (combine owned src) /\ nth_error m i = Some g /\ nth_error s i = Some v) overlap vals.
Proof. exact (@import_ok). Qed.
Print Assumptions C05_import_gives_owner_value.

(** C05.  Residual evaluations one after another: without multiphysics the force is the
    one of the last evaluation, whatever came before. *)
Theorem C05_evaluations_do_not_accumulate :
  forall (V : Type) (vplus : V -> V -> V) (vnull : V), commutative_sum vplus vnull ->
  forall owned f0 calls blocks, fields_ok blocks ->
  evaluations vplus vnull false owned f0 (calls ++ [blocks])
  = map (map (fun g => total vplus vnull (held (entries blocks) g))) owned.
Proof. exact (fun V p n H => evaluations_ok p n H). Qed.
Print Assumptions C05_evaluations_do_not_accumulate.

(** C05.  In the multiphysics branch of the NOX residual nothing sets the force to zero:
    the vector holds the sum over all evaluations so far. *)
Theorem C05_nox_multiphysics_accumulates :
  forall (V : Type) (vplus : V -> V -> V) (vnull : V), commutative_sum vplus vnull ->
  forall owned calls f, (forall b, In b calls -> fields_ok b) ->
  evaluations vplus vnull true owned (map (map f) owned) calls
  = map (map (fun g => vplus (f g) (total vplus vnull (flat_map (fun b => held (entries b) g) calls)))) owned.
Proof. exact (fun V p n H => evaluations_multi p n H). Qed.
Print Assumptions C05_nox_multiphysics_accumulates.
Theorem C05_nox_multiphysics_refuted :
  ~ (forall owned f0 calls blocks, fields_ok blocks -> (forall b, In b calls -> fields_ok b) ->
       evaluations Z.add 0 true owned f0 (calls ++ [blocks])
       = map (map (fun g => total Z.add 0 (held (entries blocks) g))) owned).
Proof.
  intro H. specialize (H [[7]] [[0]] [[[([7], [5])]]] [[([7], [5])]]).
  assert (F : fields_ok [[([7], [5])]]).
  { intros src mv [<-|[]] [<-|[]]. split; [repeat constructor; simpl; tauto|reflexivity]. }
  specialize (H F). assert (G : forall b, In b [[[([7], [5])]]] -> fields_ok b) by (intros b [<-|[]]; exact F).
  specialize (H G). vm_compute in H. discriminate.
Qed.
Print Assumptions C05_nox_multiphysics_refuted.

(** Two processors owning {0,1} and {2,3}, two blocks, ghosts both ways. *)
Definition ex_owned : list emap := [[0; 1]; [2; 3]].
Definition ex_blocks : list (list (emap * list Z)) :=
  [ [([0; 1; 2], [1; 2; 3]); ([2; 1], [10; 20])];  [([1], [100]); ([3; 0; 1], [200; 300; 400])] ].
Example C05_hypotheses_met :
  commutative_sum Z.add 0 /\ commutative_sum Rplus 0%R /\ fields_ok ex_blocks /\ NoDup (concat ex_owned) /\
  (forall e, In e (entries ex_blocks) -> In (fst e) (concat ex_owned)).
Proof.
  split; [repeat split; intros; lia|]. split; [repeat split; intros; ring|]. split; [|split].
  - intros src mv [<-|[<-|[]]] Hmv; simpl in Hmv; intuition; subst; simpl; auto;
      repeat constructor; simpl; intuition lia.
  - repeat constructor; simpl; intuition lia.
  - simpl. intuition; subst; simpl; auto.
Qed.
Example C05_concrete : gather Z.add 0 ex_owned ex_blocks = [[301; 522]; [13; 200]].
Proof. vm_compute. reflexivity. Qed.

(** C26.  Decoding an encoded list gives it back, and whatever decodes is the encoding
    of the result (possibly followed by unused entries). *)
Theorem C26_decode_encode : forall nbrs, decode (length nbrs) (encode nbrs) = Ok nbrs.
Proof. exact decode_encode. Qed.
Print Assumptions C26_decode_encode.
Theorem C26_decode_only_encodings : forall flat n nbrs, decode n flat = Ok nbrs ->
  length nbrs = n /\ exists rest, flat = encode nbrs ++ rest.
Proof. exact decode_only. Qed.
Print Assumptions C26_decode_only_encodings.

(** C26.  The list built by the search: for all search results (never empty, since a
    point finds itself) and all filter flags, the result is the flat form of the kept
    neighbours, the pointers index the counts, and nothing is written outside the
    allocated array. *)
Theorem C26_search_list_well_formed : forall trees flags,
  Forall2 (fun t f => length f = length t) trees flags -> (forall t, In t trees -> t <> []) ->
  let ls := map (fun tf => kept_ids (fst tf) (snd tf)) (combine trees flags) in
  buildNeighborhoodList trees flags = Ok (count_positions ls, flat_form ls).
Proof. exact build_ok. Qed.
Print Assumptions C26_search_list_well_formed.

(** C26.  Translating that list to global ids keeps the layout (unused entries behind it
    are left alone), and the recorded size is its length. *)
Theorem C26_globalized_list : forall gids ls gs post, Forall2 (Forall2 (names gids)) ls gs ->
  globalize gids (length ls) (flat_form ls ++ post) = Ok (flat_form gs ++ post) /\
  list_size (length ls) (flat_form ls ++ post) (Z.of_nat (length ls)) = Ok (Z.of_nat (length (flat_form ls))).
Proof.
  exact (fun gids ls gs post H => conj (globalize_ok gids ls gs post H)
    (eq_trans (list_size_ok ls post (Z.of_nat (length ls))) (f_equal Ok (Zplus_minus _ _)))).
Qed.
Print Assumptions C26_globalized_list.

(** C26.  The overlap ids derived from it are the missing neighbours, and the list of
    local indices names the same neighbours at the same positions. *)
Theorem C26_local_list_well_formed : forall owned gs, NoDup owned ->
  exists sh ls, shared_ids owned (count_positions gs) (flat_form gs) = Ok sh /\
    ghosts_of owned (fun x => exists l, In l gs /\ In x l) sh /\ NoDup (owned ++ sh) /\
    local_list (owned ++ sh) (count_positions gs) (flat_form gs) = Ok (flat_form ls) /\
    count_positions ls = count_positions gs /\ Forall2 (Forall2 (names (owned ++ sh))) ls gs.
Proof. exact search_overlap_ok. Qed.
Print Assumptions C26_local_list_well_formed.

(** C26.  Rebalancing: for every current decomposition and every target distribution of
    the same points, each processor ends up with the flat form of the neighbours of its
    points, the size recorded is the length of the list, and the overlap map is the owned
    points followed by the missing neighbours. *)
Theorem C26_rebalanced_list_well_formed : forall (cur : list (rproc * list (list Z))) targets,
  (forall p nbrs, In (p, nbrs) cur -> proc_ok p nbrs) ->
  NoDup (concat (map r_owned (map fst cur))) ->
  (forall t, In t targets -> NoDup t /\ forall g, In g t -> In g (concat (map r_owned (map fst cur)))) ->
  exists res, rebalance (map fst cur) targets = Ok res /\
    Forall2 (fun t r => let '(ov, size, list) := r in
      exists gs ghosts ls,
        Forall2 (neighbours_are cur) t gs /\
        ov = t ++ ghosts /\ NoDup ov /\ ghosts_of t (fun x => exists l, In l gs /\ In x l) ghosts /\
        list = flat_form ls /\ size = Z.of_nat (length list) /\
        Forall2 (Forall2 (names ov)) ls gs) targets res.
Proof. exact rebalance_ok. Qed.
Print Assumptions C26_rebalanced_list_well_formed.

(** C26.  Block splitting. *)
Theorem C26_block_list_well_formed : forall bid g nbrs, well_formed g nbrs ->
  exists b nd ls, block_initialize bid g = Ok (b, nd) /\
    nd_list nd = flat_form ls /\ nd_ptr nd = count_positions ls /\ length ls = length (nd_owned nd) /\
    Forall2 (Forall2 (names (b_overlap b))) ls (map snd (assigned bid g nbrs)).
Proof. exact block_list_ok. Qed.
Print Assumptions C26_block_list_well_formed.

Definition ex_cur : list (rproc * list (list Z)) :=
  [ (RProc [0; 1] [0; 1; 2] [2; 1; 2; 1; 0], [[1; 2]; [0]]);  (RProc [2; 3] [2; 3; 0] [1; 2; 0], [[0]; []]) ].
Example C26_rebalance_hypotheses_met :
  (forall p nbrs, In (p, nbrs) ex_cur -> proc_ok p nbrs) /\ NoDup (concat (map r_owned (map fst ex_cur))) /\
  (forall t, In t [[3; 0]; [1; 2]] -> NoDup t /\ forall g, In g t -> In g (concat (map r_owned (map fst ex_cur)))).
Proof.
  split; [|split].
  - intros p nbrs [E|[E|[]]]; injection E as <- <-.
    + split; [repeat constructor; simpl; intuition lia|]. split; [simpl; intuition lia|]. split; [reflexivity|].
      exists [[1; 2]; [0]]. split; [reflexivity|]. repeat constructor; simpl; try lia; reflexivity.
    + split; [repeat constructor; simpl; intuition lia|]. split; [simpl; intuition lia|]. split; [reflexivity|].
      exists [[2]; []]. split; [reflexivity|]. repeat constructor; simpl; try lia; reflexivity.
  - repeat constructor; simpl; intuition lia.
  - intros t [<-|[<-|[]]]; (split; [repeat constructor; simpl; intuition lia|simpl; intuition]).
Qed.
Example C26_rebalance_concrete : rebalance (map fst ex_cur) [[3; 0]; [1; 2]]
  = Ok [([3; 0; 1; 2], 4, [0; 2; 2; 3]); ([1; 2; 0], 4, [1; 2; 1; 2])].
Proof. vm_compute. reflexivity. Qed.
Example C26_search_concrete : buildNeighborhoodList [[0; 2; 5]; [1; 2]] [[true; false; false]; [true; true]]
  = Ok ([0; 3], [2; 2; 5; 0]).
Proof. vm_compute. reflexivity. Qed.
