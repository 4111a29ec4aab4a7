(** * C71: the interfaces between elements *)
From Coq Require Import Permutation.
From Verif Require Import Base Num ModelScalar ModelMesh ModelInterface ProofMesh ProofInterface SpecInterface.

(** ** Hexahedra: every pair of neighbours with a common face is recorded once, with the corners
    of that face in polygon order *)
Theorem C71_hexahedra conn gids lists : elements_wf conn gids lists ->
  (forall i j a b, neighbours conn lists i j a b -> length a = 8 /\ length b = 8) ->
  exists fs, construct_interfaces conn (firstn (length lists) gids) gids (stored_lists lists) = Ok fs /\
    once fs /\ exactly hex_touch conn gids lists fs /\
    forall f, In f fs -> exists i j a b, between gids f i j /\ neighbours conn lists i j a b /\
      face_of a (if_nodes f) /\ if_count f = length (shared (if_nodes f) b) /\ 3 <= if_count f.
Proof.
  intros W H. apply (assemble conn gids lists hex_touch (fun a b f => face_of a (if_nodes f) /\ if_count f = length (shared (if_nodes f) b) /\ 3 <= if_count f) W).
  intros i j a b g h N G Hh. destruct (H _ _ _ _ N) as (La & Lb). destruct (neigh_nodup _ _ _ _ _ _ _ W N) as (_ & Nb). destruct N as (_ & A & B).
  rewrite (pair_unfold conn gids g h a b j B Hh) by congruence. rewrite La. cbn [Nat.eqb]. destruct (Z.ltb_spec g h) as [Lt|Lt].
  - destruct (hex_true a b La Nb) as (r & R & Q). rewrite R. cbn [bind]. eexists. split; [reflexivity|]. destruct r as [(n & q)|].
    + destruct Q as (F & C & T). right. eexists. split; [reflexivity|]. cbn. do 3 (split; [auto|]). split; [|auto]. exists q. split; [exact F|]. now rewrite <- C.
    + left. split; [reflexivity|tauto].
  - rewrite hex_false by exact La. cbn [bind]. eexists. split; [reflexivity|]. left. split; [reflexivity|lia].
Qed.
Print Assumptions C71_hexahedra.

(** In a conforming mesh all four corners are common to both elements, and all four are stored. *)
Theorem C71_conforming conn gids lists : elements_wf conn gids lists ->
  (forall i j a b, neighbours conn lists i j a b -> length a = 8 /\ length b = 8 /\ conforming a b) ->
  exists fs, construct_interfaces conn (firstn (length lists) gids) gids (stored_lists lists) = Ok fs /\
    once fs /\ exactly hex_touch conn gids lists fs /\
    forall f, In f fs -> exists i j a b, between gids f i j /\ neighbours conn lists i j a b /\
      face_of a (if_nodes f) /\ (forall c, In c (if_nodes f) -> In c b) /\ stored_nodes f = Ok (if_nodes f).
Proof.
  intros W H. destruct (C71_hexahedra conn gids lists W) as (fs & E & O & X & Q); [intros i j a b N; destruct (H _ _ _ _ N) as (A & B & _); auto|].
  exists fs. split; [exact E|]. split; [exact O|]. split; [exact X|]. intros f I. destruct (Q f I) as (i & j & a & b & B & N & F & C & C3). exists i, j, a, b. split; [exact B|]. split; [exact N|]. split; [exact F|].
  assert (L4 : length (if_nodes f) = 4). { destruct F as (s & p & S & F & P). apply polygon_perm, Permutation_length in P. apply F2_length in F. unfold hex_faces in S. cbn [In] in S. repeat (destruct S as [S|S]); try contradiction; subst s; cbn [length] in F; lia. }
  assert (C4 : length (shared (if_nodes f) b) = 4).
  { destruct (H _ _ _ _ N) as (_ & _ & K). specialize (K _ F). assert (length (shared (if_nodes f) b) <= length (if_nodes f)) by apply filter_length_le. lia. }
  split.
  - intros c Ic. assert (Al : forall l : list Z, length (shared l b) = length l -> forall c, In c l -> In c b).
    { clear. unfold shared. induction l as [|x l IH]; intros L c I; [destruct I|]. cbn [filter] in L. pose proof (filter_length_le (fun c => if in_dec Z.eq_dec c b then true else false) l).
      destruct (in_dec Z.eq_dec x b) as [K|K]; cbn [length] in L; [|lia]. destruct I as [<-|I]; [exact K|]. apply IH; [lia|exact I]. }
    apply (Al (if_nodes f)); [lia|exact Ic].
  - unfold stored_nodes. rewrite C, C4, <- L4. rewrite mapO_ok with (g := fun k => nth k (if_nodes f) 0%Z); [now rewrite map_nth_seq|].
    intros k I'. apply in_seq in I'. unfold at_ub. rewrite (nth_error_nth' _ 0%Z) by lia. reflexivity.
Qed.
Print Assumptions C71_conforming.

(** ** Elements with another number of nodes: the pairs that share at least three nodes, with the
    shared nodes, as long as no listed pair shares more than four *)
Theorem C71_others conn gids lists : elements_wf conn gids lists ->
  (forall i j a b, neighbours conn lists i j a b -> length a = length b /\ length a <> 8 /\ length (shared a b) <= 4) ->
  exists fs, construct_interfaces conn (firstn (length lists) gids) gids (stored_lists lists) = Ok fs /\
    once fs /\ exactly touch conn gids lists fs /\
    forall f, In f fs -> exists i j a b, between gids f i j /\ neighbours conn lists i j a b /\
      if_count f = length (shared a b) /\ stored_nodes f = Ok (shared a b).
Proof.
  intros W H. apply (assemble conn gids lists touch (fun a b f => if_count f = length (shared a b) /\ stored_nodes f = Ok (shared a b)) W).
  intros i j a b g h N G Hh. destruct (H _ _ _ _ N) as (L & L8 & S4). destruct (neigh_nodup _ _ _ _ _ _ _ W N) as (_ & Nb). destruct N as (_ & A & B).
  rewrite (pair_unfold conn gids g h a b j B Hh L). rewrite (proj2 (Nat.eqb_neq _ _) L8), other_eq by exact Nb. destruct (Nat.leb_spec (length (shared a b)) 4); [|lia]. cbn [bind].
  eexists. split; [reflexivity|]. unfold touch. destruct (Nat.ltb_spec 2 (length (shared a b))) as [K|K], (Z.ltb_spec g h) as [Lt|Lt]; cbn [andb]; try (left; split; [reflexivity|lia]).
  right. eexists. split; [reflexivity|]. cbn. do 4 (split; [auto|]). split; [reflexivity|]. unfold stored_nodes. cbn [if_count if_nodes].
  rewrite mapO_ok with (g := fun k => nth k (shared a b) 0%Z); [now rewrite map_nth_seq|]. intros k I. apply in_seq in I. unfold at_ub. rewrite nth_error_app1 by lia. rewrite (nth_error_nth' _ 0%Z) by lia. reflexivity.
Qed.
Print Assumptions C71_others.

(** ** Two neighbours that share more than four nodes, such as tetrahedra with ten nodes or
    hexahedra with twenty across a face: the code writes past an array of four. *)
Theorem C71_quadratic_refuted conn gids lists i j a b : elements_wf conn gids lists -> neighbours conn lists i j a b ->
  length a = length b -> length a <> 8 -> 4 < length (shared a b) ->
  construct_interfaces conn (firstn (length lists) gids) gids (stored_lists lists) = UB.
Proof.
  intros W N L L8 S. destruct (neigh_nodup _ _ _ _ _ _ _ W N) as (_ & Nb). pose proof N as ((l & Ll & _) & A & B). apply (construct_ub _ _ _ lists i j a b N).
  destruct W as [_ Wn _ _ _ _ _]. destruct (nth_error gids j) as [h|] eqn:G; [|apply nth_error_None in G; assert (j < length conn) by (apply nth_error_Some; congruence); lia].
  rewrite (pair_unfold conn gids _ h a b j B G L). rewrite (proj2 (Nat.eqb_neq _ _) L8), other_eq by exact Nb. destruct (Nat.leb_spec (length (shared a b)) 4); [lia|reflexivity].
Qed.
Print Assumptions C71_quadratic_refuted.

(** ** Meshes with elements of several kinds: the neighbour is read with the number of nodes of
    the element itself, past the end of the array if it is the last ... *)
Theorem C71_mixed_refuted conn gids lists i j a b : neighbours conn lists i j a b -> S j = length conn -> length b < length a ->
  construct_interfaces conn (firstn (length lists) gids) gids (stored_lists lists) = UB.
Proof.
  intros N J L. pose proof N as (_ & _ & B). apply (construct_ub _ _ _ lists i j a b N). unfold one_pair. rewrite (last_read _ _ _ _ B J L). reflexivity.
Qed.
Print Assumptions C71_mixed_refuted.
(** ... and into the nodes of the next one otherwise: a hexahedron and a tetrahedron with two
    common nodes are recorded as if they had a common face. *)
Definition ex_mixed : list (list Z) := [[0; 1; 2; 3; 4; 5; 6; 7]; [4; 5; 20; 21]; [6; 7; 22; 23]]%Z.
Theorem C71_mixed_false_refuted : exists conn gids lists fs f a b, elements_wf conn gids lists /\
  construct_interfaces conn (firstn (length lists) gids) gids (stored_lists lists) = Ok fs /\ In f fs /\
  nth_error conn 0 = Some a /\ nth_error conn 1 = Some b /\ between gids f 0 1 /\ length (shared a b) = 2.
Proof.
  exists ex_mixed, [0; 1; 2]%Z, [[1]; []; []]. do 2 eexists. exists [0; 1; 2; 3; 4; 5; 6; 7]%Z, [4; 5; 20; 21]%Z.
  split; [|split; [reflexivity|split; [left; reflexivity|split; [reflexivity|split; [reflexivity|split; [split; reflexivity|reflexivity]]]]]].
  constructor; try reflexivity; try (repeat constructor; cbn; intuition lia); cbn; lia.
Qed.
Print Assumptions C71_mixed_false_refuted.

(** ** Hexahedra with repeated nodes (wedges): more matches than nodes are counted, and storing the
    interface reads past the four corners. *)
Theorem C71_wedge_refuted : exists conn gids lists fs f, length lists = length conn /\ length gids = length conn /\ Forall (fun a => length a = 8) conn /\
  construct_interfaces conn (firstn (length lists) gids) gids (stored_lists lists) = Ok fs /\ In f fs /\ stored_nodes f = UB.
Proof.
  exists [[0; 1; 2; 2; 4; 5; 6; 6]; [1; 9; 2; 2; 5; 10; 6; 6]]%Z, [0; 1]%Z, [[1]; [0]]. do 2 eexists. do 3 (split; [repeat constructor|]). split; [reflexivity|]. split; [left; reflexivity|reflexivity].
Qed.
Print Assumptions C71_wedge_refuted.

(** ** Hexahedra with exactly three common corners: a triangle is stored, but not that of the
    common corners. *)
Theorem C71_three_corners_refuted : exists conn gids lists fs f a b q c, elements_wf conn gids lists /\
  construct_interfaces conn (firstn (length lists) gids) gids (stored_lists lists) = Ok fs /\ In f fs /\
  nth_error conn 0 = Some a /\ nth_error conn 1 = Some b /\ between gids f 0 1 /\ stored_nodes f = Ok q /\ In c q /\ ~ In c b.
Proof.
  exists [[0; 1; 2; 3; 4; 5; 6; 7]; [5; 6; 7; 8; 9; 10; 11; 12]]%Z, [0; 1]%Z, [[1]; [0]]. do 2 eexists. exists [0; 1; 2; 3; 4; 5; 6; 7]%Z, [5; 6; 7; 8; 9; 10; 11; 12]%Z, [4; 5; 6]%Z, 4%Z.
  split; [constructor; try reflexivity; try (repeat constructor; cbn; intuition lia); cbn; lia|].
  split; [reflexivity|]. split; [left; reflexivity|]. do 2 (split; [reflexivity|]). split; [split; reflexivity|]. split; [reflexivity|]. split; [now left|]. cbn. intuition lia.
Qed.
Print Assumptions C71_three_corners_refuted.

(** ** Concrete meshes: three cubes in a row, seen from both sides; two tetrahedra *)
Definition ex_cubes : list (list Z) := [[0; 1; 2; 3; 4; 5; 6; 7]; [1; 8; 9; 2; 5; 10; 11; 6]; [8; 12; 13; 9; 10; 14; 15; 11]]%Z.
Definition ex_lists : list (list nat) := [[1; 2]; [0; 2]].
Example C71_cubes_met : elements_wf ex_cubes [7; 3; 5]%Z ex_lists /\ forall i j a b, neighbours ex_cubes ex_lists i j a b -> length a = 8 /\ length b = 8 /\ conforming a b.
Proof.
  split; [constructor; try reflexivity; try (repeat constructor; cbn; intuition lia); cbn; lia|].
  intros i j a b ((l & L & J) & A & B).
  assert (Cf : forall x y, (forall f, In f hex_faces -> length (shared (map (fun k => nth k x 0%Z) f) y) <> 3) -> conforming x y).
  { intros x y K q (f & p & I & F & P) Q. rewrite (shared_perm q p y (polygon_perm _ _ P)) in Q. rewrite (corners_fun _ _ _ F) in Q. exact (K f I Q). }
  destruct i as [|[|i]]; cbn in L; [| |destruct i; discriminate]; injection L as <-; cbn in J; destruct J as [<-|[<-|[]]]; injection A as <-; injection B as <-; (split; [reflexivity|split; [reflexivity|]]);
    apply Cf; intros f I; unfold hex_faces in I; cbn [In] in I; repeat (destruct I as [I|I]); try contradiction; subst f; vm_compute; discriminate.
Qed.
Example C71_cubes : construct_interfaces ex_cubes [7; 3]%Z [7; 3; 5]%Z (stored_lists ex_lists)
  = Ok [{| if_left := 3; if_right := 7; if_count := 4; if_nodes := [1; 5; 6; 2]%Z |}; {| if_left := 3; if_right := 5; if_count := 4; if_nodes := [8; 10; 11; 9]%Z |}].
Proof. reflexivity. Qed.
Definition ex_tets : list (list Z) := [[0; 1; 2; 3]; [1; 2; 3; 4]; [3; 4; 5; 6]]%Z.
Example C71_tets_met : elements_wf ex_tets [0; 1; 2]%Z [[1; 2]; [2; 0]; [0]] /\
  forall i j a b, neighbours ex_tets [[1; 2]; [2; 0]; [0]] i j a b -> length a = length b /\ length a <> 8 /\ length (shared a b) <= 4.
Proof.
  split; [constructor; try reflexivity; try (repeat constructor; cbn; intuition lia); cbn; lia|]. intros i j a b ((l & L & J) & A & B).
  destruct i as [|[|[|i]]]; cbn in L; [| | |destruct i; discriminate]; injection L as <-; cbn in J; repeat (destruct J as [J|J]); try contradiction; subst j; injection A as <-; injection B as <-;
    vm_compute; repeat split; try discriminate; lia.
Qed.
Example C71_tets : construct_interfaces ex_tets [0; 1; 2]%Z [0; 1; 2]%Z (stored_lists [[1; 2]; [2; 0]; [0]])
  = Ok [{| if_left := 0; if_right := 1; if_count := 3; if_nodes := [1; 2; 3; 0]%Z |}].
Proof. reflexivity. Qed.
(** Two tetrahedra with ten nodes and a common face: six common nodes *)
Example C71_quadratic_met : exists conn gids lists a b, elements_wf conn gids lists /\ neighbours conn lists 0 1 a b /\ length a = length b /\ length a <> 8 /\ 4 < length (shared a b).
Proof.
  exists [[0; 1; 2; 3; 4; 5; 6; 7; 8; 9]; [0; 2; 1; 10; 6; 5; 4; 11; 12; 13]]%Z, [0; 1]%Z, [[1]; [0]], [0; 1; 2; 3; 4; 5; 6; 7; 8; 9]%Z, [0; 2; 1; 10; 6; 5; 4; 11; 12; 13]%Z.
  split; [constructor; try reflexivity; try (repeat constructor; cbn; intuition lia); cbn; lia|]. split; [split; [exists [1]; split; [reflexivity|now left]|split; reflexivity]|].
  vm_compute. repeat split; try discriminate; lia.
Qed.
