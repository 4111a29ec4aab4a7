(** * C70: reading a mesh *)
From Coq Require Import String Ascii DecimalString DecimalZ SpecFloat.
From Verif Require Import Base Num ModelScalar ModelInput ModelGeom ModelMesh SpecInput ProofInput SpecMesh ProofMesh.
Local Open Scope string_scope.
Local Open Scope list_scope.

(** ** Every element becomes one point with its number, block, position and volume *)
Theorem C70_points (N : Num) (m : mesh N) (r : loaded N) : mesh_wf m -> load_mesh m = Ok r ->
  lo_ids r = zero_based (numbers m) /\ length (lo_points r) = length (numbers m) /\
  forall e b i, is_element m e b i -> exists t p,
    of_type b t /\ nth_error (lo_points r) e = Some p /\ mp_block p = mb_id b /\ point_of m t b i (mp_x p) (mp_volume p).
Proof. intros W E. pose proof (load_spec m W) as S. rewrite E in S. destruct S as (_ & A & B & C & _). auto. Qed.
Print Assumptions C70_points.

(** ** The blocks list exactly their elements, in order, under names that are all different *)
Lemma rows_nth {N : Num} (ids : list Z) : forall (l2 l1 : list (mblock N)) b l3, nth_error
   ((fix go n l := match l with [] => [] | b :: l' => (block_name b, firstn (mb_count b) (skipn n ids)) :: go (n + mb_count b) l' end) (elements_in l1) (l2 ++ b :: l3)) (length l2)
   = Some (block_name b, firstn (mb_count b) (skipn (elements_in l1 + elements_in l2) ids)).
Proof.
  induction l2 as [|c l2 IH]; intros l1 b l3; cbn [app length nth_error]; [now rewrite Nat.add_0_r|].
  specialize (IH (l1 ++ [c]) b l3). rewrite elements_app in IH. replace (elements_in [c]) with (mb_count c) in IH by (cbn; lia).
  rewrite IH. change (elements_in (c :: l2)) with (mb_count c + elements_in l2). do 4 f_equal. lia.
Qed.
Lemma rows_length {N : Num} ids (l1 l2 : list (mblock N)) : length (block_rows ids l1 l2) = length l2.
Proof. unfold block_rows. generalize (elements_in l1). induction l2; intros n; cbn [length]; auto. Qed.

Theorem C70_blocks (N : Num) (m : mesh N) (r : loaded N) : mesh_wf m -> load_mesh m = Ok r ->
  NoDup (map block_name (me_blocks m)) /\ length (lo_blocks r) = length (me_blocks m) /\
  forall l1 b l2, me_blocks m = l1 ++ b :: l2 ->
    nth_error (lo_blocks r) (length l1) = Some (block_name b, firstn (mb_count b) (skipn (elements_in l1) (lo_ids r))).
Proof.
  intros W E. pose proof (load_spec m W) as S. rewrite E in S. destruct S as ((_ & D & _) & A & _ & _ & C & _).
  split; [exact D|]. split; [rewrite C; apply rows_length|]. intros l1 b l2 H. rewrite C, A, H. exact (rows_nth _ l1 [] b l2).
Qed.
Print Assumptions C70_blocks.

(** A block without a name is called block_<number>, which names that number (C46). *)
Lemma digits_acc u : forall acc,
  fold_left (fun acc c => (10 * acc + digit_value c)%Z) (list_ascii_of_string (NilEmpty.string_of_uint u)) (Zpos acc) = Zpos (Pos.of_uint_acc u acc).
Proof. induction u as [|u IH|u IH|u IH|u IH|u IH|u IH|u IH|u IH|u IH|u IH]; intros acc; [reflexivity|..]; cbn [NilEmpty.string_of_uint list_ascii_of_string fold_left Pos.of_uint_acc]; rewrite <- IH; f_equal;
  match goal with |- context [digit_value ?c] => let d := eval vm_compute in (digit_value c) in change (digit_value c) with d end; lia. Qed.
Lemma digits_zero u : value_of (NilEmpty.string_of_uint u) = Z.of_N (Pos.of_uint u).
Proof. unfold value_of. induction u as [|u IH|u IH|u IH|u IH|u IH|u IH|u IH|u IH|u IH|u IH]; [reflexivity|exact IH|..]; cbn [Pos.of_uint Z.of_N]; rewrite <- digits_acc; reflexivity. Qed.
Lemma digits_only u c : In c (list_ascii_of_string (NilEmpty.string_of_uint u)) -> digit c <> None.
Proof. induction u; cbn [NilEmpty.string_of_uint list_ascii_of_string In]; [tauto|..]; intros [H|H]; try (subst c; discriminate); auto. Qed.

Lemma show_numeral z : (0 <= z)%Z -> numeral (show_int z) /\ value_of (show_int z) = z.
Proof.
  intros P. pose proof (DecimalZ.of_to z) as O. unfold show_int. destruct (Z.to_int z) as [u|u] eqn:E.
  - cbn [NilZero.string_of_int Z.of_int Z.of_uint] in *.
    assert (K : forall v, v <> Decimal.Nil -> numeral (NilEmpty.string_of_uint v) /\ value_of (NilEmpty.string_of_uint v) = Z.of_N (Pos.of_uint v)).
    { intros v V. split; [split; [destruct v; [congruence|..]; discriminate|apply digits_only]|]. apply digits_zero. }
    unfold NilZero.string_of_uint. destruct u; try (split; [apply K; discriminate|rewrite <- O; apply K; discriminate]).
    rewrite <- O. split; [split; [discriminate|]|reflexivity]. intros c [H|[]]; subst; discriminate.
  - exfalso. destruct z as [|p|p]; cbn [Z.to_int] in E; try discriminate. lia.
Qed.

Theorem C70_unnamed_block (N : Num) (b : mblock N) : mb_name b = "" -> (0 <= mb_id b <= int_max)%Z -> block_id (block_name b) = Ok (mb_id b).
Proof.
  intros Nm B. unfold block_name, name_or. rewrite Nm. cbn [String.eqb]. destruct (show_numeral (mb_id b)) as (A & V); [lia|].
  replace ("block_" ++ show_int (mb_id b))%string with ("block" ++ "_" ++ show_int (mb_id b))%string by reflexivity.
  rewrite cubit_name; [now rewrite V| |exact A|lia]. intros c H. cbn in H. repeat (destruct H as [H|H]; [subst; vm_compute; intuition discriminate|]). destruct H.
Qed.
Print Assumptions C70_unnamed_block.

(** Given names are kept; an unnamed set is called nodelist_<number>. *)
Theorem C70_names (N : Num) : (forall b : mblock N, mb_name b <> "" -> block_name b = mb_name b) /\
  (forall s : mset, ms_name s <> "" -> set_name s = ms_name s) /\
  (forall s : mset, ms_name s = "" -> (0 <= ms_id s)%Z -> exists d, set_name s = ("nodelist_" ++ d)%string /\ numeral d /\ value_of d = ms_id s).
Proof.
  unfold block_name, set_name, name_or. split; [|split].
  - intros b H. destruct (String.eqb_spec (mb_name b) ""); [contradiction|reflexivity].
  - intros b H. destruct (String.eqb_spec (ms_name b) ""); [contradiction|reflexivity].
  - intros s -> H. exists (show_int (ms_id s)). destruct (show_numeral _ H). auto.
Qed.
Print Assumptions C70_names.

(** ** A node set becomes the set of the elements that contain one of its nodes *)
Theorem C70_node_sets (N : Num) (m : mesh N) (r : loaded N) : mesh_wf m -> load_mesh m = Ok r ->
  NoDup (map set_name (me_sets m)) /\ length (lo_sets r) = length (me_sets m) /\
  lo_set_ids r = map (fun s => (set_name s, ms_id s)) (me_sets m) /\
  forall k s, nth_error (me_sets m) k = Some s -> exists l, nth_error (lo_sets r) k = Some (set_name s, l) /\ NoDup l /\
    forall g, In g l <-> exists e b i k c, is_element m e b i /\ has_node b i k c /\ In c (ms_nodes s) /\ nth_error (lo_ids r) e = Some g.
Proof.
  intros W E. pose proof (load_spec m W) as S. rewrite E in S. destruct S as ((_ & _ & D & _) & A & _ & _ & _ & F & I).
  split; [exact D|]. split; [symmetry; exact (F2_length _ _ _ F)|]. split; [exact I|]. rewrite A. clear - F.
  induction F as [|s e ss es (H1 & H2) F IH]; intros [|k] s0 H; try discriminate; [|now apply IH]. injection H as <-. destruct e as (n & l). cbn [fst snd] in *. subst n.
  exists l. destruct H2 as (H2 & H3). auto.
Qed.
Print Assumptions C70_node_sets.

(** ** A well-formed file is never undefined behaviour; it is read exactly if it is readable:
    known types, no inverted element, no repeated name, no unknown auxiliary map. *)
Theorem C70_refused (N : Num) (m : mesh N) : mesh_wf m ->
  ((exists r, load_mesh m = Ok r) <-> readable m) /\ (load_mesh m = Err <-> ~ readable m) /\ load_mesh m <> UB.
Proof.
  intros W. pose proof (load_spec m W) as S. destruct (load_mesh m) as [r| |].
  - destruct S as (S & _). split; [split; eauto|]. split; [split; [discriminate|tauto]|discriminate].
  - split; [split; [intros (r & H); discriminate|tauto]|]. split; [tauto|discriminate].
  - destruct S.
Qed.
Print Assumptions C70_refused.

(** ** The number of attributes of sphere elements is not checked: with fewer than two (the
    volume is the second) the code reads past the end of the attributes. *)
Lemma foldM_ub {A S} (f : S -> A -> outcome S) a : (forall s a, f s a <> Err) -> (forall s, f s a = UB) -> forall l s, In a l -> foldM f s l = UB.
Proof.
  intros Ne U. induction l as [|x l IH]; intros s H; [destruct H|]. cbn [foldM]. destruct H as [H|H]; [subst; now rewrite U|]. pose proof (Ne s x). destruct (f s x); cbn [bind]; [now apply IH|congruence|reflexivity].
Qed.
Lemma mapO_not_err {A B} (f : A -> outcome B) l : (forall a, f a <> Err) -> mapO f l <> Err.
Proof.
  intros H. induction l as [|a l IH]; cbn [mapO]; [discriminate|]. pose proof (H a). destruct (f a); cbn [bind]; try congruence; try discriminate.
  destruct (mapO f l); cbn [bind]; try discriminate. congruence.
Qed.
Lemma at_not_err {A} (l : list A) k : at_ub l k <> Err. Proof. unfold at_ub. destruct (nth_error l k); discriminate. Qed.
Lemma coordinates_not_err {N : Num} coord (b : mblock N) i : node_coordinates coord b i <> Err.
Proof.
  apply mapO_not_err. intros k. unfold at_z, at_ub. destruct (nth_error (mb_conn b) _); cbn [bind]; [|discriminate].
  destruct (Z.ltb _ _); [discriminate|]. destruct (nth_error coord _); discriminate.
Qed.

Theorem C70_sphere_attributes_refuted (N : Num) (m : mesh N) (b : mblock N) l : me_aux m = [] -> me_blocks m = b :: l ->
  of_type b Sphere -> 0 < mb_count b -> mb_nattr b < 2 -> length (mb_attr b) = mb_count b * mb_nattr b -> load_mesh m = UB.
Proof.
  intros Au B O C At L. unfold load_mesh, element_ids. rewrite Au, B. cbn [bind foldM]. unfold load_block at 1. cbn [existsb].
  destruct (Nat.eqb_spec (mb_count b) 0); [lia|]. apply type_of in O. rewrite O. cbn [bind].
  rewrite (foldM_ub _ (mb_count b - 1)); [reflexivity| | |apply in_seq; lia].
  - intros (st & mem) i. unfold load_element. pose proof (coordinates_not_err (me_coord m) b i).
    destruct (node_coordinates _ _ _) as [x| |]; cbn [bind]; [|congruence|discriminate].
    unfold at_ub at 1. destruct (nth_error _ (ls_local st)) as [g|]; cbn [bind]; [|discriminate]. cbn [element_point]. unfold at_ub.
    destruct (nth_error x 0); cbn [bind]; [|discriminate]. destruct (nth_error (mb_attr b) _); cbn [bind]; [|discriminate]. destruct (lid _ g); [|discriminate].
    unfold upd_ub. destruct (upd _ _ _); discriminate.
  - intros (st & mem). unfold load_element. pose proof (coordinates_not_err (me_coord m) b (mb_count b - 1)).
    destruct (node_coordinates _ _ _) as [x| |]; cbn [bind]; [|congruence|reflexivity].
    unfold at_ub at 1. destruct (nth_error _ (ls_local st)) as [g|]; cbn [bind]; [|reflexivity]. cbn [element_point].
    pose proof (at_not_err x 0). destruct (at_ub x 0); cbn [bind]; [|congruence|reflexivity].
    assert (Q : nth_error (mb_attr b) ((mb_count b - 1) * mb_nattr b + 1) = None) by (apply nth_error_None; rewrite L; nia).
    unfold at_ub. rewrite Q. reflexivity.
Qed.
Print Assumptions C70_sphere_attributes_refuted.

(** ** A concrete mesh: a tetrahedron with ten nodes (four of them corners), a block without
    elements or type, two spheres; two node sets *)
Definition pt (x y z : Z) : V3 FN := v3 (N:=FN) (ofZ x) (ofZ y) (ofZ z).
Definition ex_mesh : mesh FN :=
  {| me_coord := [pt 0 0 0; pt 6 0 0; pt 0 6 0; pt 0 0 6; pt 3 0 0; pt 3 3 0; pt 0 3 0; pt 0 0 3; pt 3 0 3; pt 0 3 3; pt 9 9 9];
     me_elem_map := [5; 4; 7]%Z; me_aux := [("original_global_id_map", [15; 14; 17]%Z)];
     me_blocks := [ {| mb_id := 3; mb_name := ""; mb_type := "tetra"; mb_count := 1; mb_npe := 10; mb_nattr := 0;
                       mb_conn := [1; 2; 3; 4; 5; 6; 7; 8; 9; 10]%Z; mb_attr := [] |};
                    {| mb_id := 1; mb_name := "none"; mb_type := "NULL"; mb_count := 0; mb_npe := 0; mb_nattr := 0; mb_conn := []; mb_attr := [] |};
                    {| mb_id := 2; mb_name := "balls"; mb_type := "Sphere"; mb_count := 2; mb_npe := 1; mb_nattr := 2;
                       mb_conn := [11; 2]%Z; mb_attr := [(ofZ 1 : T FN); (ofZ 4 : T FN); (ofZ 2 : T FN); (ofZ 32 : T FN)] |} ];
     me_sets := [ {| ms_id := 8; ms_name := "corner"; ms_nodes := [2; 5]%Z |}; {| ms_id := 9; ms_name := ""; ms_nodes := [11]%Z |} ] |}.
Example C70_met : mesh_wf ex_mesh.
Proof.
  split; [|split; [reflexivity|split]].
  - repeat constructor; cbn; intuition discriminate.
  - repeat apply Forall_cons; try apply Forall_nil; (split; [reflexivity|split; [repeat constructor; cbn; lia|]]);
      intros t O; destruct t; cbn in O; repeat (destruct O as [O|O]); try discriminate; try contradiction; cbn; split; try lia; intros E; try discriminate; auto.
  - repeat constructor; cbn; lia.
Qed.
Definition co (p : V3 FN) : spec_float * spec_float * spec_float := (vx p, vy p, vz p).
Definition ex_loaded : outcome (list Z * list (Z * (spec_float * spec_float * spec_float) * spec_float) * list (string * list Z) * list (string * list Z)) :=
  let? r := load_mesh ex_mesh in
  Ok (lo_ids r, map (fun p => (mp_block p, co (mp_x p), mp_volume p : spec_float)) (lo_points r), lo_blocks r, lo_sets r).
Example C70_loaded : exists x,
  ex_loaded = Ok ([14; 13; 16]%Z, [(3%Z, x, fofZ 36); (2%Z, (fofZ 9, fofZ 9, fofZ 9), fofZ 4); (2%Z, (fofZ 6, fofZ 0, fofZ 0), fofZ 32)],
                 [("block_3", [14%Z]); ("none", []); ("balls", [13; 16]%Z)], [("corner", [14; 16]%Z); ("nodelist_9", [13%Z])]).
Proof. eexists. vm_compute. reflexivity. Qed.
(** The same without the second attribute of the spheres *)
Example C70_attributes_met : exists b : mblock FN, of_type b Sphere /\ 0 < mb_count b /\ mb_nattr b < 2 /\ length (mb_attr b) = mb_count b * mb_nattr b.
Proof.
  exists {| mb_id := 1; mb_name := ""; mb_type := "SPHERE"; mb_count := 2; mb_npe := 1; mb_nattr := 1; mb_conn := [1; 2]%Z; mb_attr := [(ofZ 1 : T FN); (ofZ 2 : T FN)] |}.
  cbn. unfold of_type. cbn. auto.
Qed.
