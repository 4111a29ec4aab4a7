(** * C75: the mesh converter *)
From Coq Require Import String Permutation.
From Verif Require Import Base Num ModelScalar ModelInput ModelGeom ModelMesh SpecMesh ProofMesh ProofBC2 ProofStep PropMesh ModelConvert ProofConvert SpecConvert.
Local Open Scope string_scope.
Local Open Scope list_scope.

Section Facts.
  Context {N : Num}.
  Variable cbrt : N -> N.
  Variable dbl_max : N.
  Lemma sets_by_name (r : loaded N) n l : In (n, l) (by_name (lo_sets r)) <-> In (n, l) (lo_sets r).
  Proof. split; apply Permutation_in; [|symmetry]; apply by_name_perm. Qed.
  Lemma where_in (test : mpoint N -> bool) pts g : In g (where_ test pts) <-> exists k p, g = Z.of_nat k /\ nth_error pts k = Some p /\ test p = true.
  Proof.
    unfold where_. rewrite in_map_iff. split.
    - intros ((k & p) & <- & H). apply filter_In in H as (H & T). exists k, p. split; [reflexivity|]. split; [|exact T]. apply In_nth_error in H as (j & H).
      assert (G : forall (l : list (mpoint N)) a j k p, nth_error (combine (seq a (length l)) l) j = Some (k, p) -> nth_error l (k - a) = Some p /\ a <= k).
      { clear. induction l as [|q l IH]; intros a j k p H; [destruct j; discriminate|]. destruct j as [|j]; cbn [length seq combine nth_error] in H; [injection H as <- <-; rewrite Nat.sub_diag; auto|].
        apply IH in H as (H & L). split; [|lia]. replace (k - a) with (S (k - S a)) by lia. exact H. }
      apply G in H as (H & _). now rewrite Nat.sub_0_r in H.
    - intros (k & p & -> & H & T). exists (k, p). split; [reflexivity|]. apply filter_In. split; [|exact T].
      assert (G : forall (l : list (mpoint N)) a k p, nth_error l k = Some p -> In (a + k, p) (combine (seq a (length l)) l)).
      { clear. induction l as [|q l IH]; intros a k p H; [destruct k; discriminate|]. destruct k as [|k]; cbn [length seq combine]; [injection H as <-; left; f_equal; lia|].
        right. replace (a + S k) with (S a + k) by lia. now apply IH. }
      exact (G _ 0 _ _ H).
  Qed.
  Lemma extra_local layer (r : loaded N) n l g : In (n, l) (extra dbl_max layer r) -> In g l -> (0 <= g < Z.of_nat (length (lo_points r)))%Z.
  Proof.
    unfold extra. destruct layer as [th|]; [|intros []]. intros H G. assert (X : exists t, l = where_ t (lo_points r)).
    { cbn [boundary_sets In] in H. repeat (destruct H as [H|H]; [injection H as _ <-; eexists; reflexivity|]). destruct H. }
    destruct X as (t & ->). apply where_in in G as (k & p & -> & H' & _). assert (k < length (lo_points r)) by (apply nth_error_Some; congruence). lia.
  Qed.
  Lemma range_sets layer (r : loaded N) : sound r -> in_range r -> sets_in dbl_max layer r.
  Proof.
    intros S Rg n l g H G. apply in_app_iff in H as [H|H].
    - apply Rg. destruct S as (_ & _ & _ & _ & _ & _ & _ & S). apply (S n l); [now apply sets_by_name|exact G].
    - destruct S as (_ & S & _). rewrite <- S. exact (extra_local layer r n l g H G).
  Qed.
  Lemma extra_names layer (r : loaded N) : map fst (extra dbl_max layer r) = match layer with None => [] | Some _ => layer_names end.
  Proof. destruct layer; reflexivity. Qed.

  Lemma readable' scale layer (r : loaded N) m' : sound r -> convert cbrt dbl_max scale layer r = Ok m' -> (readable m' <-> names_free layer r).
  Proof.
    intros S E. pose proof (convert_inv _ _ _ _ _ _ E) as (A & B & C & F & G & _). pose proof S as (_ & _ & S3 & S4 & _ & S6 & S7 & _).
    assert (Bn : map block_name (me_blocks m') = map fst (by_name (lo_blocks r))).
    { assert (Q : ~ In "" (map fst (by_name (lo_blocks r)))) by (intros X; apply S4; eapply Permutation_in; [apply Permutation_map, by_name_perm|exact X]).
      clear - F Q. revert Q. induction F as [|e b l bs M F IH]; intros Q; [reflexivity|]. cbn [map In] in *. f_equal; [|apply IH; tauto]. destruct M as (_ & M & _). unfold block_name, name_or. rewrite M.
      destruct (String.eqb_spec (fst e) ""); [tauto|reflexivity]. }
    assert (Sn : map set_name (me_sets m') = map fst (by_name (lo_sets r)) ++ map fst (extra dbl_max layer r)).
    { rewrite <- map_app. assert (Q : ~ In "" (map fst (by_name (lo_sets r) ++ extra dbl_max layer r))).
      { rewrite map_app, in_app_iff. intros [X|X]; [apply S7; eapply Permutation_in; [apply Permutation_map, by_name_perm|exact X]|]. rewrite extra_names in X.
        destruct layer; [|destruct X]. cbn in X. repeat (destruct X as [X|X]; [discriminate|]). destruct X. }
      clear - G Q. revert Q. induction G as [|e b l bs M F IH]; intros Q; [reflexivity|]. cbn [map In] in *. f_equal; [|apply IH; tauto]. destruct M as (M & _). unfold set_name, name_or. rewrite M.
      destruct (String.eqb_spec (fst e) ""); [tauto|reflexivity]. }
    assert (P1 : Permutation (map fst (by_name (lo_blocks r))) (map fst (lo_blocks r))) by apply Permutation_map, by_name_perm.
    assert (P2 : Permutation (map fst (by_name (lo_sets r))) (map fst (lo_sets r))) by apply Permutation_map, by_name_perm.
    unfold readable. rewrite C, Bn, Sn, extra_names. split.
    - intros (_ & _ & D & _) L n Hn Hs. destruct layer; [|congruence].
      assert (X : forall (a b : list string) n, NoDup (a ++ b) -> In n a -> In n b -> False).
      { clear. induction a as [|x a IH]; intros b n D Ha Hb; [destruct Ha|]. inversion D; subst. destruct Ha as [->|Ha]; [apply H1, in_app_iff; now right|]. eauto. }
      apply (X _ _ n D); [|exact Hn]. eapply Permutation_in; [symmetry; exact P2|exact Hs].
    - intros Fr. split; [now left|]. split; [eapply Permutation_NoDup; [symmetry; exact P1|exact S3]|]. split.
      + assert (X : forall (a b : list string), NoDup a -> NoDup b -> (forall n, In n a -> ~ In n b) -> NoDup (a ++ b)).
        { clear. induction a as [|x a IH]; intros b Da Db H; [exact Db|]. inversion Da; subst. cbn. constructor; [rewrite in_app_iff; intros [Y|Y]; [auto|exact (H x (or_introl eq_refl) Y)]|]. apply IH; auto. intros n Hn. apply H. now right. }
        apply X; [eapply Permutation_NoDup; [symmetry; exact P2|exact S6]| |].
        * destruct layer; [|constructor]. repeat (constructor; [cbn; intros Q; repeat (destruct Q as [Q|Q]; [discriminate|]); exact Q|]). constructor.
        * intros n Hn Hl. destruct layer; [|exact Hl]. apply (Fr ltac:(discriminate) n Hl). eapply Permutation_in; [exact P2|exact Hn].
      + intros e b i X. destruct (element' _ _ _ _ _ _ E e b i X) as (n & l & g & k & p & _ & M & _ & _ & _ & _ & K1 & _ & K2). exists Sphere, (vscale scale (mp_x p)), (mp_volume p).
        split; [|split; [exact K1|exact K2]]. destruct M as (_ & _ & _ & M & _). unfold of_type. rewrite M. now left.
  Qed.
End Facts.

(** ** The converted mesh can be read, and its points are those of the original, by number: in the
    block of the same name, with the same volume, at the scaled position. *)
Theorem C75_readable (N : Num) cbrt dbl_max scale layer (m m' : mesh N) r : mesh_wf m -> load_mesh m = Ok r -> in_range r -> names_free layer r ->
  convert cbrt dbl_max scale layer r = Ok m' -> mesh_wf m' /\ exists r', load_mesh m' = Ok r'.
Proof.
  intros W L Rg Fr E. pose proof (loaded_sound m r W L) as S. assert (W' : mesh_wf m') by (eapply converted_wf; [exact S|exact E|now apply range_sets]).
  split; [exact W'|]. apply C70_refused; [exact W'|]. now apply (readable' cbrt dbl_max scale layer r m' S E).
Qed.
Print Assumptions C75_readable.

Theorem C75_points (N : Num) cbrt dbl_max scale layer (m m' : mesh N) r r' : mesh_wf m -> load_mesh m = Ok r -> in_range r ->
  convert cbrt dbl_max scale layer r = Ok m' -> load_mesh m' = Ok r' ->
  Permutation (lo_ids r) (lo_ids r') /\
  (forall g p, point_at r g p -> exists name id, in_block r name g /\ block_id name = Ok id /\
     point_at r' g {| mp_block := id; mp_volume := mp_volume p; mp_x := vscale scale (mp_x p) |}).
Proof.
  intros W L Rg E L'. pose proof (loaded_sound m r W L) as S. assert (W' : mesh_wf m') by (eapply converted_wf; [exact S|exact E|now apply range_sets]).
  destruct (C70_points N m' r' W' L') as (I & Le & P). rewrite (numbers' _ _ _ _ _ _ E) in I. rewrite I. split; [symmetry; now apply ids_perm|].
  intros g p (e & Eg & Ep). pose proof S as (S1 & S2 & _). assert (In g (ids' r)) by (eapply Permutation_in; [symmetry; now apply ids_perm|exact (nth_error_In _ _ Eg)]).
  apply In_nth_error in H as (e' & He'). destruct (element_of_id _ _ _ _ _ _ E e' g He') as (b & i & X).
  destruct (element' _ _ _ _ _ _ E e' b i X) as (n & l & g' & k & q & Hn & M & Hg & Hi & K1 & K2 & Co & Hd & At). assert (g' = g) by congruence. subst g'.
  assert (k = e) by (apply (proj1 (NoDup_nth_error (lo_ids r)) S1); [apply nth_error_Some; congruence|congruence]). subst k. assert (q = p) by congruence. subst q.
  exists n, (mb_id b). split; [exists l; split; [apply (Permutation_in _ (by_name_perm _)); exact Hn|exact (nth_error_In _ _ Hg)]|]. split; [now destruct M as (M & _)|].
  exists e'. rewrite I. split; [exact He'|]. destruct (P e' b i X) as (t & p' & O & Ep' & Bp & Pt). rewrite Ep'. f_equal.
  assert (t = Sphere). { destruct M as (_ & _ & _ & Ty & _). unfold of_type in O. rewrite Ty in O. destruct t; [reflexivity| |]; cbn in O; exfalso; repeat (destruct O as [O|O]; [discriminate|]); exact O. }
  subst t. destruct Pt as (Pt & Pv). assert (Q := corner_fun _ _ _ _ _ _ Pt Co). assert (Q2 : mp_volume p' = mp_volume p) by congruence. destruct p'; cbn in *. now subst.
Qed.
Print Assumptions C75_points.

(** ** The blocks are the same, with the same members in the same order. *)
Lemma rows_back {N : Num} cbrt ids pts bl (bs : list (mblock N)) : Forall2 (made_of cbrt ids pts) bl bs -> ~ In "" (map fst bl) ->
  forall pre, rows (pre ++ concat (map snd bl)) (length pre) bs = bl.
Proof.
  induction 1 as [|e b bl bs M F IH]; intros Q pre; [reflexivity|]. cbn [map In concat rows] in *. destruct M as (_ & Nm & _ & _ & Co & _). destruct e as (n & l). cbn [fst snd] in *.
  f_equal.
  - f_equal; [unfold block_name, name_or; rewrite Nm; destruct (String.eqb_spec n ""); [tauto|reflexivity]|]. rewrite skipn_app, skipn_all, Nat.sub_diag, Co. cbn [app]. rewrite skipn_O, firstn_app, firstn_all, Nat.sub_diag, firstn_O. apply app_nil_r.
  - rewrite app_assoc, Co, <- app_length. apply IH. tauto.
Qed.
Theorem C75_blocks (N : Num) cbrt dbl_max scale layer (m m' : mesh N) r r' : mesh_wf m -> load_mesh m = Ok r -> in_range r ->
  convert cbrt dbl_max scale layer r = Ok m' -> load_mesh m' = Ok r' ->
  forall name l, In (name, l) (lo_blocks r) <-> In (name, l) (lo_blocks r').
Proof.
  intros W L Rg E L'. pose proof (loaded_sound m r W L) as S. assert (W' : mesh_wf m') by (eapply converted_wf; [exact S|exact E|now apply range_sets]).
  pose proof (load_spec m' W') as Sp. rewrite L' in Sp. destruct Sp as (_ & _ & _ & _ & D & _). rewrite rows_eq, (numbers' _ _ _ _ _ _ E) in D.
  pose proof (convert_inv _ _ _ _ _ _ E) as (_ & _ & _ & F & _). assert (D' := fun Q => eq_trans D (rows_back _ _ _ _ _ F Q [])). rewrite D'.
  - intros name l. split; apply Permutation_in; [symmetry|]; apply by_name_perm.
  - destruct S as (_ & _ & _ & S4 & _). intros X. apply S4. eapply Permutation_in; [apply Permutation_map, by_name_perm|exact X].
Qed.
Print Assumptions C75_blocks.

(** ** The node sets: if the points are numbered in order, every set is the same. *)
Lemma sets_general {N : Num} cbrt dbl_max scale layer (m' : mesh N) r r' : sound r -> mesh_wf m' ->
  convert cbrt dbl_max scale layer r = Ok m' -> load_mesh m' = Ok r' ->
  forall n g', in_set r' n g' <-> exists l g, In (n, l) (by_name (lo_sets r) ++ extra dbl_max layer r) /\ In g l /\ (0 <= g)%Z /\ nth_error (lo_ids r) (Z.to_nat g) = Some g'.
Proof.
  intros S W' E L' n g'. pose proof (load_spec m' W') as Sp. rewrite L' in Sp. destruct Sp as (Rd & Ids & _ & _ & _ & F & _). rewrite (numbers' _ _ _ _ _ _ E) in Ids.
  pose proof (convert_inv _ _ _ _ _ _ E) as (_ & _ & _ & Fb & G & _). pose proof S as (S1 & S2 & _ & _ & _ & _ & S7 & _).
  assert (Q : ~ In "" (map fst (by_name (lo_sets r) ++ extra dbl_max layer r))).
  { rewrite map_app, in_app_iff. intros [X|X]; [apply S7; eapply Permutation_in; [apply Permutation_map, by_name_perm|exact X]|]. rewrite extra_names in X.
    destruct layer; [|destruct X]. cbn in X. repeat (destruct X as [X|X]; [discriminate|]). destruct X. }
  assert (Nm : forall e s, In e (by_name (lo_sets r) ++ extra dbl_max layer r) -> ms_name s = fst e -> set_name s = fst e).
  { intros e s He Hn. unfold set_name, name_or. rewrite Hn. destruct (String.eqb_spec (fst e) ""); [|reflexivity]. exfalso. apply Q. apply in_map_iff. eauto. }
  assert (Core : forall s l0 l', In s (me_sets m') -> ms_nodes s = map (fun g => (g + 1)%Z) l0 -> set_spec m' s l' ->
    (In g' l' <-> exists g, In g l0 /\ (0 <= g)%Z /\ nth_error (lo_ids r) (Z.to_nat g) = Some g')).
  { intros s l0 l' Hs Hnod Spec. rewrite (proj2 Spec). rewrite (numbers' _ _ _ _ _ _ E). split.
    - intros (e & b & i & k & c & X & Hnode & Hc & He). destruct (element' _ _ _ _ _ _ E e b i X) as (n0 & l & g & k0 & p & _ & M & _ & Hi & K1 & _ & _ & Hd & _).
      assert (g' = g) by congruence. subst g'. destruct Hnode as (Hk & Hnode). destruct M as (_ & _ & _ & _ & _ & Np & _). assert (k = 0) by lia. subst k.
      destruct Hd as (_ & Hd). assert (c = (Z.of_nat k0 + 1)%Z) by congruence. subst c. rewrite Hnod in Hc. apply in_map_iff in Hc as (g0 & Eg & Hg0). assert (g0 = Z.of_nat k0) by lia. subst g0.
      exists (Z.of_nat k0). split; [exact Hg0|]. split; [lia|]. now rewrite Nat2Z.id.
    - intros (g & Hg & Pg & Hn). assert (Hin : In g' (ids' r)) by (eapply Permutation_in; [symmetry; now apply ids_perm|exact (nth_error_In _ _ Hn)]).
      apply In_nth_error in Hin as (e & He). destruct (element_of_id _ _ _ _ _ _ E e g' He) as (b & i & X).
      destruct (element' _ _ _ _ _ _ E e b i X) as (n0 & l & g1 & k0 & p & _ & M & _ & Hi & K1 & _ & _ & Hd & _). assert (g1 = g') by congruence. subst g1.
      assert (k0 = Z.to_nat g) by (apply (proj1 (NoDup_nth_error (lo_ids r)) S1); [apply nth_error_Some; congruence|congruence]). subst k0.
      exists e, b, i, 0, (Z.of_nat (Z.to_nat g) + 1)%Z. split; [exact X|]. split; [exact Hd|]. split; [|exact He]. rewrite Hnod. apply in_map_iff. exists g. split; [lia|exact Hg]. }
  unfold in_set. split.
  - intros (l' & I & H). destruct (Forall2_in_r _ _ _ F _ I) as (s & Hs & Hf & Spec). destruct (Forall2_in_r _ _ _ G _ Hs) as ((n0 & l0) & He & Hn & Hnod & _). cbn [fst snd] in *.
    assert (n = n0) by (rewrite Hf; exact (Nm (n0, l0) s He Hn)). subst n0. apply (Core s l0 l' Hs Hnod Spec) in H as (g & A & B & C). exists l0, g. split; [congruence|]. split; [exact A|]. split; [exact B|exact C].
  - intros (l0 & g & I & Hg & Pg & Hn). destruct (Forall2_in_l _ _ _ G _ I) as (s & Hs & Hnm & Hnod & _). destruct (Forall2_in_l _ _ _ F _ Hs) as ((n1 & l') & He & Hf & Spec). cbn [fst snd] in *.
    exists l'. split; [|apply (Core s l0 l' Hs Hnod Spec); eauto]. pose proof (Nm (n, l0) s I Hnm) as Q2. cbn [fst] in Q2. congruence.
Qed.
Lemma order_range {N : Num} (r : loaded N) : in_order r -> in_range r.
Proof. unfold in_order, in_range. intros H g G. rewrite H in G. apply in_map_iff in G as (k & <- & K). apply in_seq in K. lia. Qed.
Lemma extra_other {N : Num} dbl_max layer (r : loaded N) n l : In (n, l) (extra dbl_max layer r) -> In n layer_names.
Proof. intros H. apply (in_map fst) in H. rewrite extra_names in H. destruct layer; [exact H|destruct H]. Qed.
Theorem C75_sets (N : Num) cbrt dbl_max scale layer (m m' : mesh N) r r' : mesh_wf m -> load_mesh m = Ok r -> in_order r ->
  convert cbrt dbl_max scale layer r = Ok m' -> load_mesh m' = Ok r' ->
  forall name, (layer <> None -> ~ In name layer_names) -> (forall g, in_set r name g <-> in_set r' name g) /\ (has_set r name <-> has_set r' name).
Proof.
  intros W L Or E L' name Nl. pose proof (loaded_sound m r W L) as S. assert (W' : mesh_wf m') by (eapply converted_wf; [exact S|exact E|apply range_sets; [exact S|now apply order_range]]).
  pose proof S as (S1 & S2 & _ & _ & _ & S6 & S7 & S8). split.
  - intros g. rewrite (sets_general cbrt dbl_max scale layer m' r r' S W' E L'). split.
    + intros (l & I & G). exists l, g. pose proof (S8 _ _ _ I G) as Hg. pose proof (order_range r Or g Hg). split; [apply in_app_iff; left; now apply sets_by_name|]. split; [exact G|]. split; [lia|].
      rewrite Or, nth_error_map. rewrite nth_error_nth' with (d := 0) by (rewrite seq_length; lia). cbn. rewrite seq_nth by lia. f_equal. lia.
    + intros (l & g0 & I & G & P & H). exists l. apply in_app_iff in I as [I|I].
      * apply sets_by_name in I. split; [exact I|]. pose proof (order_range r Or g0 (S8 _ _ _ I G)). rewrite Or, nth_error_map in H. rewrite nth_error_nth' with (d := 0) in H by (rewrite seq_length; lia). cbn in H. rewrite seq_nth in H by lia. injection H as <-. cbn. replace (Z.of_nat (Z.to_nat g0)) with g0 by lia. exact G.
      * exfalso. destruct layer; [|destruct I]. apply (Nl ltac:(discriminate)). exact (extra_other _ _ _ _ _ I).
  - pose proof (load_spec m' W') as Sp. rewrite L' in Sp. destruct Sp as (Rd & _ & _ & _ & _ & F & _). pose proof (convert_inv _ _ _ _ _ _ E) as (_ & _ & _ & _ & G & _).
    assert (Hs : map fst (lo_sets r') = map fst (by_name (lo_sets r) ++ extra dbl_max layer r)).
    { transitivity (map set_name (me_sets m')); [eapply F2_fst; [|exact F]; intros a e (H & _); exact H|]. 
      assert (Q : ~ In "" (map fst (by_name (lo_sets r) ++ extra dbl_max layer r))).
      { rewrite map_app, in_app_iff. intros [X|X]; [apply S7; eapply Permutation_in; [apply Permutation_map, by_name_perm|exact X]|]. apply in_map_iff in X as ((n & l) & X & Y). cbn in X. subst n. apply extra_other in Y.
        cbn in Y. repeat (destruct Y as [Y|Y]; [discriminate|]). destruct Y. }
      clear - G Q. revert Q. induction G as [|e b l bs M F IH]; intros Q; [reflexivity|]. cbn [map In] in *. f_equal; [|apply IH; tauto]. destruct M as (M & _). unfold set_name, name_or. rewrite M.
      destruct (String.eqb_spec (fst e) ""); [tauto|reflexivity]. }
    unfold has_set. rewrite Hs, map_app, in_app_iff. split.
    + intros H. left. eapply Permutation_in; [symmetry; apply Permutation_map, by_name_perm|exact H].
    + intros [H|H]; [eapply Permutation_in; [apply Permutation_map, by_name_perm|exact H]|]. exfalso. rewrite extra_names in H. destruct layer; [|destruct H]. exact (Nl ltac:(discriminate) H).
Qed.
Print Assumptions C75_sets.

(** Otherwise a set names the points that happen to stand where its numbers point: the number of a
    point is taken for its place.  So for every mesh and set. *)
Theorem C75_sets_refuted (N : Num) cbrt dbl_max scale (m m' : mesh N) r r' : mesh_wf m -> load_mesh m = Ok r -> in_range r ->
  convert cbrt dbl_max scale None r = Ok m' -> load_mesh m' = Ok r' ->
  (forall name g', in_set r' name g' <-> exists g, in_set r name g /\ nth_error (lo_ids r) (Z.to_nat g) = Some g') /\
  (forall name g, in_set r name g -> (forall h, in_set r name h -> h = g) -> nth_error (lo_ids r) (Z.to_nat g) <> Some g -> ~ in_set r' name g).
Proof.
  intros W L Rg E L'. pose proof (loaded_sound m r W L) as S. assert (W' : mesh_wf m') by (eapply converted_wf; [exact S|exact E|now apply range_sets]).
  pose proof S as (_ & _ & _ & _ & _ & _ & _ & S8).
  assert (A : forall name g', in_set r' name g' <-> exists g, in_set r name g /\ nth_error (lo_ids r) (Z.to_nat g) = Some g').
  { intros n g'. rewrite (sets_general cbrt dbl_max scale None m' r r' S W' E L'). unfold in_set. split.
    - intros (l & g & I & G & _ & H). cbn [extra] in I. rewrite app_nil_r in I. apply sets_by_name in I. eauto 6.
    - intros (g & (l & I & G) & H). exists l, g. cbn [extra]. rewrite app_nil_r, sets_by_name. pose proof (Rg g (S8 _ _ _ I G)). auto with zarith. }
  split; [exact A|]. intros name g _ Un Ne H. apply A in H as (h & Hh & Q). rewrite (Un h Hh) in Q. auto.
Qed.
Print Assumptions C75_sets_refuted.

(** With numbers beyond the number of points, a set names nodes that the new file does not have, and
    reading that file goes past the end of an array. *)
Lemma mapO_one_ub {A B} (f : A -> outcome B) l a : (forall b, f b <> Err) -> In a l -> f a = UB -> mapO f l = UB.
Proof.
  intros Ne. induction l as [|b l IH]; intros Hin Hu; [destruct Hin|]. destruct Hin as [Hin|Hin]; cbn [mapO].
  - subst. now rewrite Hu.
  - destruct (f b) eqn:E; [|now apply Ne in E|reflexivity]. cbn [bind]. now rewrite IH.
Qed.
Lemma at_z_ne {A} (l : list A) i : at_z l i <> Err.
Proof. unfold at_z, at_ub. destruct (i <? 0)%Z; [discriminate|]. destruct (nth_error l _); discriminate. Qed.
Lemma foldM_ne {A S} (f : S -> A -> outcome S) l : (forall s a, f s a <> Err) -> forall s, foldM f s l <> Err.
Proof. intros H. induction l as [|a l IH]; intros s; cbn [foldM]; [discriminate|]. specialize (H s a). destruct (f s a); cbn [bind]; [apply IH|congruence|discriminate]. Qed.
Lemma fill_ne ids tbl nodes : forall acc, foldM (fun acc c => let? row := at_z tbl (c - 1)%Z in
      foldM (fun acc k => let? g := at_ub ids k in Ok (if existsb (Z.eqb g) acc then acc else acc ++ [g])) acc row) acc nodes <> Err.
Proof.
  apply foldM_ne. intros s c. pose proof (at_z_ne tbl (c - 1)). destruct (at_z tbl (c - 1)%Z); cbn [bind]; [|congruence|discriminate]. apply foldM_ne. intros s0 k. unfold at_ub. destruct (nth_error ids k); discriminate.
Qed.
Theorem C75_missing_refuted (N : Num) cbrt dbl_max scale layer (m m' : mesh N) r name g : mesh_wf m -> load_mesh m = Ok r -> names_free layer r ->
  convert cbrt dbl_max scale layer r = Ok m' -> in_set r name g -> (Z.of_nat (length (lo_ids r)) <= g)%Z -> load_mesh m' = UB.
Proof.
  intros W L Fr E (l & I & G) Hg. pose proof (loaded_sound m r W L) as S. pose proof (readable' cbrt dbl_max scale layer r m' S E) as Rd. apply proj2 in Rd. specialize (Rd Fr).
  pose proof (convert_inv _ _ _ _ _ _ E) as (A & B & C & F & Gs & _). pose proof S as (_ & S2 & _).
  destruct (converted_parts cbrt dbl_max scale layer r m' S E) as (W1 & W2 & W3).
  set (m0 := {| me_coord := me_coord m'; me_elem_map := me_elem_map m'; me_aux := me_aux m'; me_blocks := me_blocks m'; me_sets := [] |} : mesh N).
  assert (W0 : mesh_wf m0) by (split; [exact W1|split; [exact W2|split; [exact W3|constructor]]]).
  assert (R0 : readable m0) by (destruct Rd as (Q1 & Q2 & Q3 & Q4); split; [exact Q1|split; [exact Q2|split; [constructor|exact Q4]]]).
  apply C70_refused in R0 as (r0 & R0); [|exact W0]. unfold load_mesh in *. change (element_ids m0) with (element_ids m') in R0. destruct (element_ids m') as [ids| |] eqn:Ei; try discriminate R0. cbn [bind] in *.
  change (me_coord m0) with (me_coord m') in R0. change (me_blocks m0) with (me_blocks m') in R0.
  destruct (foldM (load_block _ _) _ (me_blocks m')) as [st| |]; try discriminate R0. cbn [bind] in *. change (elements_of_nodes m0) with (elements_of_nodes m') in R0.
  destruct (elements_of_nodes m') as [tbl| |] eqn:Et; try discriminate R0. cbn [bind] in *. clear R0.
  assert (Lt : length tbl = length (lo_points r)).
  { destruct (table_ok m0 W0) as (tb & T & Tl & _). change (elements_of_nodes m0) with (elements_of_nodes m') in T. rewrite Et in T. injection T as <-. rewrite Tl. cbn. rewrite A. apply map_length. }
  pose proof (name_sets_spec (me_sets m')) as NS. destruct Rd as (_ & _ & Rd & _). destruct (name_sets (me_sets m')) as [nm| |]; [|contradiction|contradiction]. cbn [bind].
  destruct (Forall2_in_l _ _ _ Gs (name, l)) as (s & Hs & _ & Hn & _); [apply in_app_iff; left; now apply sets_by_name|]. cbn [snd] in Hn.
  rewrite (mapO_one_ub _ _ s); [reflexivity| |exact Hs|].
  - intros b. pose proof (fill_ne ids tbl (ms_nodes b) []). unfold fill_set. destruct (foldM _ _ _); [discriminate|congruence|discriminate].
  - unfold fill_set. rewrite (foldM_ub _ (g + 1)%Z); [reflexivity| | |rewrite Hn; apply in_map_iff; eauto].
    + intros acc c. pose proof (at_z_ne tbl (c - 1)). destruct (at_z tbl (c - 1)%Z); cbn [bind]; [|congruence|discriminate]. apply foldM_ne. intros s0 k. unfold at_ub. destruct (nth_error ids k); discriminate.
    + intros acc. unfold at_z. replace (g + 1 - 1)%Z with g by lia. destruct (Z.ltb_spec g 0); [reflexivity|]. unfold at_ub. destruct (nth_error tbl (Z.to_nat g)) eqn:Q; [|reflexivity].
      assert (Z.to_nat g < length tbl) by (apply nth_error_Some; congruence). lia.
Qed.
Print Assumptions C75_missing_refuted.

(** A mesh that already has one of the added sets, for instance one converted before, is converted to
    a file that is refused. *)
Theorem C75_twice_refuted (N : Num) cbrt dbl_max scale th (m m' : mesh N) r name : mesh_wf m -> load_mesh m = Ok r -> in_range r ->
  convert cbrt dbl_max scale (Some th) r = Ok m' -> In name layer_names -> has_set r name -> load_mesh m' = Err.
Proof.
  intros W L Rg E Hn Hs. pose proof (loaded_sound m r W L) as S. assert (W' : mesh_wf m') by (eapply converted_wf; [exact S|exact E|now apply range_sets]).
  apply C70_refused; [exact W'|]. intros Rd. apply (readable' cbrt dbl_max scale (Some th) r m' S E) in Rd. exact (Rd ltac:(discriminate) name Hn Hs).
Qed.
Print Assumptions C75_twice_refuted.

(** ** The converter succeeds if the names fit and the blocks are numbered; two blocks with one number
    stop it. *)
Theorem C75_succeeds (N : Num) cbrt dbl_max scale layer (m : mesh N) r : mesh_wf m -> load_mesh m = Ok r -> me_blocks m <> [] -> short_names r -> numbered_blocks r ->
  exists m', convert cbrt dbl_max scale layer r = Ok m'.
Proof.
  intros W L Nb Sh (id & Hid & Nd). pose proof (loaded_sound m r W L) as S. pose proof S as (S1 & S2 & S3 & S4 & S5 & _). unfold convert. fold (extra dbl_max layer r).
  destruct (stored_ok (by_name (lo_sets r) ++ extra dbl_max layer r)) as (sets & ->).
  { intros (n & l) H. apply in_app_iff in H as [H|H].
    - apply Sh. right. apply sets_by_name in H. apply in_map_iff. eauto.
    - apply extra_other in H. cbn in H. cbn [fst]. repeat (destruct H as [<-|H]; [cbn; lia|]). destruct H. }
  cbn [bind].
  assert (Bl : forall e, In e (by_name (lo_blocks r)) -> exists b, sphere_block cbrt (lo_ids r) (lo_points r) e = Ok b /\ mb_id b = id (fst e)).
  { intros (n & l) H. assert (H' : In (n, l) (lo_blocks r)) by (eapply Permutation_in; [apply by_name_perm|exact H]). assert (Hn : In n (map fst (lo_blocks r))) by (apply in_map_iff; exists (n, l); auto).
    unfold sphere_block. cbn [fst snd]. rewrite (Hid n Hn). cbn [bind]. unfold copy_name. destruct (Nat.leb_spec (String.length n) 32); [|specialize (Sh n (or_introl Hn)); lia]. cbn [bind].
    destruct (mapO_some (sphere cbrt (lo_ids r) (lo_points r)) l) as (q & ->); [|cbn [bind]; eauto].
    intros g G. assert (Hg : In g (lo_ids r)) by (rewrite <- S5; apply in_concat; exists l; split; [apply in_map_iff; exists (n, l); auto|exact G]). apply In_nth_error in Hg as (k & Hk).
    unfold sphere. rewrite (lid_nth _ _ _ S1 Hk). destruct (at_ok (lo_points r) k) as (p & -> & _); [rewrite S2; apply nth_error_Some; congruence|]. cbn [bind]. eauto. }
  destruct (mapO_some (sphere_block cbrt (lo_ids r) (lo_points r)) (by_name (lo_blocks r))) as (bs & Eb); [intros e H; destruct (Bl e H) as (b & Q & _); eauto|]. rewrite Eb. cbn [bind].
  assert (Ids : map mb_id bs = map id (map fst (by_name (lo_blocks r)))).
  { apply mapO_inv in Eb. clear - Eb Bl. induction Eb as [|e b l bs H F IH]; [reflexivity|]. cbn [map]. f_equal; [|apply IH; intros; apply Bl; now right]. destruct (Bl e (or_introl eq_refl)) as (b' & Q & <-). congruence. }
  rewrite Ids. replace (distinct (map id (map fst (by_name (lo_blocks r))))) with true.
  2: { symmetry. apply distinct_spec. eapply Permutation_NoDup; [|exact Nd]. symmetry. apply Permutation_map, Permutation_map, by_name_perm. }
  cbn [negb]. destruct (Nat.ltb_spec (length (by_name (lo_blocks r))) 1) as [Q|Q]; [|eauto]. exfalso. rewrite (Permutation_length (by_name_perm _)) in Q.
  pose proof (load_spec m W) as Sp. rewrite L in Sp. destruct Sp as (_ & _ & _ & _ & D & _). rewrite rows_eq in D. apply Nb. destruct (me_blocks m); [reflexivity|]. rewrite D in Q. cbn in Q. lia.
Qed.
Print Assumptions C75_succeeds.
Theorem C75_one_number_refuted (N : Num) cbrt dbl_max scale layer (r : loaded N) i j n1 l1 n2 l2 z : i <> j ->
  nth_error (lo_blocks r) i = Some (n1, l1) -> nth_error (lo_blocks r) j = Some (n2, l2) -> block_id n1 = Ok z -> block_id n2 = Ok z ->
  forall m', convert cbrt dbl_max scale layer r <> Ok m'.
Proof.
  intros Ij H1 H2 B1 B2 m' E. pose proof (convert_inv _ _ _ _ _ _ E) as (_ & _ & _ & F & _ & D & _).
  assert (P : Permutation (map (fun e : string * list Z => block_id (fst e)) (lo_blocks r)) (map (fun b => Ok (mb_id b)) (me_blocks m'))).
  { etransitivity; [apply Permutation_map; symmetry; apply by_name_perm|]. clear - F. apply Permutation_refl'. induction F as [|e b l bs M F IH]; [reflexivity|]. cbn [map]. rewrite IH. f_equal. now destruct M as (M & _). }
  assert (D' : NoDup (map (fun e : string * list Z => block_id (fst e)) (lo_blocks r))).
  { eapply Permutation_NoDup; [symmetry; exact P|]. rewrite <- (map_map mb_id (fun z => Ok z)). apply FinFun.Injective_map_NoDup; [intros x y Q; congruence|exact D]. }
  apply Ij. apply (proj1 (NoDup_nth_error _) D').
  - rewrite map_length. apply nth_error_Some. congruence.
  - rewrite !nth_error_map, H1, H2. cbn. congruence.
Qed.
Print Assumptions C75_one_number_refuted.
