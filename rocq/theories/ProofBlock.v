From Coq Require Import ZArith Sorted Permutation.
From Verif Require Import Base ModelNeigh ModelBlock SpecBlock ProofData.
Local Open Scope Z_scope.

Lemma Forall2_len : forall A B (R : A -> B -> Prop) a b, Forall2 R a b -> length a = length b.
Proof. induction 1; simpl; auto. Qed.

(** ** maps *)
Lemma lid_from_shift : forall m g i, lid_from m g i = -1 \/ (i <= lid_from m g i)%Z.
Proof. induction m; intros; simpl; [left; reflexivity|]. destruct (a =? g); [lia|]. destruct (IHm g (i+1)); lia. Qed.
Lemma lid_from_nth : forall m g k i, NoDup m -> nth_error m k = Some g -> lid_from m g i = i + Z.of_nat k.
Proof.
  induction m; intros g k i Hn H; [destruct k; discriminate|].
  inversion Hn as [|? ? Hn1 Hn2]; subst. destruct k; simpl in *.
  - injection H as ->. rewrite Z.eqb_refl. lia.
  - destruct (Z.eqb_spec a g) as [->|Hne].
    + exfalso. apply Hn1. eapply nth_error_In; eauto.
    + rewrite (IHm g k); auto. lia.
Qed.
Lemma lid_from_notin : forall m g i, ~ In g m -> lid_from m g i = -1.
Proof. induction m; intros g i H; simpl; auto. destruct (Z.eqb_spec a g). { subst. exfalso; apply H; now left. } apply IHm. intro; apply H; now right. Qed.
Lemma lid_nth : forall m g k, NoDup m -> nth_error m k = Some g -> lid m g = Z.of_nat k.
Proof. intros. unfold lid. erewrite lid_from_nth by eauto. lia. Qed.
Lemma lid_in : forall m g, In g m -> NoDup m -> exists k, lid m g = Z.of_nat k /\ nth_error m k = Some g.
Proof. intros m g H Hn. apply In_nth_error in H as [k Hk]. exists k. split; auto. now apply lid_nth. Qed.
Lemma lid_notin : forall m g, ~ In g m -> lid m g = -1.
Proof. intros. now apply lid_from_notin. Qed.
Lemma names_lid : forall m k g, NoDup m -> names m k g -> lid m g = k.
Proof. intros m k g Hn [H0 H]. erewrite lid_nth by eauto. lia. Qed.
Lemma names_gid : forall m k g, names m k g -> gid m k = g.
Proof. intros m k g [H0 H]. unfold gid. destruct (Z.ltb_spec k 0); [lia|]. now apply nth_error_nth. Qed.
Lemma lid_names : forall m g, In g m -> NoDup m -> names m (lid m g) g.
Proof. intros m g H Hn. destruct (lid_in m g H Hn) as [k [E Hk]]. split; rewrite E; [lia|]. now rewrite Nat2Z.id. Qed.
Lemma names_In : forall m k g, names m k g -> In g m.
Proof. intros m k g [_ H]. eapply nth_error_In; eauto. Qed.

Lemma Forall2_gid : forall m ls gs, Forall2 (names m) ls gs -> map (gid m) ls = gs.
Proof. induction 1; simpl; auto. f_equal; auto. now apply names_gid. Qed.
Lemma Forall2_lid : forall m ls gs, NoDup m -> Forall2 (names m) ls gs -> map (lid m) gs = ls.
Proof. induction 2; simpl; auto. f_equal; auto. now apply names_lid. Qed.
Lemma lid_Forall2 : forall m gs, NoDup m -> (forall g, In g gs -> In g m) -> Forall2 (names m) (map (lid m) gs) gs.
Proof. induction gs; intros Hn H; simpl; constructor. - apply lid_names; auto. apply H; now left. - apply IHgs; auto. intros; apply H; now right. Qed.

(** ** reading flat lists *)
Lemma at_z_nat : forall A (l : list A) i, at_z l (Z.of_nat i) = at_ub l i.
Proof. intros. unfold at_z. destruct (Z.ltb_spec (Z.of_nat i) 0); [lia|]. now rewrite Nat2Z.id. Qed.
Lemma at_z_ok : forall A (l : list A) i a, nth_error l i = Some a -> at_z l (Z.of_nat i) = Ok a.
Proof. intros. rewrite at_z_nat. unfold at_ub. now rewrite H. Qed.

Lemma read_run_app : forall l pre post,
  read_run (pre ++ l ++ post) (Z.of_nat (length pre)) (length l) = Ok l.
Proof.
  induction l; intros; simpl; auto.
  rewrite (at_z_ok _ _ _ a) by (rewrite nth_error_app2, Nat.sub_diag by lia; reflexivity).
  simpl. specialize (IHl (pre ++ [a]) post). rewrite <- app_assoc in IHl. simpl in IHl.
  rewrite app_length in IHl. simpl in IHl.
  replace (Z.of_nat (length pre) + 1)%Z with (Z.of_nat (length pre + 1)) by lia.
  rewrite IHl. reflexivity.
Qed.
Lemma count_app : forall l pre post, at_z (pre ++ (Z.of_nat (length l) :: l) ++ post) (Z.of_nat (length pre)) = Ok (Z.of_nat (length l)).
Proof. intros. apply at_z_ok. rewrite nth_error_app2, Nat.sub_diag by lia. reflexivity. Qed.
Lemma run_app : forall l pre post, read_run (pre ++ (Z.of_nat (length l) :: l) ++ post) (Z.of_nat (length pre) + 1) (length l) = Ok l.
Proof.
  intros. pose proof (read_run_app l (pre ++ [Z.of_nat (length l)]) post) as H.
  rewrite <- app_assoc in H. simpl in H. rewrite app_length in H. simpl in H.
  replace (Z.of_nat (length pre) + 1)%Z with (Z.of_nat (length pre + 1)) by lia. exact H.
Qed.
Lemma read_nbrs_app : forall l pre post,
  read_nbrs (pre ++ (Z.of_nat (length l) :: l) ++ post) (Z.of_nat (length pre)) = Ok l.
Proof. intros. unfold read_nbrs. rewrite count_app. cbn [bind]. rewrite Nat2Z.id. apply run_app. Qed.

Lemma flat_form_app : forall a b, flat_form (a ++ b) = flat_form a ++ flat_form b.
Proof. intros. unfold flat_form. apply flat_map_app. Qed.
Lemma flat_split : forall ls i l, nth_error ls i = Some l ->
  flat_form ls = flat_form (firstn i ls) ++ (Z.of_nat (length l) :: l) ++ flat_form (skipn (S i) ls).
Proof.
  intros ls i l H. rewrite <- (firstn_skipn i ls) at 1. rewrite flat_form_app. f_equal.
  assert (E : skipn i ls = l :: skipn (S i) ls).
  { clear -H. revert ls H. induction i; intros [|a t] H; simpl in *; try discriminate. - now injection H as ->. - now apply IHi. }
  rewrite E. reflexivity.
Qed.
Lemma nth_count_positions : forall ls i, (i < length ls)%nat ->
  nth_error (count_positions ls) i = Some (Z.of_nat (length (flat_form (firstn i ls)))).
Proof.
  intros. unfold count_positions. erewrite map_nth_error; [reflexivity|].
  rewrite (nth_error_nth' (seq 0 (length ls)) 0%nat) by (rewrite seq_length; lia).
  now rewrite seq_nth.
Qed.
Lemma count_positions_length : forall ls, length (count_positions ls) = length ls.
Proof. intros. unfold count_positions. now rewrite map_length, seq_length. Qed.

Lemma read_flat : forall ls i l, nth_error ls i = Some l ->
  exists p, nth_error (count_positions ls) i = Some (Z.of_nat p) /\
            at_z (flat_form ls) (Z.of_nat p) = Ok (Z.of_nat (length l)) /\
            read_nbrs (flat_form ls) (Z.of_nat p) = Ok l.
Proof.
  intros ls i l H. exists (length (flat_form (firstn i ls))).
  rewrite nth_count_positions by (apply nth_error_Some; congruence).
  rewrite (flat_split ls i l H). split; [|split]; auto using count_app, read_nbrs_app.
Qed.

Lemma count_positions_snoc : forall ls l,
  count_positions (ls ++ [l]) = count_positions ls ++ [Z.of_nat (length (flat_form ls))].
Proof.
  intros. unfold count_positions. rewrite app_length. simpl. rewrite Nat.add_1_r, seq_S, map_app. simpl.
  rewrite firstn_app, Nat.sub_diag. rewrite (firstn_all2 ls) by lia. simpl. rewrite app_nil_r. f_equal.
  apply map_ext_in. intros i Hi. apply in_seq in Hi. rewrite firstn_app.
  replace (i - length ls)%nat with 0%nat by lia. simpl. now rewrite app_nil_r.
Qed.

(** ** sets *)
Lemma set_insert_In : forall g s x, In x (set_insert g s) <-> x = g \/ In x s.
Proof.
  induction s; intros x; simpl; [intuition|].
  destruct (g <? a) eqn:E; [simpl; intuition|].
  destruct (Z.eqb_spec g a); [subst; simpl; intuition|]. simpl. rewrite IHs. intuition.
Qed.
Lemma Sorted_Forall_lt : forall (a b : Z) l, Forall (Z.lt b) l -> a < b -> Forall (Z.lt a) l.
Proof. intros. rewrite Forall_forall in *. intros. specialize (H _ H1). lia. Qed.
Lemma set_insert_sorted : forall g s, StronglySorted Z.lt s -> StronglySorted Z.lt (set_insert g s).
Proof.
  induction s; intros H; simpl. - repeat constructor.
  - inversion H as [|? ? H1 H2]; subst. destruct (Z.ltb_spec g a).
    + constructor; auto. constructor; auto. eapply Sorted_Forall_lt; eauto.
    + destruct (Z.eqb_spec g a); auto. constructor; auto.
      rewrite Forall_forall in *. intros x Hx. apply set_insert_In in Hx as [->|Hx]; auto. lia.
Qed.
Lemma fold_insert : forall (f : Z -> Z) l s, StronglySorted Z.lt s ->
  StronglySorted Z.lt (fold_left (fun s k => set_insert (f k) s) l s) /\
  forall x, In x (fold_left (fun s k => set_insert (f k) s) l s) <-> In x s \/ In x (map f l).
Proof.
  induction l; intros s Hs; simpl. - intuition.
  - destruct (IHl (set_insert (f a) s)) as [H1 H2]. { now apply set_insert_sorted. }
    split; auto. intros x. rewrite H2, set_insert_In. intuition.
Qed.
Lemma filter_sorted : forall f l, StronglySorted Z.lt l -> StronglySorted Z.lt (filter f l).
Proof.
  induction 1; simpl; [constructor|]. destruct (f a); auto. constructor; auto.
  rewrite Forall_forall in *. intros x Hx. apply filter_In in Hx as [Hx _]. auto.
Qed.
Lemma fold_erase : forall ids s, StronglySorted Z.lt s ->
  StronglySorted Z.lt (fold_left (fun s i => set_erase i s) ids s) /\
  forall x, In x (fold_left (fun s i => set_erase i s) ids s) <-> In x s /\ ~ In x ids.
Proof.
  induction ids; intros s Hs; simpl. - intuition.
  - destruct (IHids (set_erase a s)) as [H1 H2]. { now apply filter_sorted. }
    split; auto. intros x. rewrite H2. unfold set_erase. rewrite filter_In.
    rewrite negb_true_iff, Z.eqb_neq. intuition.
Qed.
Lemma sorted_NoDup : forall l, StronglySorted Z.lt l -> NoDup l.
Proof.
  induction 1; constructor; auto. intro H1. rewrite Forall_forall in H0. specialize (H0 _ H1). lia.
Qed.
Lemma NoDup_app_intro : forall A (a b : list A), NoDup a -> NoDup b -> (forall x, In x a -> ~ In x b) -> NoDup (a ++ b).
Proof.
  induction a; simpl; intros b Ha Hb H; auto. inversion Ha as [|? ? H1 H2]; subst. constructor.
  - rewrite in_app_iff. intros [?|?]; [auto|]. eapply H; eauto.
  - apply IHa; auto.
Qed.
Lemma NoDup_app_l : forall A (a b : list A), NoDup (a ++ b) -> NoDup a.
Proof. induction a; simpl; intros b H; constructor; inversion H as [|? ? H1 H2]; subst. - intro; apply H1, in_or_app; auto. - eauto. Qed.
Lemma NoDup_app_r : forall A (a b : list A), NoDup (a ++ b) -> NoDup b.
Proof. induction a; simpl; intros b H; auto. inversion H; subst; eauto. Qed.
Lemma NoDup_app_disj : forall A (a b : list A) x, NoDup (a ++ b) -> In x a -> In x b -> False.
Proof. induction a; simpl; intros b x H Ha Hb; auto. inversion H as [|? ? H1 H2]; subst. destruct Ha as [->|Ha]; eauto. apply H1, in_or_app; auto. Qed.

(** ** block maps *)
Lemma block_ids_ok : forall bid owned blocks i,
  (length blocks = i + length owned)%nat ->
  block_ids bid owned blocks i
  = Ok (map fst (filter (fun x => snd x =? bid) (combine owned (skipn i blocks)))).
Proof.
  induction owned; intros blocks i H; simpl in *; auto.
  assert (Hi : (i < length blocks)%nat) by lia.
  destruct (nth_error blocks i) as [b|] eqn:E; [|apply nth_error_None in E; lia].
  unfold at_ub. rewrite E. simpl. rewrite IHowned by lia. simpl.
  assert (Es : skipn i blocks = b :: skipn (S i) blocks).
  { clear -E. revert blocks E. induction i; intros [|a t] E; simpl in *; try discriminate. - now injection E as ->. - now apply IHi. }
  rewrite Es. simpl. destruct (b =? bid); reflexivity.
Qed.

Lemma combine3_fst : forall (owned : list Z) (nbrs : list (list Z)) (blocks : list Z) bid,
  length nbrs = length owned -> length blocks = length owned ->
  map fst (filter (fun x => snd x =? bid) (combine owned blocks))
  = map fst (map fst (filter (fun x => snd x =? bid) (combine (combine owned nbrs) blocks))).
Proof.
  induction owned; intros [|n ns] [|b bs] bid H1 H2; simpl in *; try discriminate; auto.
  destruct (b =? bid); simpl; [f_equal|]; apply IHowned; lia.
Qed.

Definition kept (bid : Z) (x : (Z * list Z) * Z) := snd x =? bid.

Lemma ghost_loop_ok : forall bid overlap blocks nbrs ls pre i s owned,
  StronglySorted Z.lt s ->
  Forall2 (Forall2 (names overlap)) ls nbrs ->
  length owned = length nbrs ->
  (length blocks = i + length nbrs)%nat ->
  exists s', ghost_loop bid overlap blocks (pre ++ flat_form ls) (length nbrs) i (Z.of_nat (length pre)) s = Ok s' /\
    StronglySorted Z.lt s' /\
    forall x, In x s' <-> In x s \/ exists p, In p (map fst (filter (kept bid) (combine (combine owned nbrs) (skipn i blocks)))) /\ In x (snd p).
Proof.
  intros bid overlap blocks nbrs ls. revert nbrs. induction ls as [|l ls IH]; intros nbrs pre i s owned Hs H2 Hlo Hlb.
  - inversion H2; subst. simpl. exists s. split; [auto|]. split; auto. intros x.
    destruct owned; [|discriminate]. simpl. split; [auto|]. intros [?|[p [[] _]]]; auto.
  - inversion H2 as [|? g ? gs Hlg Hrest]; subst. destruct owned as [|o owned]; [discriminate|]. simpl in Hlo, Hlb.
    destruct (nth_error blocks i) as [b|] eqn:E; [|apply nth_error_None in E; lia].
    assert (Es : skipn i blocks = b :: skipn (S i) blocks).
    { clear -E. revert blocks E. induction i; intros [|a t] E; simpl in *; try discriminate. - now injection E as ->. - now apply IHi. }
    rewrite Es. cbn [length ghost_loop]. change (flat_form (l :: ls)) with ((Z.of_nat (length l) :: l) ++ flat_form ls).
    rewrite count_app. unfold at_ub. rewrite E. cbn [bind].
    set (s1 := if b =? bid then fold_left (fun s k => set_insert (gid overlap k) s) l s else s).
    replace (let? s' := (if b =? bid then _ else Ok s) in _)
      with (ghost_loop bid overlap blocks ((pre ++ (Z.of_nat (length l) :: l)) ++ flat_form ls) (length gs) (S i) (Z.of_nat (length (pre ++ (Z.of_nat (length l) :: l)))) s1).
    2:{ subst s1. destruct (b =? bid); cbn [bind].
        - rewrite Nat2Z.id, run_app. cbn [bind]. rewrite <- app_assoc. f_equal. rewrite app_length. cbn [length]. lia.
        - rewrite <- app_assoc. f_equal. rewrite app_length. cbn [length]. lia. }
    destruct (fold_insert (gid overlap) l s Hs) as [F1 F2].
    rewrite (Forall2_gid _ _ _ Hlg) in F2.
    assert (Hs1 : StronglySorted Z.lt s1) by (subst s1; destruct (b =? bid); auto).
    destruct (IH gs (pre ++ Z.of_nat (length l) :: l) (S i) s1 owned Hs1 Hrest) as [s' [R1 [R2 R3]]]; [lia|lia|].
    exists s'. split; [exact R1|]. split; [exact R2|].
    intros x. rewrite R3. subst s1. unfold kept. simpl. destruct (b =? bid).
    + rewrite F2. simpl. split.
      * intros [[?|?]|[p [? ?]]]; [auto| |]. { right. exists (o, g). simpl. auto. } right. exists p. auto.
      * intros [?|[p [[<-|?] ?]]]; auto. right. exists p. auto.
    + reflexivity.
Qed.

Lemma block_bonds_ok : forall bid owned blocks bonds, NoDup owned -> length blocks = length owned ->
  (forall b, In b bonds -> In (fst b) owned) ->
  exists r, block_bonds bid owned blocks bonds = Ok r /\
    r = filter (fun b => existsb (fun x => (fst x =? fst b) && (snd x =? bid)) (combine owned blocks)) bonds.
Proof.
  induction bonds as [|[g sz] t IH]; intros Hn Hl Hin; simpl; [eauto|].
  destruct (IH Hn Hl) as [r [E1 E2]]. { intros; apply Hin; now right. }
  assert (Hg : In g owned) by (apply (Hin (g, sz)); now left).
  destruct (lid_in _ _ Hg Hn) as [k [Ek Hk]]. rewrite Ek.
  assert (Hkl : (k < length blocks)%nat) by (rewrite Hl; apply nth_error_Some; congruence).
  destruct (nth_error blocks k) as [b|] eqn:Eb; [|apply nth_error_None in Eb; lia].
  rewrite (at_z_ok _ _ _ _ Eb). rewrite E1. simpl. eexists; split; [reflexivity|]. rewrite E2.
  assert (X : existsb (fun x : Z * Z => (fst x =? g) && (snd x =? bid)) (combine owned blocks) = (b =? bid)).
  { assert (Hc : In (g, b) (combine owned blocks)).
    { clear -Hk Eb. revert owned blocks Hk Eb. induction k; intros [|o os] [|c cs] Hk Eb; simpl in *; try discriminate.
      - injection Hk as ->. injection Eb as ->. now left. - right. now apply IHk. }
    destruct (b =? bid) eqn:Ebb.
    - apply existsb_exists. exists (g, b). simpl. rewrite Z.eqb_refl, Ebb. auto.
    - apply not_true_is_false. intro C. apply existsb_exists in C as [[g' b'] [C1 C2]]. simpl in C2.
      apply andb_true_iff in C2 as [C2 C3]. apply Z.eqb_eq in C2. subst g'.
      assert (b' = b). { clear -Hn Hl C1 Hc. revert blocks Hl C1 Hc. induction owned; intros [|c cs] Hl C1 Hc; simpl in *; [tauto|tauto|tauto|].
        inversion Hn as [|? ? H1 H2]; subst. destruct C1 as [C1|C1], Hc as [Hc|Hc].
        - congruence. - injection C1 as -> ->. apply in_combine_l in Hc. tauto.
        - injection Hc as -> ->. apply in_combine_l in C1. tauto. - apply (IHowned H2 cs); auto. }
      subst. congruence. }
  rewrite X. destruct (b =? bid); reflexivity.
Qed.

Lemma nbr_loop_ok : forall overlapB overlapG ls nbrs, NoDup overlapB -> NoDup overlapG ->
  Forall2 (Forall2 (names overlapG)) ls nbrs ->
  forall todo done, 
  (forall p, In p todo -> In (fst p) overlapB /\ (forall x, In x (snd p) -> In x overlapB) /\
                exists i, nth_error overlapG i = Some (fst p) /\ nth_error nbrs i = Some (snd p)) ->
  exists nd ls', nbr_loop overlapB overlapG (count_positions ls) (flat_form ls) (map fst todo) (flat_form done) = Ok nd /\
    nd_owned nd = map (lid overlapB) (map fst todo) /\ nd_list nd = flat_form (done ++ ls') /\
    count_positions (done ++ ls') = count_positions done ++ nd_ptr nd /\
    Forall2 (Forall2 (names overlapB)) ls' (map snd todo).
Proof.
  intros oB oG ls nbrs HnB HnG H2. induction todo as [|[g nb] todo IH]; intros done Hin.
  - exists (ND [] [] (flat_form done)), []. simpl. rewrite !app_nil_r. auto.
  - destruct (Hin (g, nb) (or_introl eq_refl)) as [Hg [Hnb [i [Hi1 Hi2]]]]. cbn [fst snd] in *.
    cbn [map fst nbr_loop].
    assert (Hl : exists l, nth_error ls i = Some l /\ Forall2 (names oG) l nb).
    { clear -H2 Hi2. revert i Hi2. induction H2; intros [|i] Hi; simpl in *; try discriminate; eauto.
      injection Hi as <-. eauto. }
    destruct Hl as [l [Hl1 Hl2]].
    destruct (read_flat _ _ _ Hl1) as [p [P1 [P2 P3]]].
    rewrite (lid_nth _ _ _ HnG Hi1). rewrite (at_z_ok _ _ _ _ P1). cbn [bind]. rewrite P3, P2. cbn [bind].
    rewrite <- (map_map (gid oG) (lid oB)), (Forall2_gid _ _ _ Hl2).
    assert (El : length l = length nb) by (eapply Forall2_len; eauto).
    assert (Ed : flat_form done ++ Z.of_nat (length l) :: map (lid oB) nb = flat_form (done ++ [map (lid oB) nb])).
    { rewrite flat_form_app. simpl. now rewrite app_nil_r, map_length, El. }
    rewrite Ed.
    destruct (IH (done ++ [map (lid oB) nb])) as [nd [ls' [R1 [R2 [R3 [R4 R5]]]]]].
    { intros p' Hp'. apply Hin. now right. }
    rewrite R1. cbn [bind]. eexists _, (map (lid oB) nb :: ls'). split; [reflexivity|]. cbn [nd_owned nd_list nd_ptr].
    rewrite <- app_assoc in R3, R4. simpl in R3, R4.
    split; [now rewrite R2|]. split; [exact R3|]. split.
    + rewrite R4, count_positions_snoc, <- app_assoc. reflexivity.
    + simpl. constructor; auto. now apply lid_Forall2.
Qed.

Lemma assigned_in : forall bid owned nbrs blocks p,
  In p (map fst (filter (kept bid) (combine (combine owned nbrs) blocks))) ->
  exists i, nth_error owned i = Some (fst p) /\ nth_error nbrs i = Some (snd p).
Proof.
  intros bid owned nbrs blocks p H. apply in_map_iff in H as [[q b] [E H]]. simpl in E. subst q.
  apply filter_In in H as [H _]. apply in_combine_l in H. apply In_nth_error in H as [i Hi]. exists i.
  revert nbrs i Hi. induction owned; intros [|n ns] [|i] Hi; simpl in *; try discriminate; auto.
  now injection Hi as <-.
Qed.

Lemma map_fst_filter_NoDup : forall (f : Z * Z -> bool) owned blocks, NoDup owned ->
  NoDup (map fst (filter f (combine owned blocks))).
Proof.
  induction owned; intros blocks H; simpl; [constructor|]. destruct blocks; simpl; [constructor|].
  inversion H as [|? ? H1 H2]; subst. destruct (f (a, z)); simpl; auto. constructor; auto.
  intro C. apply in_map_iff in C as [[x y] [E C]]. simpl in E; subst. apply filter_In in C as [C _].
  apply in_combine_l in C. auto.
Qed.

Lemma map_lid_app : forall a b, NoDup (a ++ b) -> map (lid (a ++ b)) a = map Z.of_nat (seq 0 (length a)).
Proof.
  intros a b H. assert (G : forall l p, a = p ++ l -> map (lid (a ++ b)) l = map Z.of_nat (seq (length p) (length l))).
  { induction l as [|x l IH]; intros p E; simpl; auto. f_equal.
    - apply lid_nth; auto. subst a. rewrite <- app_assoc. rewrite nth_error_app2 by lia. now rewrite Nat.sub_diag.
    - rewrite (IH (p ++ [x])). + rewrite app_length. simpl. now rewrite Nat.add_1_r. + now rewrite <- app_assoc. }
  apply (G a []). reflexivity.
Qed.

Theorem block_initialize_ok : forall bid g nbrs, well_formed g nbrs ->
  exists b nd ghosts ls, block_initialize bid g = Ok (b, nd) /\
    b_owned b = map fst (assigned bid g nbrs) /\
    b_overlap b = b_owned b ++ ghosts /\ NoDup (b_overlap b) /\
    ghosts_of (b_owned b) (fun x => exists p, In p (assigned bid g nbrs) /\ In x (snd p)) ghosts /\
    b_bond b = filter (fun e => existsb (fun x => (fst x =? fst e) && (snd x =? bid)) (combine (g_owned g) (g_block g))) (g_bond g) /\
    nd_owned nd = map Z.of_nat (seq 0 (length (b_owned b))) /\
    nd_list nd = flat_form ls /\ nd_ptr nd = count_positions ls /\
    Forall2 (Forall2 (names (b_overlap b))) ls (map snd (assigned bid g nbrs)).
Proof.
  intros bid g nbrs (Hnd & (rest & Hov) & Hlb & Hlo & Hln & (ls & Hls & Hptr & H2) & Hbond).
  assert (HnO : NoDup (g_owned g)) by (rewrite Hov in Hnd; eapply NoDup_app_l; eauto).
  unfold block_initialize, createMaps.
  rewrite block_ids_ok by lia. cbn [bind]. rewrite skipn_O.
  rewrite (combine3_fst _ nbrs) by auto. fold (kept bid).
  destruct (block_bonds_ok bid _ _ _ HnO Hlb Hbond) as [bb [Eb1 Eb2]]. rewrite Eb1. cbn [bind].
  rewrite Hls, Hlo, <- Hln.
  destruct (ghost_loop_ok bid (g_overlap g) (g_block g) nbrs ls [] 0 [] (g_owned g)) as [s [S1 [S2 S3]]]; [constructor|auto|auto|lia|].
  simpl app in S1. cbn [length] in S1. change (Z.of_nat 0) with 0 in S1. rewrite S1. cbn [bind]. rewrite skipn_O in S3.
  change (fun x : (Z * list Z) * Z => snd x =? bid) with (kept bid).
  fold (assigned bid g nbrs) in *. unfold assigned in *. fold (kept bid) in *.
  set (asg := map fst (filter (kept bid) (combine (combine (g_owned g) nbrs) (g_block g)))) in *.
  destruct (fold_erase (map fst asg) s S2) as [E1 E2].
  set (gh := fold_left (fun s i => set_erase i s) (map fst asg) s) in *.
  assert (Hown : map fst asg = map fst (filter (fun x => snd x =? bid) (combine (g_owned g) (g_block g)))).
  { symmetry. apply combine3_fst; auto. }
  assert (HnB : NoDup (map fst asg ++ gh)).
  { apply NoDup_app_intro. - rewrite Hown. now apply map_fst_filter_NoDup.
    - now apply sorted_NoDup.
    - intros x Hx C. apply E2 in C. tauto. }
  unfold createNeighborhood. cbn [b_overlap b_owned]. rewrite Hls, Hptr.
  destruct (nbr_loop_ok (map fst asg ++ gh) (g_overlap g) ls nbrs HnB Hnd H2 asg []) as [nd [ls' [R1 [R2 [R3 [R4 R5]]]]]].
  { intros p Hp. split. { apply in_or_app; left. now apply in_map. } split.
    - intros x Hx. destruct (in_dec Z.eq_dec x (map fst asg)). { apply in_or_app; now left. }
      apply in_or_app; right. apply E2. split; auto. apply S3. right. eauto.
    - destruct (assigned_in _ _ _ _ _ Hp) as [i [I1 I2]]. exists i. split; auto. rewrite Hov.
      rewrite nth_error_app1; auto. apply nth_error_Some. congruence. }
  change (flat_form []) with (@nil Z) in R1. rewrite R1. cbn [bind].
  eexists _, _, gh, ls'. split; [reflexivity|]. cbn [b_owned b_overlap b_bond].
  split; [reflexivity|]. split; [reflexivity|]. split; [exact HnB|]. split.
  { split; auto. intros x. rewrite E2, S3. simpl. intuition. }
  split; [exact Eb2|]. split; [rewrite R2; now apply map_lid_app|].
  split; [exact R3|]. split; [|exact R5]. simpl in R4. now rewrite R4.
Qed.

(** ** partition *)
Lemma filter_partition : forall (bids : list Z) (l : list (Z * Z)), NoDup bids ->
  (forall x, In x l -> In (snd x) bids) ->
  Permutation (concat (map (fun b => filter (fun x => snd x =? b) l) bids)) l.
Proof.
  induction bids as [|b bids IH]; intros l Hn H.
  - destruct l as [|x l]; simpl; auto. exfalso. apply (H x). now left.
  - inversion Hn as [|? ? H1 H2]; subst. simpl.
    assert (E : map (fun c => filter (fun x => snd x =? c) l) bids
              = map (fun c => filter (fun x => snd x =? c) (filter (fun x => negb (snd x =? b)) l)) bids).
    { apply map_ext_in. intros c Hc. clear -H1 Hc. induction l as [|[u v] l]; simpl; auto.
      destruct (Z.eqb_spec v b); simpl.
      - destruct (Z.eqb_spec v c); [subst; tauto|]. exact IHl.
      - destruct (v =? c); rewrite IHl; reflexivity. }
    rewrite E. clear E. set (r := concat _).
    assert (P : Permutation r (filter (fun x => negb (snd x =? b)) l)).
    { apply IH; auto. intros x Hx. apply filter_In in Hx as [Hx Hb]. rewrite negb_true_iff, Z.eqb_neq in Hb.
      destruct (H x Hx); [congruence|assumption]. }
    rewrite P. clear. induction l as [|[u v] l]; simpl; auto. destruct (v =? b); simpl.
    + now constructor. + rewrite <- Permutation_middle. now constructor.
Qed.

Theorem blocks_partition : forall g nbrs bids, well_formed g nbrs -> NoDup bids ->
  (forall b, In b (g_block g) -> In b bids) ->
  Permutation (concat (map (fun b => map fst (assigned b g nbrs)) bids)) (g_owned g).
Proof.
  intros g nbrs bids (Hnd & Hov & Hlb & Hlo & Hln & _) Hb Hin.
  assert (E : map (fun b => map fst (assigned b g nbrs)) bids
            = map (map fst) (map (fun b => filter (fun x => snd x =? b) (combine (g_owned g) (g_block g))) bids)).
  { rewrite map_map. apply map_ext. intros b. unfold assigned. symmetry. now apply combine3_fst. }
  rewrite E, <- concat_map. rewrite filter_partition; auto.
  - clear -Hlb. revert Hlb. generalize (g_block g). induction (g_owned g); intros [|c cs] H; simpl in *; try discriminate; auto.
  - intros [x y] Hx. simpl. apply in_combine_r in Hx. auto.
Qed.
