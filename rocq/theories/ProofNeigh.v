From Coq Require Import ZArith Sorted Permutation.
From Verif Require Import Base ModelNeigh ModelBlock SpecBlock ProofData ProofBlock.
Local Open Scope Z_scope.

(** ** decode and encode *)
Lemma decode_encode : forall nbrs, decode (length nbrs) (encode nbrs) = Ok nbrs.
Proof.
  induction nbrs as [|l t IH]; simpl; auto.
  rewrite app_length. replace (length l + length (encode t) <? length l)%nat with false
    by (symmetry; apply Nat.ltb_ge; lia).
  rewrite skipn_app, Nat.sub_diag, skipn_all. simpl. fold (encode t). rewrite IH. simpl.
  rewrite firstn_app, Nat.sub_diag, firstn_all. simpl. now rewrite app_nil_r.
Qed.
Lemma decode_only : forall flat n nbrs, decode n flat = Ok nbrs ->
  length nbrs = n /\ exists rest, flat = encode nbrs ++ rest.
Proof.
  intros flat n. revert flat. induction n; intros flat nbrs H; simpl in H.
  - injection H as <-. simpl. eauto.
  - destruct flat as [|c rest]; [discriminate|]. destruct (length rest <? c)%nat eqn:E; [discriminate|].
    apply Nat.ltb_ge in E. apply bind_Ok in H as [t [H1 H2]]. injection H2 as <-.
    destruct (IHn _ _ H1) as [L [r R]]. split; [simpl; now rewrite L|]. exists r. simpl.
    rewrite firstn_length_le by auto. rewrite <- app_assoc, <- R. now rewrite firstn_skipn.
Qed.

(** ** the search result *)
Lemma keep_ok : forall t f, length f = length t -> keep t f = Ok (kept_ids t f).
Proof.
  unfold kept_ids. induction t; intros [|b f] H; simpl in *; try discriminate; auto. rewrite IHt by lia. simpl. now destruct b.
Qed.
Lemma kept_le : forall t f, (length (kept_ids t f) <= length t)%nat.
Proof. unfold kept_ids. induction t; intros [|b f]; simpl; try lia. specialize (IHt f). destruct b; simpl; lia. Qed.
Lemma capacity_acc : forall ts n, fold_left (fun n (t : list Z) => (n + (length t + 1))%nat) ts n = (n + capacity ts)%nat.
Proof. unfold capacity. induction ts; intros; simpl; [lia|]. rewrite IHts. rewrite (IHts (length a + 1)%nat). lia. Qed.

Lemma build_loop_ok : forall ts fs cap done,
  Forall2 (fun t f => length f = length t) ts fs ->
  (length (flat_form done) + capacity ts <= cap)%nat ->
  exists r, build_loop cap ts fs (flat_form done) = Ok r /\
    snd r = flat_form (done ++ map (fun tf => kept_ids (fst tf) (snd tf)) (combine ts fs)) /\
    count_positions (done ++ map (fun tf => kept_ids (fst tf) (snd tf)) (combine ts fs)) = count_positions done ++ fst r.
Proof.
  induction ts as [|t ts IH]; intros fs cap done H2 Hcap.
  - simpl. exists ([], flat_form done). rewrite !app_nil_r. auto.
  - inversion H2 as [|? f ? fs' Hf Hrest]; subst. cbn [build_loop combine map fst snd].
    rewrite keep_ok by auto. cbn [bind].
    assert (E : flat_form done ++ Z.of_nat (length (kept_ids t f)) :: kept_ids t f = flat_form (done ++ [kept_ids t f])).
    { rewrite flat_form_app. simpl. now rewrite app_nil_r. }
    rewrite E.
    assert (C : (length (flat_form (done ++ [kept_ids t f])) + capacity ts <= cap)%nat).
    { rewrite <- E, app_length. cbn [length]. pose proof (kept_le t f).
      unfold capacity in Hcap. simpl in Hcap. rewrite capacity_acc in Hcap. lia. }
    replace (cap <? length (flat_form (done ++ [kept_ids t f])))%nat with false by (symmetry; apply Nat.ltb_ge; lia).
    destruct (IH fs' cap (done ++ [kept_ids t f]) Hrest C) as [r [R1 [R2 R3]]]. rewrite R1. cbn [bind].
    eexists; split; [reflexivity|]. cbn [fst snd]. rewrite <- app_assoc in R2, R3. simpl in R2, R3.
    split; auto. rewrite R3, count_positions_snoc, <- app_assoc. reflexivity.
Qed.

Theorem build_ok : forall ts fs,
  Forall2 (fun t f => length f = length t) ts fs -> (forall t, In t ts -> t <> []) ->
  let ls := map (fun tf => kept_ids (fst tf) (snd tf)) (combine ts fs) in
  buildNeighborhoodList ts fs = Ok (count_positions ls, flat_form ls).
Proof.
  intros ts fs H2 Hne ls. unfold buildNeighborhoodList.
  replace (existsb _ ts) with false.
  2:{ symmetry. apply not_true_is_false. intro C. apply existsb_exists in C as [t [C1 C2]].
      destruct t; [eapply Hne; eauto|discriminate]. }
  destruct (build_loop_ok ts fs (capacity ts) [] H2) as [[p l] [R1 [R2 R3]]]; [simpl; lia|].
  change (flat_form []) with (@nil Z) in R1. rewrite R1. simpl in *. subst ls. rewrite R2. f_equal. f_equal.
  now rewrite R3.
Qed.

Lemma foldM_at_z : forall gids l gs acc, Forall2 (names gids) l gs ->
  foldM (fun acc k => let? g := at_z gids k in Ok (acc ++ [g])) acc l = Ok (acc ++ gs).
Proof.
  intros gids l gs acc H. revert acc. induction H; intros acc; simpl; [now rewrite app_nil_r|].
  destruct H as [H1 H2]. rewrite <- (Z2Nat.id x) by auto. rewrite (at_z_ok _ _ _ _ H2). simpl.
  rewrite IHForall2, <- app_assoc. reflexivity.
Qed.
Lemma globalize_ok : forall gids ls gs post, Forall2 (Forall2 (names gids)) ls gs ->
  globalize gids (length ls) (flat_form ls ++ post) = Ok (flat_form gs ++ post).
Proof.
  intros gids ls gs post H. revert post. induction H as [|l g ls gs Hl Hr IH]; intros post; [reflexivity|].
  cbn [length globalize]. change (flat_form (l :: ls)) with (Z.of_nat (length l) :: (l ++ flat_form ls)).
  cbn [app]. rewrite <- app_assoc.
  destruct (Z.ltb_spec (Z.of_nat (length (l ++ flat_form ls ++ post))) (Z.of_nat (length l))) as [C|_].
  { rewrite app_length in C. lia. }
  rewrite Nat2Z.id, firstn_app, Nat.sub_diag, firstn_all, firstn_O, app_nil_r.
  rewrite (foldM_at_z _ _ _ [] Hl). cbn [bind app]. rewrite skipn_app, Nat.sub_diag, skipn_all. cbn [app skipn].
  rewrite IH. cbn [bind]. rewrite (Forall2_len _ _ _ _ _ Hl). simpl. now rewrite <- app_assoc.
Qed.
Lemma list_size_ok : forall ls post acc,
  list_size (length ls) (flat_form ls ++ post) acc = Ok (acc + (Z.of_nat (length (flat_form ls)) - Z.of_nat (length ls))).
Proof.
  induction ls as [|l ls IH]; intros; [simpl; f_equal; lia|].
  cbn [length list_size]. change (flat_form (l :: ls)) with (Z.of_nat (length l) :: (l ++ flat_form ls)).
  cbn [app]. rewrite <- app_assoc.
  destruct (Z.ltb_spec (Z.of_nat (length (l ++ flat_form ls ++ post))) (Z.of_nat (length l))) as [C|_].
  { rewrite app_length in C. lia. }
  rewrite Nat2Z.id, skipn_app, Nat.sub_diag, skipn_all. cbn [app skipn]. rewrite IH. f_equal.
  cbn [length]. rewrite app_length. lia.
Qed.

Lemma existsb_In : forall g l, existsb (Z.eqb g) l = true <-> In g l.
Proof.
  intros. rewrite existsb_exists. split. - intros [x [H1 H2]]. apply Z.eqb_eq in H2. now subst.
  - intros. exists g. split; auto. apply Z.eqb_refl.
Qed.
Lemma fold_shared : forall owned nb s, StronglySorted Z.lt s ->
  let r := fold_left (fun s g => if existsb (Z.eqb g) owned then s else set_insert g s) nb s in
  StronglySorted Z.lt r /\ forall x, In x r <-> In x s \/ (In x nb /\ ~ In x owned).
Proof.
  induction nb as [|g nb IH]; intros s Hs; simpl. - intuition.
  - destruct (existsb (Z.eqb g) owned) eqn:E.
    + destruct (IH s Hs) as [H1 H2]. split; auto. intros x. rewrite H2. apply existsb_In in E. split; [tauto|].
      intros [?|[[<-|?] ?]]; tauto.
    + destruct (IH (set_insert g s)) as [H1 H2]. { now apply set_insert_sorted. } split; auto.
      intros x. rewrite H2, set_insert_In. assert (~ In g owned) by (rewrite <- existsb_In; congruence).
      split; [intros [[->|?]|?]; tauto|]. intros [?|[[<-|?] ?]]; tauto.
Qed.

Lemma foldM_positions : forall (S : Type) (f : S -> Z -> outcome S) (step : S -> list Z -> S) ls,
  (forall s i l p, nth_error ls i = Some l -> nth_error (count_positions ls) i = Some p -> f s p = Ok (step s l)) ->
  forall s, foldM f s (count_positions ls) = Ok (fold_left step ls s).
Proof.
  intros S f step ls H.
  assert (G : forall post pre s, ls = pre ++ post ->
     foldM f s (skipn (length pre) (count_positions ls)) = Ok (fold_left step post s)).
  { induction post as [|l post IH]; intros pre s E.
    - rewrite skipn_all2; [reflexivity|]. rewrite count_positions_length, E, app_nil_r. lia.
    - assert (Hl : nth_error ls (length pre) = Some l) by (rewrite E, nth_error_app2, Nat.sub_diag by lia; reflexivity).
      destruct (nth_error (count_positions ls) (length pre)) as [p|] eqn:Ep.
      2:{ apply nth_error_None in Ep. rewrite count_positions_length, E, app_length in Ep. simpl in Ep. lia. }
      assert (Es : skipn (length pre) (count_positions ls) = p :: skipn (length (pre ++ [l])) (count_positions ls)).
      { rewrite app_length. simpl. rewrite Nat.add_1_r. clear -Ep. revert Ep. generalize (count_positions ls) (length pre).
        intros c n. revert c. induction n; intros [|a t] Ep; simpl in *; try discriminate. - now injection Ep as ->. - now apply IHn. }
      rewrite Es. cbn [foldM fold_left]. rewrite (H s _ l p Hl Ep). cbn [bind]. apply IH. now rewrite <- app_assoc. }
  intros s. apply (G ls []). reflexivity.
Qed.

Theorem shared_ok : forall owned gs,
  exists sh, shared_ids owned (count_positions gs) (flat_form gs) = Ok sh /\
    ghosts_of owned (fun x => exists l, In l gs /\ In x l) sh.
Proof.
  intros owned gs. unfold shared_ids.
  rewrite (foldM_positions _ _ (fun s nb => fold_left (fun s g => if existsb (Z.eqb g) owned then s else set_insert g s) nb s)).
  2:{ intros s i l p H1 H2. destruct (read_flat _ _ _ H1) as [q [Q1 [_ Q3]]]. assert (p = Z.of_nat q) by congruence. subst. now rewrite Q3. }
  eexists; split; [reflexivity|].
  assert (G : forall ls s, StronglySorted Z.lt s ->
     let r := fold_left (fun s nb => fold_left (fun s g => if existsb (Z.eqb g) owned then s else set_insert g s) nb s) ls s in
     StronglySorted Z.lt r /\ forall x, In x r <-> In x s \/ ((exists l, In l ls /\ In x l) /\ ~ In x owned)).
  { induction ls as [|l ls IH]; intros s Hs; simpl. - split; auto. intros x. split; auto. intros [?|[[l [[] _]] _]]; auto.
    - destruct (fold_shared owned l s Hs) as [F1 F2]. destruct (IH _ F1) as [I1 I2]. split; auto.
      intros x. rewrite I2, F2. split.
      + intros [[?|[? ?]]|[[l' [? ?]] ?]]; eauto 6.
      + intros [?|[[l' [[<-|?] ?]] ?]]; eauto 6. }
  destruct (G gs []) as [G1 G2]; [constructor|]. split; auto. intros x. rewrite G2. simpl. intuition.
Qed.

Theorem local_ok : forall overlap gs, NoDup overlap -> (forall l x, In l gs -> In x l -> In x overlap) ->
  exists ls, local_list overlap (count_positions gs) (flat_form gs) = Ok (flat_form ls) /\
    count_positions ls = count_positions gs /\ Forall2 (Forall2 (names overlap)) ls gs.
Proof.
  intros overlap gs Hn Hin. unfold local_list. exists (map (map (lid overlap)) gs).
  rewrite (foldM_positions _ _ (fun acc nb => acc ++ Z.of_nat (length nb) :: map (lid overlap) nb)).
  2:{ intros s i l p H1 H2. destruct (read_flat _ _ _ H1) as [q [Q1 [Q2 Q3]]]. assert (p = Z.of_nat q) by congruence. subst. now rewrite Q2, Q3. }
  split; [|split].
  - f_equal. assert (G : forall ls acc, fold_left (fun acc nb => acc ++ Z.of_nat (length nb) :: map (lid overlap) nb) ls acc = acc ++ flat_form (map (map (lid overlap)) ls)).
    { induction ls as [|l ls IH]; intros acc; simpl; [now rewrite app_nil_r|]. rewrite IH, <- app_assoc. simpl. now rewrite map_length. }
    apply (G gs []).
  - unfold count_positions. rewrite map_length. apply map_ext. intros i. f_equal.
    rewrite firstn_map. generalize (firstn i gs). induction l; simpl; auto. rewrite !app_length, map_length. now rewrite IHl.
  - clear -Hn Hin. induction gs; simpl; constructor.
    + apply lid_Forall2; auto. intros; eapply Hin; eauto. now left.
    + apply IHgs. intros; eapply Hin; eauto. now right.
Qed.

(** ** rebalancing *)
Lemma count_loop_ok : forall ls fuel pre counts, (length ls <= fuel)%nat ->
  count_loop fuel (pre ++ flat_form ls) (Z.of_nat (length pre)) counts
  = Ok (counts ++ map (fun l => Z.of_nat (length l)) ls).
Proof.
  induction ls as [|l ls IH]; intros fuel pre counts Hf.
  - simpl. rewrite app_nil_r. destruct fuel; simpl; rewrite Z.ltb_irrefl; now rewrite app_nil_r.
  - destruct fuel as [|fuel]; simpl in Hf; [lia|]. cbn [count_loop].
    change (flat_form (l :: ls)) with ((Z.of_nat (length l) :: l) ++ flat_form ls).
    destruct (Z.ltb_spec (Z.of_nat (length pre)) (Z.of_nat (length (pre ++ (Z.of_nat (length l) :: l) ++ flat_form ls)))) as [_|C].
    2:{ rewrite !app_length in C. cbn [length] in C. lia. }
    rewrite count_app. cbn [bind].
    replace (Z.of_nat (length pre) + 1 + Z.of_nat (length l)) with (Z.of_nat (length (pre ++ (Z.of_nat (length l) :: l))))
      by (rewrite app_length; cbn [length]; lia).
    rewrite app_assoc, IH by lia. now rewrite <- app_assoc.
Qed.
Lemma flat_form_len : forall ls, (length ls <= length (flat_form ls))%nat.
Proof. induction ls; simpl; auto. rewrite app_length. lia. Qed.

Lemma elements_ok : forall overlap ls gs pre, Forall2 (Forall2 (names overlap)) ls gs ->
  elements_of overlap (pre ++ flat_form ls) (length ls) (Z.of_nat (length pre))
  = Ok (map (fun g => match g with [] => [-1] | _ => g end) gs).
Proof.
  intros overlap ls gs pre H. revert pre. induction H as [|l g ls gs Hl Hr IH]; intros pre; [reflexivity|].
  cbn [length elements_of]. change (flat_form (l :: ls)) with ((Z.of_nat (length l) :: l) ++ flat_form ls).
  rewrite count_app. cbn [bind]. rewrite Nat2Z.id, run_app. cbn [bind].
  replace (Z.of_nat (length pre) + 1 + Z.of_nat (length l)) with (Z.of_nat (length (pre ++ (Z.of_nat (length l) :: l))))
    by (rewrite app_length; cbn [length]; lia).
  rewrite app_assoc, IH. cbn [bind map]. do 2 f_equal. rewrite (Forall2_gid _ _ _ Hl).
  rewrite (Forall2_len _ _ _ _ _ Hl). destruct g; reflexivity.
Qed.

Lemma mapM_ok : forall A B (f : A -> outcome B) (g : A -> B) l, (forall a, In a l -> f a = Ok (g a)) -> mapM f l = Ok (map g l).
Proof.
  induction l; intros H; simpl; auto. rewrite H by now left. simpl. rewrite IHl; [reflexivity|]. intros; apply H; now right.
Qed.
Lemma mapM_Forall2 : forall A B (f : A -> outcome B) (R : A -> B -> Prop) l,
  (forall a, In a l -> exists b, f a = Ok b /\ R a b) -> exists r, mapM f l = Ok r /\ Forall2 R l r.
Proof.
  induction l; intros H; simpl. - eexists; split; [reflexivity|constructor].
  - destruct (H a) as [b [E Hb]]; [now left|]. rewrite E. simpl. destruct IHl as [r [E2 Hr]]. { intros; apply H; now right. }
    rewrite E2. simpl. eexists; split; [reflexivity|]. constructor; auto.
Qed.

(** looking a value up on its owner *)
Lemma import1_ok : forall A (src : list (emap * list A)) m vals i g v,
  NoDup (concat (map fst src)) -> In (m, vals) src ->
  nth_error m i = Some g -> nth_error vals i = Some v -> import1 src g = Ok v.
Proof.
  induction src as [|[m' vals'] src IH]; intros m vals i g v Hn Hin Hi Hv; [destruct Hin|].
  simpl in Hn. cbn [import1]. destruct Hin as [E|Hin].
  - injection E as -> ->. replace (existsb (Z.eqb g) m) with true.
    2:{ symmetry. apply existsb_In. eapply nth_error_In; eauto. }
    rewrite (lid_nth _ _ i) by (eauto using NoDup_app_l). now apply at_z_ok.
  - destruct (existsb (Z.eqb g) m') eqn:E.
    + exfalso. apply existsb_In in E. eapply NoDup_app_disj; eauto. apply in_concat. exists m. split.
      * apply in_map_iff. exists (m, vals). auto. * eapply nth_error_In; eauto.
    + eapply IH; eauto. eapply NoDup_app_r; eauto.
Qed.

Lemma off_ok : forall t l s, StronglySorted Z.lt s -> NoDup t ->
  let r := fold_left (fun s g => if g =? -1 then s else if lid t g =? -1 then set_insert g s else s) l s in
  StronglySorted Z.lt r /\ forall x, In x r <-> In x s \/ (In x l /\ x <> -1 /\ ~ In x t).
Proof.
  induction l as [|g l IH]; intros s Hs Hn; simpl. - intuition.
  - destruct (Z.eqb_spec g (-1)) as [->|Hg].
    + destruct (IH s Hs Hn) as [H1 H2]. split; auto. intros x. rewrite H2. split; [tauto|].
      intros [?|[[Hx|?] [? ?]]]; [tauto|congruence|tauto].
    + destruct (Z.eqb_spec (lid t g) (-1)) as [E|E].
      * assert (~ In g t). { intro C. destruct (lid_in _ _ C Hn) as [k [Ek _]]. lia. }
        destruct (IH (set_insert g s)) as [H1 H2]; auto. { now apply set_insert_sorted. }
        split; auto. intros x. rewrite H2, set_insert_In.
        split; [intros [[->|?]|?]; tauto|]. intros [?|[[<-|?] ?]]; tauto.
      * assert (In g t). { destruct (in_dec Z.eq_dec g t); auto. exfalso. apply E. now apply lid_notin. }
        destruct (IH s Hs Hn) as [H1 H2]. split; auto. intros x. rewrite H2.
        split; [tauto|]. intros [?|[[<-|?] [? ?]]]; tauto.
Qed.

Definition placeholder (g : list Z) : list Z := match g with [] => [-1] | _ => g end.

Lemma fill_ok : forall ov gs, NoDup ov -> (forall l x, In l gs -> In x l -> In x ov) ->
  fill_list ov (map (fun l => Z.of_nat (length l)) gs) (map placeholder gs) = flat_form (map (map (lid ov)) gs)
  /\ Forall2 (Forall2 (names ov)) (map (map (lid ov)) gs) gs.
Proof.
  induction gs as [|g gs IH]; intros Hn Hin; simpl; [auto|].
  destruct IH as [I1 I2]; auto. { intros; eapply Hin; eauto. now right. }
  split.
  - unfold fill_list in *. simpl. rewrite I1, map_length, Nat2Z.id. f_equal. f_equal.
    destruct g; simpl; auto. now rewrite firstn_all.
  - constructor; auto. apply lid_Forall2; auto. intros. eapply Hin; eauto. now left.
Qed.
Lemma size_ok : forall (gs : list (list Z)) s, fold_left (fun s n => s + (1 + n)) (map (fun l => Z.of_nat (length l)) gs) s
  = s + Z.of_nat (length (flat_form gs)).
Proof.
  induction gs; intros s; [simpl; lia|]. cbn [map fold_left]. rewrite IHgs.
  change (flat_form (a :: gs)) with (Z.of_nat (length a) :: (a ++ flat_form gs)). cbn [length]. rewrite app_length. lia.
Qed.

Lemma Forall2_In_l : forall A B (R : A -> B -> Prop) l l' a, Forall2 R l l' -> In a l -> exists b, In (a, b) (combine l l') /\ R a b.
Proof.
  induction 1; intros Hin; [destruct Hin|]. destruct Hin as [->|Hin]; simpl; eauto. destruct (IHForall2 Hin) as [b [? ?]]; eauto.
Qed.
Lemma combine_map_fst : forall A B C (f : A -> C) (l : list A) (r : list B), length r = length l -> map fst (combine (map f l) r) = map f l.
Proof. induction l; intros [|b r] H; simpl in *; try discriminate; auto. f_equal. apply IHl. lia. Qed.

Lemma flat_form_map_len : forall (f : Z -> Z) gs, length (flat_form (map (map f) gs)) = length (flat_form gs).
Proof.
  unfold flat_form. induction gs; simpl; auto. rewrite !app_length, map_length. f_equal. f_equal. exact IHgs.
Qed.

Theorem rebalance_ok : forall (cur : list (rproc * list (list Z))) targets,
  (forall p nbrs, In (p, nbrs) cur -> proc_ok p nbrs) ->
  NoDup (concat (map r_owned (map fst cur))) ->
  (forall t, In t targets -> NoDup t /\ forall g, In g t -> In g (concat (map r_owned (map fst cur)))) ->
  exists res, rebalance (map fst cur) targets = Ok res /\
    Forall2 (fun t r => let '(ov, size, list) := r in
      exists gs ghosts ls,
        Forall2 (neighbours_are cur) t gs /\
        ov = t ++ ghosts /\ NoDup ov /\ ghosts_of t (fun x => exists l, In l gs /\ In x l) ghosts /\
        list = flat_form ls /\ size = Z.of_nat (length list) /\
        Forall2 (Forall2 (names ov)) ls gs) targets res.
Proof.
  intros cur targets Hok Hn Ht. unfold rebalance.
  assert (Ec : mapM counts_of (map fst cur) = Ok (map (fun c => map (fun l => Z.of_nat (length l)) (snd c)) cur)).
  { clear Hn Ht. induction cur as [|[p nbrs] cur IH]; auto. cbn [map mapM fst snd].
    destruct (Hok p nbrs (or_introl eq_refl)) as (Hnd & Hpos & Hlen & ls & Hls & H2).
    unfold counts_of at 1. rewrite Hls. pose proof (count_loop_ok ls (length (flat_form ls)) [] [] (flat_form_len ls)) as Q.
    simpl in Q. rewrite Q. cbn [bind]. rewrite map_length.
    assert (El : length ls = length (r_owned p)) by (rewrite <- Hlen; eapply Forall2_len; eauto).
    rewrite El. rewrite Nat.ltb_irrefl, Nat.sub_diag. cbn [repeat bind]. rewrite app_nil_r.
    rewrite IH by (intros; apply Hok; now right). cbn [bind].
    do 2 f_equal. clear -H2. induction H2; simpl; auto. f_equal; auto. f_equal. eapply Forall2_len; eauto. }
  rewrite Ec. cbn [bind].
  assert (Ee : mapM (fun p => elements_of (r_overlap p) (r_list p) (length (r_owned p)) 0) (map fst cur)
             = Ok (map (fun c => map placeholder (snd c)) cur)).
  { clear Hn Ht Ec. induction cur as [|[p nbrs] cur IH]; auto. cbn [map mapM fst snd].
    destruct (Hok p nbrs (or_introl eq_refl)) as (Hnd & Hpos & Hlen & ls & Hls & H2).
    assert (El : length ls = length (r_owned p)) by (rewrite <- Hlen; eapply Forall2_len; eauto).
    rewrite Hls, <- El. pose proof (elements_ok (r_overlap p) ls nbrs [] H2) as Q. simpl in Q. rewrite Q. cbn [bind].
    rewrite IH by (intros; apply Hok; now right). reflexivity. }
  rewrite Ee. cbn [bind].
  apply mapM_Forall2. intros t Hin. destruct (Ht t Hin) as [Hnt Hsub].
  assert (Hgs : forall t', (forall g, In g t' -> In g t) -> exists gs, Forall2 (neighbours_are cur) t' gs /\
     mapM (import1 (combine (map r_owned (map fst cur)) (map (fun c => map (fun l => Z.of_nat (length l)) (snd c)) cur))) t'
       = Ok (map (fun l => Z.of_nat (length l)) gs) /\
     mapM (import1 (combine (map r_owned (map fst cur)) (map (fun c => map placeholder (snd c)) cur))) t'
       = Ok (map placeholder gs)).
  { induction t' as [|g t' IH]; intros Hs. { exists []. simpl. auto. }
    destruct IH as [gs [I1 [I2 I3]]]. { intros; apply Hs; now right. }
    assert (Hg : In g (concat (map r_owned (map fst cur)))) by (apply Hsub, Hs; now left).
    apply in_concat in Hg as [m [Hm Hg]]. rewrite map_map in Hm. apply in_map_iff in Hm as [[p nbrs] [Em Hp]].
    simpl in Em. subst m. apply In_nth_error in Hg as [i Hi].
    destruct (Hok p nbrs Hp) as (Hnd & Hpos & Hlen & _).
    destruct (nth_error nbrs i) as [l|] eqn:El.
    2:{ apply nth_error_None in El. assert (i < length (r_owned p))%nat by (apply nth_error_Some; congruence). lia. }
    exists (l :: gs).
    assert (Hc : forall B (f : rproc * list (list Z) -> B), In (r_owned p, f (p, nbrs)) (combine (map r_owned (map fst cur)) (map f cur))).
    { intros B f. clear -Hp. induction cur; simpl in *; [tauto|]. destruct Hp as [->|Hp]; [left; reflexivity|right; auto]. }
    assert (Hd : forall B (f : rproc * list (list Z) -> B), NoDup (concat (map fst (combine (map r_owned (map fst cur)) (map f cur))))).
    { intros. rewrite combine_map_fst; auto. now rewrite !map_length. }
    split; [|split].
    - constructor; auto. exists p, nbrs, i. auto.
    - cbn [mapM map]. rewrite (import1_ok _ _ (r_owned p) _ i g (Z.of_nat (length l)) (Hd _ _) (Hc _ (fun c => map (fun l => Z.of_nat (length l)) (snd c))) Hi).
      + cbn [bind]. rewrite I2. reflexivity.
      + simpl. now rewrite (map_nth_error _ _ _ El).
    - cbn [mapM map]. rewrite (import1_ok _ _ (r_owned p) _ i g (placeholder l) (Hd _ _) (Hc _ (fun c => map placeholder (snd c))) Hi).
      + cbn [bind]. rewrite I3. reflexivity.
      + simpl. now rewrite (map_nth_error _ _ _ El). }
  destruct (Hgs t) as [gs [G1 [G2 G3]]]; auto. rewrite G2, G3. cbn [bind].
  eexists; split; [reflexivity|]. cbn beta iota.
  destruct (off_ok t (concat (map placeholder gs)) []) as [O1 O2]; [constructor|auto|]. fold (off_processor t (map placeholder gs)) in O1, O2.
  set (gh := off_processor t (map placeholder gs)) in *.
  assert (Hpos : forall l x, In l gs -> In x l -> 0 <= x).
  { intros l x Hl Hx. clear -G1 Hl Hx Hok. induction G1 as [|g l' t gs Hg Hr IH]; [destruct Hl|]. destruct Hl as [->|Hl]; auto.
    destruct Hg as (p & nbrs & i & P1 & P2 & P3). destruct (Hok _ _ P1) as (_ & Hpos & _ & ls & _ & H2). apply Hpos.
    assert (exists k, Forall2 (names (r_overlap p)) k l).
    { clear -H2 P3. revert i P3. induction H2; intros [|i] P3; simpl in *; try discriminate; eauto. injection P3 as <-. eauto. }
    destruct H as [k Hk]. clear -Hk Hx. induction Hk; [destruct Hx|]. destruct Hx as [->|Hx]; auto. eapply names_In; eauto. }
  assert (Hgh : forall x, In x gh <-> (exists l, In l gs /\ In x l) /\ ~ In x t).
  { intros x. rewrite O2. split.
    - intros [[]|[H1 [H2 H3]]]. split; auto. apply in_concat in H1 as [e [E1 E2]]. apply in_map_iff in E1 as [l [<- Hl]].
      exists l. split; auto. destruct l; simpl in E2; [destruct E2; [congruence|tauto]|auto].
    - intros [[l [Hl Hx]] Hnt']. right. split; [|split; auto].
      + apply in_concat. exists (placeholder l). split; [now apply in_map|]. destruct l; [destruct Hx|exact Hx].
      + specialize (Hpos l x Hl Hx). lia. }
  assert (Hnov : NoDup (t ++ gh)).
  { apply NoDup_app_intro; auto. - now apply sorted_NoDup. - intros x Hx C. apply Hgh in C. tauto. }
  assert (Hsubov : forall l x, In l gs -> In x l -> In x (t ++ gh)).
  { intros l x Hl Hx. apply in_or_app. destruct (in_dec Z.eq_dec x t); auto. right. apply Hgh. eauto. }
  destruct (fill_ok (t ++ gh) gs Hnov Hsubov) as [F1 F2].
  exists gs, gh, (map (map (lid (t ++ gh))) gs).
  split; [exact G1|]. split; [reflexivity|]. split; [exact Hnov|]. split; [split; auto|].
  split; [exact F1|]. split; [|exact F2].
  rewrite F1, size_ok, flat_form_map_len. reflexivity.
Qed.

(** ** import and export *)
Section Fields.
  Context {V : Type} (vplus : V -> V -> V) (vnull : V).
  Context (HC : commutative_sum vplus vnull).
  Local Notation tot := (total vplus vnull).
  Lemma cm : forall a b, vplus a b = vplus b a. Proof. apply HC. Qed.
  Lemma am : forall a b c, vplus a (vplus b c) = vplus (vplus a b) c. Proof. apply HC. Qed.
  Lemma nm : forall a, vplus vnull a = a. Proof. apply HC. Qed.
  Lemma total_app : forall a b, tot (a ++ b) = vplus (tot a) (tot b).
  Proof. induction a; intros; simpl; [now rewrite nm|]. rewrite IHa. apply am. Qed.

  Definition contribution (mv : emap * list V) (g : Z) : list V :=
    match lookup (fst mv) (snd mv) g with Some v => [v] | None => [] end.

  Lemma lookup_nth : forall m (vals : list V) g, NoDup m -> length vals = length m ->
    contribution (m, vals) g = held (combine m vals) g.
  Proof.
    intros m vals g Hn Hl. unfold contribution, held. cbn [fst snd].
    destruct (in_dec Z.eq_dec g m) as [Hin|Hout].
    - destruct (lid_in _ _ Hin Hn) as [k [Ek Hk]]. 
      replace (lookup m vals g) with (nth_error vals k)
        by (unfold lookup; rewrite Ek; destruct k; simpl; auto; now rewrite SuccNat2Pos.id_succ).
      clear Ek Hin. revert vals k Hl Hk. induction m as [|h m IH]; intros [|v vals] [|k] Hl Hk; simpl in *; try discriminate.
      + injection Hk as ->. rewrite Z.eqb_refl. simpl. inversion Hn as [|? ? H1 H2]; subst. f_equal.
        clear -H1. revert vals. induction m as [|a m IH]; intros [|v vals]; simpl; auto. destruct (Z.eqb_spec a g); [subst; simpl in H1; tauto|].
        apply IH. simpl in H1. tauto.
      + inversion Hn as [|? ? H1 H2]; subst. destruct (Z.eqb_spec h g). { subst. exfalso. apply H1. eapply nth_error_In; eauto. }
        simpl. apply IH; auto.
    - unfold lookup. rewrite lid_notin by auto. clear Hl Hn. revert vals. induction m as [|a m IH]; intros [|v vals]; simpl; auto.
      destruct (Z.eqb_spec a g); [subst; simpl in Hout; tauto|]. apply IH. simpl in Hout. tauto.
  Qed.

  Definition addOther (g : Z) (me : nat) (acc : V) (qs : nat * (emap * list V)) : V :=
    if (fst qs =? me)%nat then acc
    else match lookup (fst (snd qs)) (snd (snd qs)) g with Some v => vplus acc v | None => acc end.
  Lemma fold_others : forall g me l s acc, (me < s \/ s + length l <= me)%nat ->
    fold_left (addOther g me) (combine (seq s (length l)) l) acc
    = vplus acc (tot (flat_map (fun mv => contribution mv g) l)).
  Proof.
    induction l as [|mv l IH]; intros s acc Hs; simpl. - rewrite cm. now rewrite nm.
    - rewrite IH by (simpl in Hs; lia). rewrite total_app. unfold addOther. cbn [fst snd].
      replace (s =? me)%nat with false by (symmetry; apply Nat.eqb_neq; simpl in Hs; lia).
      unfold contribution at 2. destruct (lookup (fst mv) (snd mv) g); simpl.
      + rewrite (cm v vnull), nm. now rewrite am.
      + now rewrite nm.
  Qed.

  Lemma export_point_ok : forall src me g,
    export_point vplus src me g vnull = tot (flat_map (fun mv => contribution mv g) src).
  Proof.
    intros src me g. unfold export_point.
    match goal with |- fold_left ?F _ _ = _ => change F with (addOther g me) end.
    destruct (nth_error src me) as [[m vals]|] eqn:E.
    - apply nth_error_split in E as [l1 [l2 [-> Hl]]].
      rewrite app_length. cbn [length]. rewrite seq_app. cbn [seq].
      assert (Ec : forall A B (a1 : list A) (b1 : list B) a2 b2, length a1 = length b1 -> combine (a1 ++ a2) (b1 ++ b2) = combine a1 b1 ++ combine a2 b2).
      { clear. induction a1; intros [|b b1] a2 b2 H; simpl in *; try discriminate; auto. f_equal. apply IHa1. lia. }
      rewrite Ec by apply seq_length. simpl combine. rewrite fold_left_app. cbn [fold_left].
      subst me. rewrite fold_others by lia. unfold addOther at 1. cbn [fst]. rewrite ?Nat.add_0_l, Nat.eqb_refl.
      rewrite fold_others by lia. rewrite flat_map_app. cbn [flat_map]. rewrite !total_app.
      unfold contribution at 4. cbn [fst snd].
      destruct (lookup m vals g) as [v|]; simpl total.
      + rewrite (cm v vnull), nm. rewrite (am (tot _) v). now rewrite (cm v (tot _)).
      + rewrite !nm. reflexivity.
    - apply nth_error_None in E. rewrite fold_others by lia. apply nm.
  Qed.

  Lemma held_app : forall (a b : list (Z * V)) g, held (a ++ b) g = held a g ++ held b g.
  Proof. intros. unfold held. now rewrite filter_app, map_app. Qed.

  Lemma exportAdd_ok : forall owned src,
    (forall mv, In mv src -> NoDup (fst mv) /\ length (snd mv) = length (fst mv)) ->
    exportAdd vplus owned src (zeros vnull owned)
    = map (map (fun g => tot (held (flat_map (fun mv => combine (fst mv) (snd mv)) src) g))) owned.
  Proof.
    intros owned src Hsrc. unfold exportAdd, zeros.
    assert (E : forall g, flat_map (fun mv => contribution mv g) src = held (flat_map (fun mv => combine (fst mv) (snd mv)) src) g).
    { intros g. revert Hsrc. induction src as [|[m vals] src IH]; intros Hsrc; simpl; auto.
      rewrite held_app, IH by (intros; apply Hsrc; now right). f_equal.
      destruct (Hsrc (m, vals)) as [H1 H2]; [now left|]. now apply lookup_nth. }
    generalize 0%nat. induction owned as [|m owned IH]; intros s; simpl; auto. f_equal; [|apply IH].
    clear IH. induction m as [|g m IH]; simpl; auto. f_equal; auto. now rewrite export_point_ok, E.
  Qed.

  Lemma addVec_map : forall owned (f g : Z -> V),
    addVec vplus (map (map f) owned) (map (map g) owned) = map (map (fun x => vplus (f x) (g x))) owned.
  Proof.
    intros owned f g. unfold addVec. induction owned as [|m owned IH]; simpl; auto. f_equal; auto.
    clear. induction m; simpl; auto. f_equal; auto.
  Qed.

  Lemma gather_onto_ok : forall owned blocks f, fields_ok blocks ->
    gather_onto vplus vnull owned (map (map f) owned) blocks
    = map (map (fun g => vplus (f g) (tot (held (entries blocks) g)))) owned.
  Proof.
    intros owned blocks. unfold gather_onto, entries. induction blocks as [|src blocks IH]; intros f Hok; simpl.
    - apply map_ext. intros m. apply map_ext. intros g. unfold held; simpl. now rewrite cm, nm.
    - rewrite exportAdd_ok. 2:{ intros mv Hmv. apply (Hok src mv); auto. now left. }
      rewrite addVec_map, IH. 2:{ intros s mv Hs. apply Hok. now right. }
      apply map_ext. intros m. apply map_ext. intros g. rewrite held_app, total_app. symmetry. apply am.
  Qed.

  Theorem gather_ok : forall owned blocks, fields_ok blocks ->
    gather vplus vnull owned blocks = map (map (fun g => tot (held (entries blocks) g))) owned.
  Proof.
    intros owned blocks H. unfold gather. unfold zeros at 1.
    change (map (fun m => map (fun _ => vnull) m) owned) with (map (map (fun _ : Z => vnull)) owned).
    rewrite gather_onto_ok by auto. apply map_ext. intros m. apply map_ext. intros g. apply nm.
  Qed.

  Lemma total_map_plus : forall A (f h : A -> V) l, tot (map (fun g => vplus (f g) (h g)) l) = vplus (tot (map f l)) (tot (map h l)).
  Proof.
    induction l; simpl; [now rewrite nm|]. rewrite IHl. rewrite <- !am. f_equal. rewrite !am. f_equal. apply cm.
  Qed.
  Lemma total_held : forall es gs, NoDup gs -> (forall e, In e es -> In (fst e) gs) ->
    tot (map (fun g => tot (held es g)) gs) = tot (map snd es).
  Proof.
    induction es as [|[h v] es IH]; intros gs Hn Hin.
    - unfold held. simpl. induction gs; simpl; auto. rewrite nm. apply IHgs. + now inversion Hn. + intros e [].
    - transitivity (vplus (tot (map (fun g => if h =? g then v else vnull) gs)) (tot (map (fun g => tot (held es g)) gs))).
      { rewrite <- total_map_plus. f_equal. apply map_ext. intros g. unfold held. simpl. destruct (h =? g); simpl; auto. now rewrite nm. }
      rewrite IH; auto. 2:{ intros; apply Hin; now right. } simpl. f_equal.
      assert (Hh : In h gs) by (apply (Hin (h, v)); now left).
      clear -Hn Hh HC. induction gs as [|g gs IHg]; [destruct Hh|]. inversion Hn as [|? ? H1 H2]; subst. simpl.
      destruct (Z.eqb_spec h g) as [->|Hne].
      + assert (E : tot (map (fun x => if g =? x then v else vnull) gs) = vnull).
        { clear -H1 HC. induction gs as [|a gs IH]; simpl; auto. destruct (Z.eqb_spec g a); [subst; simpl in H1; tauto|]. rewrite nm. apply IH. simpl in H1; tauto. }
        rewrite E. now rewrite cm, nm.
      + rewrite nm. apply IHg; auto. destruct Hh; [congruence|auto].
  Qed.

  Theorem gather_total : forall owned blocks, fields_ok blocks -> NoDup (concat owned) ->
    (forall e, In e (entries blocks) -> In (fst e) (concat owned)) ->
    tot (concat (gather vplus vnull owned blocks)) = tot (map snd (entries blocks)).
  Proof.
    intros owned blocks Hok Hn Hin. rewrite gather_ok by auto. rewrite <- concat_map. now apply total_held.
  Qed.

  Lemma import_ok : forall owned (src : list (list V)) overlap,
    NoDup (concat owned) -> Forall2 (fun m v => length v = length m) owned src ->
    (forall g, In g overlap -> In g (concat owned)) ->
    exists vals, importInsert owned src overlap = Ok vals /\
      Forall2 (fun g v => exists m s i, In (m, s) (combine owned src) /\ nth_error m i = Some g /\ nth_error s i = Some v) overlap vals.
  Proof.
    intros owned src overlap Hn H2 Hin. unfold importInsert. apply mapM_Forall2. intros g Hg.
    specialize (Hin g Hg). apply in_concat in Hin as [m [Hm Hgm]].
    destruct (Forall2_In_l _ _ _ _ _ _ H2 Hm) as [s [Hs Hl]].
    apply In_nth_error in Hgm as [i Hi].
    destruct (nth_error s i) as [v|] eqn:Ev.
    2:{ apply nth_error_None in Ev. assert (i < length m)%nat by (apply nth_error_Some; congruence). lia. }
    exists v. split; [|exists m, s, i; auto]. refine (import1_ok _ _ m s i g v _ Hs Hi Ev).
    assert (E : map fst (combine owned src) = owned).
    { clear -H2. induction H2 as [|m v o sr Hl Hr IH]; simpl; auto. now rewrite IH. }
    exact (eq_ind _ (fun z => NoDup (concat z)) Hn _ (eq_sym E)).
  Qed.

  Lemma evaluations_ok : forall owned f0 calls blocks, fields_ok blocks ->
    evaluations vplus vnull false owned f0 (calls ++ [blocks])
    = map (map (fun g => tot (held (entries blocks) g))) owned.
  Proof. intros. unfold evaluations. rewrite fold_left_app. simpl. now apply gather_ok. Qed.
  Lemma evaluations_multi : forall owned calls f, (forall b, In b calls -> fields_ok b) ->
    evaluations vplus vnull true owned (map (map f) owned) calls
    = map (map (fun g => vplus (f g) (tot (flat_map (fun b => held (entries b) g) calls)))) owned.
  Proof.
    intros owned calls. unfold evaluations. induction calls as [|b calls IH]; intros f H; simpl.
    - apply map_ext; intros m; apply map_ext; intros g. now rewrite cm, nm.
    - rewrite gather_onto_ok by (apply H; now left). rewrite IH by (intros; apply H; now right).
      apply map_ext; intros m; apply map_ext; intros g. rewrite total_app. symmetry. apply am.
  Qed.
End Fields.

Lemma search_overlap_ok : forall owned gs, NoDup owned ->
  exists sh ls, shared_ids owned (count_positions gs) (flat_form gs) = Ok sh /\
    ghosts_of owned (fun x => exists l, In l gs /\ In x l) sh /\ NoDup (owned ++ sh) /\
    local_list (owned ++ sh) (count_positions gs) (flat_form gs) = Ok (flat_form ls) /\
    count_positions ls = count_positions gs /\ Forall2 (Forall2 (names (owned ++ sh))) ls gs.
Proof.
  intros owned gs Hn. destruct (shared_ok owned gs) as [sh [E [G1 G2]]].
  assert (N : NoDup (owned ++ sh)).
  { apply NoDup_app_intro; auto. - now apply sorted_NoDup. - intros x Hx C. apply G2 in C. tauto. }
  destruct (local_ok (owned ++ sh) gs N) as [ls [L1 [L2 L3]]].
  { intros l x Hl Hx. apply in_or_app. destruct (in_dec Z.eq_dec x owned); auto. right. apply G2. eauto. }
  exists sh, ls. split; auto. split; [split; auto|]. auto.
Qed.

Lemma block_list_ok : forall bid g nbrs, well_formed g nbrs ->
  exists b nd ls, block_initialize bid g = Ok (b, nd) /\
    nd_list nd = flat_form ls /\ nd_ptr nd = count_positions ls /\ length ls = length (nd_owned nd) /\
    Forall2 (Forall2 (names (b_overlap b))) ls (map snd (assigned bid g nbrs)).
Proof.
  intros bid g nbrs H. destruct (block_initialize_ok bid g nbrs H) as (b & nd & gh & ls & R1 & R2 & _ & _ & _ & _ & R3 & R4 & R5 & R6).
  exists b, nd, ls. split; auto. split; auto. split; auto. split; auto.
  rewrite R3, map_length, seq_length, R2, (Forall2_len _ _ _ _ _ R6), !map_length. reflexivity.
Qed.
