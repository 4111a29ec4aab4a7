(** * Proofs about the field registry *)
From Coq Require Import String Ascii.
From Verif Require Import Base ModelField SpecField.

Lemma run_app g h1 h2 :
  run g (h1 ++ h2) =
  (fst (run (fst (run g h1)) h2), snd (run g h1) ++ snd (run (fst (run g h1)) h2)).
Proof.
  revert g; induction h1 as [|r t IH]; intros g; cbn [run app].
  - cbn [fst snd]. destruct (run g h2); reflexivity.
  - destruct (getFieldId g r) as [g1 o]. rewrite IH.
    destruct (run g1 t) as [g2 os]; reflexivity.
Qed.

Lemma after_snoc h r : after (h ++ [r]) = fst (getFieldId (after h) r).
Proof.
  unfold after. rewrite run_app; cbn [fst run].
  destruct (getFieldId _ r); reflexivity.
Qed.

Lemma answers_snoc h r : answers (h ++ [r]) = answers h ++ [snd (getFieldId (after h) r)].
Proof.
  unfold answers, after. rewrite run_app; cbn [fst snd run].
  destruct (getFieldId _ r); reflexivity.
Qed.

Lemma answers_length h : length (answers h) = length h.
Proof.
  induction h as [|r t IH] using rev_ind; [reflexivity|].
  rewrite answers_snoc, !app_length, IH; reflexivity.
Qed.

Lemma after_app h1 h2 : after (h1 ++ h2) = fst (run (after h1) h2).
Proof. unfold after. rewrite run_app; reflexivity. Qed.

Lemma answers_app h1 h2 : answers (h1 ++ h2) = answers h1 ++ snd (run (after h1) h2).
Proof. unfold answers, after. rewrite run_app; reflexivity. Qed.

Lemma find_exact_Some l r i :
  find_exact l r = Some i -> exists s, In s l /\ fs_req s = r /\ fs_id s = i.
Proof.
  induction l as [|s t IH]; cbn; [discriminate|].
  destruct (request_eq_dec r (fs_req s)) as [E|N].
  - intros [= <-]; exists s; auto.
  - intros H; destruct (IH H) as (s' & ? & ? & ?); exists s'; auto.
Qed.

Lemma find_exact_None l r : find_exact l r = None -> forall s, In s l -> fs_req s <> r.
Proof.
  induction l as [|s t IH]; cbn; [tauto|].
  destruct (request_eq_dec r (fs_req s)) as [E|N]; [discriminate|].
  intros H s' [<-|Hin]; [congruence | now apply IH].
Qed.

Lemma similar_label_true l lab :
  similar_label l lab = true <-> exists s, In s l /\ lower (rq_label (fs_req s)) = lower lab.
Proof.
  induction l as [|s t IH]; cbn.
  - split; [discriminate | intros (s & [] & _)].
  - destruct (string_dec (lower lab) (lower (rq_label (fs_req s)))) as [E|N].
    + split; [intros _; exists s; auto | reflexivity].
    + rewrite IH; split.
      * intros (s' & ? & ?); exists s'; auto.
      * intros (s' & [<-|Hin] & E); [congruence | exists s'; auto].
Qed.

Record Inv (g : registry) : Prop := {
  inv_id : forall i s, nth_error (specs g) i = Some s -> fs_id s = i;
  inv_case : forall i j s t, nth_error (specs g) i = Some s -> nth_error (specs g) j = Some t ->
             lower (rq_label (fs_req s)) = lower (rq_label (fs_req t)) -> i = j;
  inv_map : forall lab i, map_find (label_map g) lab = Some i <->
             exists s, nth_error (specs g) i = Some s /\ rq_label (fs_req s) = lab;
  inv_glob : is_global g = map (fun s => is_global_rel (rq_rel (fs_req s))) (specs g)
}.

Lemma Inv_empty : Inv empty_registry.
Proof.
  split; cbn.
  - intros [|i] s; discriminate.
  - intros [|i] j s t; discriminate.
  - intros lab i; split; [discriminate | intros (s & H & _); destruct i; discriminate].
  - reflexivity.
Qed.

Lemma nth_error_snoc {A} (l : list A) (a : A) i x :
  nth_error (l ++ [a]) i = Some x <->
  nth_error l i = Some x \/ (i = length l /\ x = a).
Proof.
  split.
  - intros H. destruct (Nat.lt_ge_cases i (length l)) as [L|G].
    + rewrite nth_error_app1 in H by assumption; auto.
    + rewrite nth_error_app2 in H by assumption.
      destruct (i - length l) as [|k] eqn:E; cbn in H.
      * right; split; [lia | congruence].
      * destruct k; discriminate.
  - intros [H|[-> ->]].
    + rewrite nth_error_app1; [assumption|]. apply nth_error_Some; congruence.
    + rewrite nth_error_app2, Nat.sub_diag by lia; reflexivity.
Qed.

Lemma nth_error_lt {A} (l : list A) i x : nth_error l i = Some x -> i < length l.
Proof. intros H; apply nth_error_Some; congruence. Qed.

Lemma Inv_step g r : Inv g -> Inv (fst (getFieldId g r)).
Proof.
  intros I. unfold getFieldId.
  destruct (find_exact (specs g) r) as [i|] eqn:F; [exact I|].
  destruct (similar_label (specs g) (rq_label r)) eqn:S; [exact I|].
  assert (Hn : forall i s, nth_error (specs g) i = Some s ->
               lower (rq_label (fs_req s)) <> lower (rq_label r)).
  { intros i s Hs E. enough (similar_label (specs g) (rq_label r) = true) by congruence.
    apply similar_label_true. exists s; split; [eapply nth_error_In; eauto | exact E]. }
  cbn [fst]. split; cbn [specs label_map is_global].
  - intros i s H. apply nth_error_snoc in H as [H|[-> ->]]; [now apply (inv_id _ I) | reflexivity].
  - intros i j s t H1 H2 E.
    apply nth_error_snoc in H1 as [H1|[-> ->]]; apply nth_error_snoc in H2 as [H2|[-> ->]]; cbn in E.
    + eapply (inv_case _ I); eauto.
    + exfalso; eapply Hn; eauto.
    + exfalso; eapply Hn; eauto.
    + reflexivity.
  - intros lab i; cbn [map_find]. destruct (string_dec lab (rq_label r)) as [->|N].
    + split.
      * intros [= <-]. eexists; rewrite nth_error_snoc; split; [right; split; reflexivity | reflexivity].
      * intros (s & H & E). apply nth_error_snoc in H as [H|[-> ->]]; [|reflexivity].
        exfalso; eapply Hn; eauto. now rewrite E.
    + rewrite (inv_map _ I); split.
      * intros (s & H & E); exists s; rewrite nth_error_snoc; auto.
      * intros (s & H & E). apply nth_error_snoc in H as [H|[-> ->]]; [eauto|].
        cbn in E; congruence.
  - rewrite map_app, (inv_glob _ I); reflexivity.
Qed.

Lemma Inv_after h : Inv (after h).
Proof.
  induction h as [|r t IH] using rev_ind; [exact Inv_empty|].
  rewrite after_snoc; now apply Inv_step.
Qed.

Lemma getFieldId_Ok g r g' i : Inv g -> getFieldId g r = (g', Ok i) ->
  exists s, nth_error (specs g') i = Some s /\ fs_req s = r.
Proof.
  intros I. unfold getFieldId.
  destruct (find_exact (specs g) r) as [k|] eqn:F.
  - intros [= <- <-]. apply find_exact_Some in F as (s & Hin & Hr & Hi).
    apply In_nth_error in Hin as [k' Hk]. pose proof (inv_id _ I _ _ Hk).
    exists s; split; [congruence | assumption].
  - destruct (similar_label _ _); [discriminate|]. intros [= <- <-]; cbn.
    eexists; rewrite nth_error_snoc; split; [right; split; reflexivity | reflexivity].
Qed.

Lemma step_mono g r i s : nth_error (specs g) i = Some s ->
  nth_error (specs (fst (getFieldId g r))) i = Some s.
Proof.
  intros H. unfold getFieldId. destruct (find_exact _ _); [exact H|].
  destruct (similar_label _ _); [exact H|]. cbn. rewrite nth_error_snoc; auto.
Qed.

Lemma specs_mono h h' i s : nth_error (specs (after h)) i = Some s ->
  nth_error (specs (after (h ++ h'))) i = Some s.
Proof.
  intros H. induction h' as [|r t IH] using rev_ind; [rewrite app_nil_r; exact H|].
  rewrite app_assoc, after_snoc; now apply step_mono.
Qed.

Lemma accepted_snoc h r r' i :
  accepted (h ++ [r]) r' i <->
  accepted h r' i \/ (r' = r /\ snd (getFieldId (after h) r) = Ok i).
Proof.
  unfold accepted. rewrite answers_snoc. split.
  - intros (k & H1 & H2). apply nth_error_snoc in H1 as [H1|[-> ->]].
    + apply nth_error_snoc in H2 as [H2|[E H2]]; [left; eauto|].
      apply nth_error_lt in H1. rewrite answers_length in E. lia.
    + apply nth_error_snoc in H2 as [H2|[E H2]].
      * apply nth_error_lt in H2; rewrite answers_length in H2; lia.
      * right; auto.
  - intros [(k & H1 & H2)|[-> H]].
    + exists k; rewrite !nth_error_snoc; auto.
    + exists (length h); rewrite !nth_error_snoc, answers_length; auto.
Qed.

Lemma specs_accepted h i s :
  nth_error (specs (after h)) i = Some s <-> fs_id s = i /\ accepted h (fs_req s) i.
Proof.
  revert i s; induction h as [|r t IH] using rev_ind; intros i s.
  - split.
    + destruct i; discriminate.
    + intros (_ & k & H & _); destruct k; discriminate.
  - rewrite accepted_snoc, after_snoc.
    pose proof (Inv_after t) as I.
    destruct (getFieldId (after t) r) as [g' o] eqn:G; cbn [fst snd].
    split.
    + intros H. assert (I' : Inv g') by (pose proof (Inv_step _ r I) as X; rewrite G in X; exact X).
      split; [now apply (inv_id _ I')|].
      unfold getFieldId in G.
      destruct (find_exact (specs (after t)) r); [injection G as <- <-; left; now apply IH|].
      destruct (similar_label _ _); [injection G as <- <-; left; now apply IH|].
      injection G as <- <-; cbn in H.
      apply nth_error_snoc in H as [H|[-> ->]]; [left; now apply IH|].
      right; auto.
    + intros (E & [H|[Er Ho]]).
      * pose proof (step_mono (after t) r i s) as M. rewrite G in M; cbn in M.
        apply M, IH; auto.
      * subst o. destruct (getFieldId_Ok _ _ _ _ I G) as (s' & Hs' & Es').
        assert (I' : Inv g') by (pose proof (Inv_step _ r I) as X; rewrite G in X; exact X).
        pose proof (inv_id _ I' _ _ Hs'). rewrite Hs'. f_equal.
        destruct s, s'; cbn in *; subst; reflexivity.
Qed.

Lemma C01_deterministic h r i j : accepted h r i -> accepted h r j -> i = j.
Proof.
  intros Hi Hj.
  pose proof (proj2 (specs_accepted h i (Spec r i)) (conj eq_refl Hi)) as A.
  pose proof (proj2 (specs_accepted h j (Spec r j)) (conj eq_refl Hj)) as B.
  eapply (inv_case _ (Inv_after h)); eauto.
Qed.

Lemma C01_injective h r r' i j : accepted h r i -> accepted h r' j ->
  (i = j <-> lower (rq_label r) = lower (rq_label r')) /\ (i = j -> r = r').
Proof.
  intros Hi Hj.
  pose proof (proj2 (specs_accepted h i (Spec r i)) (conj eq_refl Hi)) as A.
  pose proof (proj2 (specs_accepted h j (Spec r' j)) (conj eq_refl Hj)) as B.
  assert (X : i = j -> r = r') by (intros ->; rewrite A in B; congruence).
  split; [|exact X]. split.
  - intros E; rewrite (X E); reflexivity.
  - intros E; eapply (inv_case _ (Inv_after h)); eauto.
Qed.

Lemma C01_dense h i j r : accepted h r i -> j <= i -> exists r', accepted h r' j.
Proof.
  intros Hi L.
  pose proof (proj2 (specs_accepted h i (Spec r i)) (conj eq_refl Hi)) as A.
  apply nth_error_lt in A.
  destruct (nth_error (specs (after h)) j) as [s|] eqn:E.
  - apply specs_accepted in E as [? ?]; eauto.
  - apply nth_error_None in E; lia.
Qed.

Lemma C01_refusal h r :
  snd (getFieldId (after h) r) = Err <->
  (exists r' i, accepted h r' i /\ lower (rq_label r') = lower (rq_label r)) /\
  (forall i, ~ accepted h r i).
Proof.
  unfold getFieldId.
  destruct (find_exact (specs (after h)) r) as [k|] eqn:F; cbn.
  - split; [discriminate|]. intros [_ N].
    apply find_exact_Some in F as (s & Hin & Hr & Hi).
    apply In_nth_error in Hin as [k' Hk]. apply specs_accepted in Hk as [? Ha].
    subst r; exfalso; eapply N; eauto.
  - destruct (similar_label _ _) eqn:S; cbn.
    + apply similar_label_true in S as (s & Hin & E).
      apply In_nth_error in Hin as [k Hk]. pose proof Hk as Hk'.
      apply specs_accepted in Hk as [Hid Ha].
      split; [intros _ | reflexivity]. split; [eauto|].
      intros i Hi. pose proof (proj2 (specs_accepted h i (Spec r i)) (conj eq_refl Hi)) as A.
      eapply find_exact_None; eauto using nth_error_In.
    + split; [discriminate|]. intros [(r' & i & Ha & E) _].
      pose proof (proj2 (specs_accepted h i (Spec r' i)) (conj eq_refl Ha)) as A.
      enough (similar_label (specs (after h)) (rq_label r) = true) by congruence.
      apply similar_label_true. exists (Spec r' i); split; [eapply nth_error_In; eauto | exact E].
Qed.

Lemma getFieldId_never_UB g r : snd (getFieldId g r) <> UB.
Proof.
  unfold getFieldId. destruct (find_exact _ _); [discriminate|]. destruct (similar_label _ _); discriminate.
Qed.

Lemma C01_refused_no_effect h1 r h2 :
  snd (getFieldId (after h1) r) = Err ->
  after (h1 ++ r :: h2) = after (h1 ++ h2) /\
  answers (h1 ++ r :: h2) = answers h1 ++ Err :: skipn (length h1) (answers (h1 ++ h2)).
Proof.
  intros H. assert (E : getFieldId (after h1) r = (after h1, Err)).
  { revert H. unfold getFieldId. destruct (find_exact _ _); [discriminate|].
    destruct (similar_label _ _); [reflexivity | discriminate]. }
  split.
  - rewrite !after_app; cbn [run]. rewrite E. destruct (run (after h1) h2); reflexivity.
  - rewrite !answers_app; cbn [run]. rewrite E.
    rewrite skipn_app, answers_length, Nat.sub_diag.
    rewrite (skipn_all2 (answers h1)) by (rewrite answers_length; lia).
    destruct (run (after h1) h2); reflexivity.
Qed.

Lemma C01_lookup h h' r i : accepted h r i ->
  getFieldSpec (after (h ++ h')) (Z.of_nat i) = Ok (Spec r i) /\
  getFieldIdByLabel (after (h ++ h')) (rq_label r) = Ok i /\
  getFieldSpecByLabel (after (h ++ h')) (rq_label r) = Ok (Spec r i) /\
  hasField (after (h ++ h')) (rq_label r) = true /\
  isGlobalSpec (after (h ++ h')) i = Ok (is_global_rel (rq_rel r)) /\
  snd (getFieldId (after (h ++ h')) r) = Ok i /\
  fst (getFieldId (after (h ++ h')) r) = after (h ++ h').
Proof.
  intros Hi.
  pose proof (proj2 (specs_accepted h i (Spec r i)) (conj eq_refl Hi)) as A.
  apply (specs_mono h h') in A. set (g := after (h ++ h')) in *.
  pose proof (Inv_after (h ++ h')) as I; fold g in I.
  assert (S1 : getFieldSpec g (Z.of_nat i) = Ok (Spec r i)).
  { unfold getFieldSpec. destruct (Z.ltb_spec (Z.of_nat i) 0); [lia|].
    rewrite Nat2Z.id, A; reflexivity. }
  assert (M : map_find (label_map g) (rq_label r) = Some i).
  { apply (inv_map _ I). eexists; split; [exact A | reflexivity]. }
  assert (S2 : getFieldIdByLabel g (rq_label r) = Ok i).
  { unfold getFieldIdByLabel; rewrite M; reflexivity. }
  assert (G : getFieldId g r = (g, Ok i)).
  { unfold getFieldId. destruct (find_exact (specs g) r) as [k|] eqn:F.
    - apply find_exact_Some in F as (s & Hin & Hr & Hk).
      apply In_nth_error in Hin as [k' Hk']. pose proof (inv_id _ I _ _ Hk').
      assert (k' = i).
      { eapply (inv_case _ I); eauto. rewrite Hr; reflexivity. }
      congruence.
    - exfalso. eapply find_exact_None; eauto using nth_error_In. }
  repeat split; auto.
  - unfold getFieldSpecByLabel; rewrite S2; cbn [bind]; exact S1.
  - unfold hasField; rewrite M; reflexivity.
  - unfold isGlobalSpec, at_ub. rewrite (inv_glob _ I), nth_error_map, A; reflexivity.
  - rewrite G; reflexivity.
  - rewrite G; reflexivity.
Qed.

Lemma C01_unknown h lab : (forall r i, accepted h r i -> rq_label r <> lab) ->
  hasField (after h) lab = false /\ getFieldIdByLabel (after h) lab = Err /\
  getFieldSpecByLabel (after h) lab = Err.
Proof.
  intros N. assert (M : map_find (label_map (after h)) lab = None).
  { destruct (map_find (label_map (after h)) lab) as [i|] eqn:E; [|reflexivity].
    apply (inv_map _ (Inv_after h)) in E as (s & Hs & El).
    apply specs_accepted in Hs as [_ Ha]. exfalso; eapply N; eauto. }
  unfold getFieldSpecByLabel, hasField, getFieldIdByLabel; rewrite M; auto.
Qed.

Lemma C01_unknown_id h z : (forall r i, accepted h r i -> Z.of_nat i <> z) ->
  getFieldSpec (after h) z = Err.
Proof.
  intros N. unfold getFieldSpec. destruct (Z.ltb_spec z 0); [reflexivity|].
  destruct (nth_error (specs (after h)) (Z.to_nat z)) as [s|] eqn:E; [|reflexivity].
  apply specs_accepted in E as [Hid Ha]. exfalso; eapply N; eauto; lia.
Qed.
