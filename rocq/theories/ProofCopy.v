(** * Proofs about copying by global id *)
From Verif Require Import Base ModelCopy SpecCopy ProofData.

Definition total (m : bmap) := fold_right Nat.add 0 (map snd m).
Definition piece {V} (m : bmap) (vec : list V) (k n : nat) := firstn n (skipn (firstPoint m k) vec).

Lemma skipn_skipn {A} (x y : nat) (l : list A) : skipn x (skipn y l) = skipn (x + y) l.
Proof.
  rewrite Nat.add_comm. revert l; induction y as [|y IH]; intros l; [reflexivity|].
  destruct l as [|h t]; cbn; [apply skipn_nil|]. apply IH.
Qed.

Lemma upd_split {A} (l : list A) i a : i < length l ->
  upd l i a = Some (firstn i l ++ a :: skipn (S i) l).
Proof.
  revert i; induction l as [|h t IH]; cbn; intros i Hi; [lia|].
  destruct i as [|i]; [reflexivity|]. cbn [firstn]. rewrite IH by lia. reflexivity.
Qed.
Lemma upd_None {A} (l : list A) i a : length l <= i -> upd l i a = None.
Proof.
  revert i; induction l as [|h t IH]; cbn; intros i Hi; [reflexivity|].
  destruct i as [|i]; [lia|]. rewrite IH by lia; reflexivity.
Qed.

Lemma copyElement_ok {V} (src tgt : list V) sf tf n :
  sf + n <= length src -> tf + n <= length tgt ->
  copyElement src sf tgt tf n =
  Ok (firstn tf tgt ++ firstn n (skipn sf src) ++ skipn (tf + n) tgt).
Proof.
  intros Hs Ht. unfold copyElement.
  assert (Hgen : forall k, k <= n ->
    foldM (fun t i => let? v := at_ub src (sf + i) in upd_ub t (tf + i) v) tgt (seq 0 k)
    = Ok (firstn tf tgt ++ firstn k (skipn sf src) ++ skipn (tf + k) tgt)).
  { induction k as [|k IH]; intros Hk.
    - cbn. rewrite Nat.add_0_r, firstn_skipn; reflexivity.
    - rewrite seq_S, Nat.add_0_l, foldM_app, IH by lia. cbn [bind foldM].
      destruct (nth_error src (sf + k)) as [v|] eqn:Ev;
        [|apply nth_error_None in Ev; lia].
      unfold at_ub; rewrite Ev; cbn [bind].
      assert (E : firstn (S k) (skipn sf src) = firstn k (skipn sf src) ++ [v]).
      { assert (E2 : nth_error (skipn sf src) k = Some v).
        { rewrite <- Ev. rewrite <- (firstn_skipn sf src) at 2.
          rewrite nth_error_app2; rewrite firstn_length; [|lia].
          f_equal; lia. }
        clear -E2. revert E2. generalize (skipn sf src) as l. intros l; revert k.
        induction l as [|h t IH]; intros k E; [destruct k; discriminate|].
        destruct k as [|k]; cbn in *; [congruence|]. rewrite (IH k); auto. }
      rewrite E. unfold upd_ub.
      assert (L1 : length (firstn tf tgt) = tf) by (rewrite firstn_length; lia).
      assert (L2 : length (firstn k (skipn sf src)) = k)
        by (rewrite firstn_length, skipn_length; lia).
      rewrite upd_split.
      2:{ rewrite !app_length, L1, L2, skipn_length; lia. }
      rewrite app_assoc.
      assert (LA : length (firstn tf tgt ++ firstn k (skipn sf src)) = tf + k)
        by (rewrite app_length, L1, L2; reflexivity).
      set (A := firstn tf tgt ++ firstn k (skipn sf src)) in *.
      rewrite firstn_app, skipn_app, LA.
      replace (tf + k - (tf + k)) with 0 by lia.
      rewrite (firstn_all2 A) by lia. rewrite (skipn_all2 A) by lia.
      replace (S (tf + k) - (tf + k)) with 1 by lia.
      cbn [firstn app]. rewrite app_nil_r.
      rewrite skipn_skipn. cbn [bind]. f_equal.
      unfold A; rewrite <- !app_assoc. f_equal. f_equal.
      replace (1 + (tf + k)) with (tf + S k) by lia.
      reflexivity. }
  apply Hgen; lia.
Qed.

(** Facts about maps. *)
Lemma lid_spec m gid k : lid m gid = Some k ->
  exists n, nth_error m k = Some (gid, n) /\ (forall j e, j < k -> nth_error m j = Some e -> fst e <> gid).
Proof.
  revert k; induction m as [|[h n] t IH]; cbn; intros k H; [discriminate|].
  destruct (Z.eqb_spec h gid) as [->|Hne].
  - injection H as <-. exists n; split; [reflexivity|]. intros j e Hj; lia.
  - destruct (lid t gid) as [k'|]; cbn in H; [|discriminate]. injection H as <-.
    destruct (IH k' eq_refl) as (n' & Hn & Hm). exists n'; split; [exact Hn|].
    intros [|j] e Hj He; cbn in He; [injection He as <-; assumption|].
    eapply Hm; eauto; lia.
Qed.
Lemma lid_None m gid : lid m gid = None <-> ~ In gid (gids m).
Proof.
  induction m as [|[h n] t IH]; cbn; [tauto|].
  destruct (Z.eqb_spec h gid) as [->|Hne]; [split; [discriminate|tauto]|].
  destruct (lid t gid) as [k|]; cbn in *.
  - split; [discriminate|]. intros H. exfalso.
    assert (Hn : ~ In gid (gids t)) by tauto. apply IH in Hn; discriminate.
  - split; [|reflexivity]. intros _ [?|Hin]; [congruence|]. revert Hin. apply IH; reflexivity.
Qed.

Lemma firstPoint_S (m : bmap) k gid n : nth_error m k = Some (gid, n) ->
  firstPoint m (S k) = firstPoint m k + n.
Proof.
  unfold firstPoint; revert k; induction m as [|[h s] t IH]; intros k H; [destruct k; discriminate|].
  destruct k as [|k]; cbn in *.
  - injection H as -> ->; lia.
  - rewrite IH by assumption; lia.
Qed.
Lemma firstPoint_le m k : firstPoint m k <= total m.
Proof.
  unfold firstPoint, total; revert k; induction m as [|[h s] t IH]; intros k.
  - rewrite firstn_nil; cbn; lia.
  - destruct k; cbn; [lia|]. specialize (IH k); lia.
Qed.
Lemma firstPoint_all m : firstPoint m (length m) = total m.
Proof. unfold firstPoint, total; rewrite firstn_all; reflexivity. Qed.

Lemma lid_size m gid k n : lid m gid = Some k -> nth_error m k = Some (gid, n) ->
  size_of m gid = Some n.
Proof.
  unfold size_of; revert k; induction m as [|[h s] t IH]; cbn; intros k H Hn; [discriminate|].
  destruct (Z.eqb_spec h gid) as [->|Hne].
  - injection H as <-; cbn in Hn; injection Hn as ->; reflexivity.
  - destruct (lid t gid) as [k'|]; cbn in H; [|discriminate]; injection H as <-.
    cbn in Hn. eapply IH; eauto.
Qed.
Lemma size_None m gid : size_of m gid = None <-> lid m gid = None.
Proof.
  unfold size_of; induction m as [|[h s] t IH]; cbn; [tauto|].
  destruct (Z.eqb h gid); cbn; [split; discriminate|].
  rewrite IH. destruct (lid t gid); cbn; split; congruence.
Qed.

Lemma lid_nth (m : bmap) k gid n : NoDup (gids m) -> nth_error m k = Some (gid, n) -> lid m gid = Some k.
Proof.
  revert k; induction m as [|[h s] t IH]; cbn; intros k Hd H; [destruct k; discriminate|].
  inversion Hd as [|? ? Hni Hd']; subst.
  destruct k as [|k]; cbn in H.
  - injection H as -> ->. rewrite Z.eqb_refl; reflexivity.
  - destruct (Z.eqb_spec h gid) as [->|Hne].
    + exfalso; apply Hni. apply (in_map fst) with (x:=(gid,n)). eapply nth_error_In; eauto.
    + rewrite (IH k) by assumption; reflexivity.
Qed.

(** values_of as a piece. *)
Lemma values_of_piece {V} m (vec : list V) gid k n :
  lid m gid = Some k -> nth_error m k = Some (gid, n) ->
  values_of m vec gid = Some (piece m vec k n).
Proof.
  unfold piece; revert k vec; induction m as [|[h s] t IH]; cbn; intros k vec H Hn; [discriminate|].
  destruct (Z.eqb_spec h gid) as [->|Hne].
  - injection H as <-. cbn in *. injection Hn as ->. unfold firstPoint; cbn. reflexivity.
  - destruct (lid t gid) as [k'|] eqn:E; cbn in H; [|discriminate]; injection H as <-.
    cbn in Hn. rewrite (IH k' (skipn s vec)) by auto.
    f_equal. f_equal. unfold firstPoint; cbn. rewrite skipn_skipn. f_equal; lia.
Qed.

Definition good_at (sm tm : bmap) (k : nat) : Prop :=
  exists e, nth_error tm k = Some e /\ size_of sm (fst e) = Some (snd e).

Definition target_step {V} (sm tm : bmap) (src : list V) := fun (t : list V) k =>
      let? e := at_ub tm k in
      match lid sm (fst e) with
      | None => Err
      | Some sk =>
        let? se := at_ub sm sk in
        if snd se =? snd e
        then copyElement src (firstPoint sm sk) t (firstPoint tm k) (snd e)
        else Err
      end.

Lemma src_bound {V} sm (src : list V) k gid n : fits sm src -> nth_error sm k = Some (gid, n) ->
  firstPoint sm k + n <= length src.
Proof.
  intros Hf Hn. rewrite Hf. fold (total sm). rewrite <- (firstPoint_S _ _ _ _ Hn). apply firstPoint_le.
Qed.

Lemma target_step_good {V} sm tm (src t : list V) k gid n :
  fits sm src -> length t = total tm -> nth_error tm k = Some (gid, n) -> size_of sm gid = Some n ->
  exists vals, values_of sm src gid = Some vals /\ length vals = n /\
    target_step sm tm src t k = Ok (firstn (firstPoint tm k) t ++ vals ++ skipn (firstPoint tm k + n) t).
Proof.
  intros Hs Ht Hk Hsz. unfold target_step, at_ub. rewrite Hk; cbn [bind fst snd].
  destruct (lid sm gid) as [sk|] eqn:El; [|apply size_None in El; congruence].
  destruct (lid_spec _ _ _ El) as (n' & Hn' & _). rewrite Hn'; cbn [bind fst snd].
  pose proof (lid_size _ _ _ _ El Hn') as Hsz'. assert (n' = n) as -> by congruence.
  rewrite Nat.eqb_refl.
  exists (piece sm src sk n). split; [eapply values_of_piece; eauto|].
  pose proof (src_bound _ _ _ _ _ Hs Hn') as B.
  split; [unfold piece; rewrite firstn_length, skipn_length; lia|].
  apply copyElement_ok; [assumption|].
  rewrite Ht, <- (firstPoint_S _ _ _ _ Hk). apply firstPoint_le.
Qed.

Lemma target_step_bad {V} sm tm (src t : list V) k gid n :
  nth_error tm k = Some (gid, n) -> size_of sm gid <> Some n -> target_step sm tm src t k = Err.
Proof.
  intros Hk Hsz. unfold target_step, at_ub. rewrite Hk; cbn [bind fst snd].
  destruct (lid sm gid) as [sk|] eqn:El; [|reflexivity].
  destruct (lid_spec _ _ _ El) as (n' & Hn' & _). rewrite Hn'; cbn [bind fst snd].
  pose proof (lid_size _ _ _ _ El Hn') as Hsz'.
  destruct (Nat.eqb_spec n' n); [congruence|reflexivity].
Qed.

(** The whole loop over the target's local ids. *)
Lemma copy_prefix {V} sm tm (src tgt : list V) k :
  fits sm src -> length tgt = total tm -> k <= length tm ->
  (forall j gid n, j < k -> nth_error tm j = Some (gid, n) -> size_of sm gid = Some n) ->
  exists t, foldM (target_step sm tm src) tgt (seq 0 k) = Ok t /\ length t = total tm /\
    skipn (firstPoint tm k) t = skipn (firstPoint tm k) tgt /\
    forall j gid n, j < k -> nth_error tm j = Some (gid, n) ->
       values_of sm src gid = Some (piece tm t j n).
Proof.
  intros Hs Ht. induction k as [|k IH]; intros Hk Hall.
  - exists tgt; repeat split; auto. intros; lia.
  - destruct IH as (t & E & Lt & Sk & Pj); [lia | intros j gj nj Hj Hnj; apply (Hall j); [lia|exact Hnj] |].
    rewrite seq_S, foldM_app, E; cbn [bind foldM Nat.add].
    destruct (nth_error tm k) as [[gid n]|] eqn:Ek; [|apply nth_error_None in Ek; lia].
    assert (Hsz : size_of sm gid = Some n) by (eapply Hall; eauto).
    destruct (target_step_good sm tm src t k gid n Hs Lt Ek Hsz) as (vals & Hv & Lv & Hstep).
    rewrite Hstep; cbn [bind].
    pose proof (firstPoint_S _ _ _ _ Ek) as FS.
    assert (B : firstPoint tm k + n <= total tm) by (rewrite <- FS; apply firstPoint_le).
    assert (L1 : length (firstn (firstPoint tm k) t) = firstPoint tm k)
      by (rewrite firstn_length; lia).
    eexists; split; [reflexivity|]. split; [|split].
    + rewrite !app_length, L1, Lv, skipn_length; lia.
    + rewrite FS. rewrite app_assoc, skipn_app.
      rewrite (skipn_all2 (firstn (firstPoint tm k) t ++ vals)) by (rewrite app_length, L1, Lv; lia).
      rewrite app_length, L1, Lv. replace (firstPoint tm k + n - (firstPoint tm k + n)) with 0 by lia.
      cbn [app skipn]. rewrite !(Nat.add_comm (firstPoint tm k) n), <- !skipn_skipn, Sk.
      reflexivity.
    + intros j gj nj Hj Hnj.
      destruct (Nat.eq_dec j k) as [->|Hne].
      * assert (gj = gid /\ nj = n) as [-> ->] by (split; congruence).
        rewrite Hv; f_equal. unfold piece.
        rewrite skipn_app, (skipn_all2 (firstn (firstPoint tm k) t)) by lia.
        rewrite L1, Nat.sub_diag. cbn [app skipn].
        rewrite firstn_app, Lv, Nat.sub_diag. cbn [firstn]. rewrite app_nil_r.
        rewrite <- Lv, firstn_all. reflexivity.
      * rewrite (Pj j gj nj) by (auto; lia). f_equal. unfold piece.
        assert (B2 : firstPoint tm j + nj <= firstPoint tm k).
        { rewrite <- (firstPoint_S _ _ _ _ Hnj).
          assert (Hjk : S j <= k) by lia. clear -Hjk.
          unfold firstPoint. revert j k Hjk; induction tm as [|[h s] r IHr]; intros j k H.
          - rewrite !firstn_nil; lia.
          - destruct k as [|k]; [lia|]. cbn [firstn map fold_right].
            destruct j as [|j].
            + cbn; lia.
            + specialize (IHr j k ltac:(lia)). lia. }
        rewrite skipn_app, firstn_app, L1.
        rewrite skipn_length, L1.
        replace (nj - (firstPoint tm k - firstPoint tm j)) with 0 by lia.
        cbn [firstn]. rewrite app_nil_r.
        rewrite skipn_firstn_comm, firstn_firstn.
        replace (Nat.min nj (firstPoint tm k - firstPoint tm j)) with nj by lia. reflexivity.
Qed.

Lemma copyVector_unfold {V} sm tm (src tgt : list V) :
  copyVector sm tm src tgt = foldM (target_step sm tm src) tgt (seq 0 (length tm)).
Proof. reflexivity. Qed.

Lemma covers_nth sm tm : NoDup (gids tm) ->
  (covers sm tm <-> forall j gid n, nth_error tm j = Some (gid, n) -> size_of sm gid = Some n).
Proof.
  intros Hd; split.
  - intros Hc j gid n Hn. rewrite (Hc gid).
    + eapply lid_size; eauto. eapply lid_nth; eauto.
    + apply (in_map fst) with (x:=(gid,n)). eapply nth_error_In; eauto.
  - intros H gid Hin. apply in_map_iff in Hin as ([g n] & <- & Hin).
    apply In_nth_error in Hin as (j & Hj). cbn [fst]. rewrite (H _ _ _ Hj).
    symmetry; eapply lid_size; eauto. eapply lid_nth; eauto.
Qed.

Lemma copyVector_ok {V} sm tm (src tgt : list V) :
  NoDup (gids tm) -> fits sm src -> fits tm tgt -> covers sm tm ->
  exists t, copyVector sm tm src tgt = Ok t /\ fits tm t /\
    forall gid, In gid (gids tm) -> exists vals,
      values_of sm src gid = Some vals /\ values_of tm t gid = Some vals.
Proof.
  intros Hd Hs Ht Hc. rewrite copyVector_unfold.
  destruct (copy_prefix sm tm src tgt (length tm)) as (t & E & Lt & _ & P); auto.
  { intros; eapply covers_nth; eauto. }
  exists t; split; [exact E|]. split; [exact Lt|].
  intros gid Hin. apply in_map_iff in Hin as ([g n] & <- & Hin).
  apply In_nth_error in Hin as (j & Hj). cbn [fst].
  exists (piece tm t j n). split.
  - apply (P j); auto. apply nth_error_Some. congruence.
  - apply values_of_piece; auto. eapply lid_nth; eauto.
Qed.

(** If the source does not cover the target the copy is refused. *)
Lemma copyVector_err {V} sm tm (src tgt : list V) :
  NoDup (gids tm) -> fits sm src -> fits tm tgt -> ~ covers sm tm ->
  copyVector sm tm src tgt = Err.
Proof.
  intros Hd Hs Ht Hc.
  assert (Hex : exists k, k < length tm /\ (exists gid n, nth_error tm k = Some (gid, n) /\ size_of sm gid <> Some n)
     /\ forall j gid n, j < k -> nth_error tm j = Some (gid, n) -> size_of sm gid = Some n).
  { assert (D : forall k, k <= length tm ->
       (forall j gid n, j < k -> nth_error tm j = Some (gid, n) -> size_of sm gid = Some n) \/
       exists k0, k0 < k /\ (exists gid n, nth_error tm k0 = Some (gid, n) /\ size_of sm gid <> Some n)
         /\ forall j gid n, j < k0 -> nth_error tm j = Some (gid, n) -> size_of sm gid = Some n).
    { induction k as [|k IH]; intros Hk; [left; intros; lia|].
      destruct IH as [Hl|(k0 & Hk0 & Hb & Hg)]; [lia| |].
      - destruct (nth_error tm k) as [[gid n]|] eqn:Ek; [|apply nth_error_None in Ek; lia].
        destruct (size_of sm gid) as [n'|] eqn:Es.
        + destruct (Nat.eq_dec n' n) as [->|Hne].
          * left; intros j gj nj Hj Hnj. destruct (Nat.eq_dec j k) as [->|]; [congruence|].
            eapply Hl; eauto; lia.
          * right; exists k; repeat split; auto. exists gid, n; split; auto. congruence.
        + right; exists k; repeat split; auto. exists gid, n; split; auto. congruence.
      - right; exists k0; repeat split; auto. }
    destruct (D (length tm) (Nat.le_refl _)) as [Hl|(k0 & Hk0 & Hb & Hg)].
    - exfalso; apply Hc. apply covers_nth; auto. intros j gid n Hn. eapply Hl; eauto.
      apply nth_error_Some; congruence.
    - exists k0; auto. }
  destruct Hex as (k & Hk & (gid & n & Hn & Hbad) & Hg).
  rewrite copyVector_unfold.
  destruct (copy_prefix sm tm src tgt k) as (t & E & Lt & _ & P); auto; [lia|].
  replace (length tm) with (k + S (length tm - S k)) by lia.
  rewrite seq_app, foldM_app, E. cbn [seq bind foldM Nat.add].
  rewrite (target_step_bad sm tm src t k gid n Hn Hbad). reflexivity.
Qed.

Lemma copyVectors_ok {V} sm tm (ss ts : list (list V)) :
  NoDup (gids tm) -> Forall (fits sm) ss -> Forall (fits tm) ts -> covers sm tm ->
  length ss = length ts ->
  exists rs, copyVectors sm tm ss ts = Ok rs /\ length rs = length ss /\ Forall (fits tm) rs /\
    forall i s r gid, nth_error ss i = Some s -> nth_error rs i = Some r -> In gid (gids tm) ->
      exists vals, values_of sm s gid = Some vals /\ values_of tm r gid = Some vals.
Proof.
  intros Hd Hs Ht Hc. revert ts Ht; induction Hs as [|s ss Hs1 Hs2 IH]; intros ts Ht L;
    destruct ts as [|t ts]; try discriminate.
  - exists []; cbn; repeat split; auto. intros [|i]; discriminate.
  - inversion Ht as [|? ? Ht1 Ht2]; subst.
    destruct (copyVector_ok sm tm s t Hd Hs1 Ht1 Hc) as (t' & E & F & P).
    destruct (IH ts Ht2) as (rs & E' & L' & F' & P'); [cbn in L; lia|].
    exists (t' :: rs); cbn. rewrite E; cbn. rewrite E'; cbn.
    repeat split; auto.
    intros [|i] s0 r gid Hn Hr Hin; cbn in *.
    + injection Hn as <-; injection Hr as <-. auto.
    + eapply P'; eauto.
Qed.

Lemma copyVectors_err {V} sm tm (ss ts : list (list V)) :
  NoDup (gids tm) -> Forall (fits sm) ss -> Forall (fits tm) ts -> ~ covers sm tm ->
  length ss = length ts -> ts <> [] -> copyVectors sm tm ss ts = Err.
Proof.
  intros Hd Hs Ht Hc L Hne.
  destruct Hs as [|s ss Hs1 Hs2], Ht as [|t ts Ht1 Ht2]; try discriminate; [congruence|].
  cbn. rewrite copyVector_err; auto.
Qed.

Lemma copyMulti_ok {V} (s t : multivec V) :
  well_formed s -> well_formed t -> covers (mv_map s) (mv_map t) ->
  length (mv_vecs s) = length (mv_vecs t) ->
  exists r, copyMultiVector s t = Ok r /\ mv_map r = mv_map t /\ well_formed r /\
    length (mv_vecs r) = length (mv_vecs s) /\
    forall i vs vr gid, nth_error (mv_vecs s) i = Some vs -> nth_error (mv_vecs r) i = Some vr ->
      In gid (gids (mv_map t)) ->
      exists vals, values_of (mv_map s) vs gid = Some vals /\ values_of (mv_map t) vr gid = Some vals.
Proof.
  intros [Hds Hfs] [Hdt Hft] Hc L. unfold copyMultiVector. rewrite L, Nat.eqb_refl.
  destruct (copyVectors_ok _ _ _ _ Hdt Hfs Hft Hc L) as (rs & E & L' & F & P).
  rewrite E; cbn. eexists; split; [reflexivity|]. cbn. repeat split; auto. congruence.
Qed.

Lemma copyMulti_err {V} (s t : multivec V) :
  well_formed s -> well_formed t -> mv_vecs t <> [] ->
  (copyMultiVector s t = Err <->
   length (mv_vecs s) <> length (mv_vecs t) \/ ~ covers (mv_map s) (mv_map t)).
Proof.
  intros Hs Ht Hne. split.
  - intros E. destruct (Nat.eq_dec (length (mv_vecs s)) (length (mv_vecs t))) as [L|L]; [|auto].
    right; intros Hc. destruct (copyMulti_ok s t Hs Ht Hc L) as (r & Er & _). congruence.
  - destruct Hs as [Hds Hfs], Ht as [Hdt Hft]. unfold copyMultiVector.
    destruct (Nat.eqb_spec (length (mv_vecs s)) (length (mv_vecs t))) as [L|L]; [|reflexivity].
    intros [H|H]; [contradiction|]. rewrite copyVectors_err; auto.
Qed.

(** Lifting to states and managers. *)

Lemma copyMulti_copied {V} (s t r : multivec V) :
  well_formed s -> well_formed t -> mv_vecs t <> [] -> copyMultiVector s t = Ok r ->
  copied s t r.
Proof.
  intros Hs Ht Hne E.
  destruct (Nat.eq_dec (length (mv_vecs s)) (length (mv_vecs t))) as [L|L].
  2:{ assert (copyMultiVector s t = Err) by (apply copyMulti_err; auto). congruence. }
  assert (Hc : covers (mv_map s) (mv_map t)).
  { apply covers_nth; [apply Ht|]. intros j gid n Hn.
    destruct (size_of (mv_map s) gid) as [n'|] eqn:Es.
    - destruct (Nat.eq_dec n' n) as [->|Hne']; [reflexivity|].
      assert (copyMultiVector s t = Err); [|congruence].
      apply copyMulti_err; auto. right. intros Hc.
      pose proof (proj1 (covers_nth _ _ (proj1 Ht)) Hc _ _ _ Hn). congruence.
    - assert (copyMultiVector s t = Err); [|congruence].
      apply copyMulti_err; auto. right. intros Hc.
      pose proof (proj1 (covers_nth _ _ (proj1 Ht)) Hc _ _ _ Hn). congruence. }
  destruct (copyMulti_ok s t Hs Ht Hc L) as (r' & E' & M & W & L' & P).
  assert (r' = r) as -> by congruence. split; [|split]; auto.
Qed.


Lemma copyOpt_copied {V} (s t r : option (multivec V)) :
  opt_ok s -> opt_ok t -> copyOpt s t = Ok r -> opt_copied s t r.
Proof.
  unfold copyOpt; destruct t as [t|]; intros Hs Ht E.
  - destruct s as [s|]; [|discriminate]. apply bind_Ok in E as (r' & E & E2).
    injection E2 as <-. cbn. exists s; split; auto. apply copyMulti_copied; auto; [apply Hs|apply Ht|apply Ht].
  - injection E as <-; exact I.
Qed.

Lemma copyPoints_copied {V} (ss ts rs : list (option (multivec V))) :
  Forall opt_ok ss -> Forall opt_ok ts -> copyPoints ss ts = Ok rs ->
  length rs = length ts /\
  forall i t r, nth_error ts i = Some t -> nth_error rs i = Some r ->
    exists s, nth_error ss i = Some s /\ opt_copied s t r.
Proof.
  intros Hs Ht; revert ss Hs rs; induction Ht as [|t ts Ht1 Ht2 IH]; intros ss Hs rs E.
  - assert (rs = []) as -> by (destruct ss; cbn in E; congruence).
    split; auto. intros [|i]; discriminate.
  - destruct ss as [|s ss]; [discriminate|]. inversion Hs as [|? ? Hs1 Hs2]; subst.
    cbn in E. apply bind_Ok in E as (t' & E1 & E). apply bind_Ok in E as (r & E2 & E).
    injection E as <-. destruct (IH _ Hs2 _ E2) as (L & P).
    split; [cbn; congruence|].
    intros [|i] t0 r0 Hi Hr; cbn in *.
    + injection Hi as <-; injection Hr as <-. exists s; split; auto. apply copyOpt_copied; auto.
    + eauto.
Qed.

Lemma copyState_copied {V} (s t r : cstate V) :
  Forall opt_ok (c_points s) -> opt_ok (c_bond s) ->
  Forall opt_ok (c_points t) -> opt_ok (c_bond t) ->
  copyState s t = Ok r ->
  opt_copied (c_bond s) (c_bond t) (c_bond r) /\
  length (c_points r) = length (c_points t) /\
  forall i tp rp, nth_error (c_points t) i = Some tp -> nth_error (c_points r) i = Some rp ->
    exists sp, nth_error (c_points s) i = Some sp /\ opt_copied sp tp rp.
Proof.
  intros H1 H2 H3 H4 E. unfold copyState in E.
  apply bind_Ok in E as (ps & E1 & E). apply bind_Ok in E as (b & E2 & E). injection E as <-. cbn.
  split; [apply copyOpt_copied; auto|]. eapply copyPoints_copied; eauto.
Qed.

(** A refused or undefined copy never happens silently: the result is always an error
    or the correct copy when the two states have the same number of multivectors. *)
Lemma copyMulti_noUB {V} (s t : multivec V) : well_formed s -> well_formed t -> mv_vecs t <> [] ->
  copyMultiVector s t <> UB.
Proof.
  intros Hs Ht Hne E.
  destruct (Nat.eq_dec (length (mv_vecs s)) (length (mv_vecs t))) as [L|L].
  - assert (D : covers (mv_map s) (mv_map t) \/ ~ covers (mv_map s) (mv_map t)).
    { assert (Dec : forall l, (forall e, In e l -> size_of (mv_map s) (fst e) = Some (snd e)) \/
                              ~ (forall e, In e l -> size_of (mv_map s) (fst e) = Some (snd e))).
      { induction l as [|e l IH]; [left; intros ? []|].
        destruct IH as [IH|IH]; [|right; intros H; apply IH; intros; apply H; right; auto].
        destruct (size_of (mv_map s) (fst e)) as [n|] eqn:En.
        - destruct (Nat.eq_dec n (snd e)).
          + left; intros e' [<-|He']; [congruence|auto].
          + right; intros H. specialize (H e (or_introl eq_refl)). congruence.
        - right; intros H. specialize (H e (or_introl eq_refl)). congruence. }
      destruct (Dec (mv_map t)) as [Hd|Hd].
      - left. apply covers_nth; [apply Ht|]. intros j g n Hn.
        apply (Hd (g,n)). eapply nth_error_In; eauto.
      - right. intros Hc. apply Hd. intros [g n] Hin. apply In_nth_error in Hin as (j & Hj).
        eapply covers_nth; eauto. apply Ht. }
    destruct D as [Hc|Hc].
    + destruct (copyMulti_ok s t Hs Ht Hc L) as (r & Er & _). congruence.
    + assert (copyMultiVector s t = Err) by (apply copyMulti_err; auto). congruence.
  - assert (copyMultiVector s t = Err) by (apply copyMulti_err; auto). congruence.
Qed.
