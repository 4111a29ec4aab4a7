(** * Proofs about the data manager *)
From Verif Require Import Base ModelField ModelData SpecData.

Lemma bind_Ok {A B} (x : outcome A) (k : A -> outcome B) b :
  bind x k = Ok b -> exists a, x = Ok a /\ k a = Ok b.
Proof. destruct x; cbn; intros H; try discriminate; eauto. Qed.

Lemma at_ub_Ok {A} (l : list A) i a : at_ub l i = Ok a <-> nth_error l i = Some a.
Proof. unfold at_ub; destruct (nth_error l i); split; intros; congruence. Qed.

Lemma nth_update_nth {A} (l : list A) i j f :
  nth_error (update_nth l i f) j =
  if j =? i then option_map f (nth_error l j) else nth_error l j.
Proof.
  revert i j; induction l as [|h t IH]; intros i j.
  - cbn; destruct j; cbn; destruct i as [|i]; cbn; try reflexivity; destruct (Nat.eqb j i); reflexivity.
  - destruct i as [|i], j as [|j]; cbn; try reflexivity. apply IH.
Qed.

Lemma memb_In i l : memb i l = true <-> In i l.
Proof.
  unfold memb; rewrite existsb_exists; split.
  - intros (x & Hx & E); apply Nat.eqb_eq in E; congruence.
  - intros H; exists i; split; [assumption | apply Nat.eqb_refl].
Qed.
Lemma memb_app i a b : memb i (a ++ b) = memb i a || memb i b.
Proof. unfold memb; apply existsb_app. Qed.

Arguments memb : simpl never.

Section P.
  Context {Vec : Type} (zero_vec : nat -> nat -> Vec) (g : registry).
  Notation getD := (getData (Vec:=Vec) g).
  Notation setD := (setData (Vec:=Vec) g).
  Notation do1 := (do_op (Vec:=Vec) zero_vec g).
  Notation doall := (do_ops (Vec:=Vec) zero_vec g).

  (** ** One update *)
  Lemma update_local (w : world Vec) m f :
    isGlobalSpec g f = Ok false ->
    getD (updateState w m) m f STEP_N = getD w m f STEP_NP1 /\
    getD (updateState w m) m f STEP_NP1 = getD w m f STEP_N /\
    getD (updateState w m) m f STEP_NONE = getD w m f STEP_NONE.
  Proof.
    intros Hg; unfold getData; rewrite Hg; cbn [bind].
    unfold at_ub; cbn [mgrs updateState].
    rewrite nth_update_nth, Nat.eqb_refl.
    destruct (nth_error (mgrs w) m) as [mg|]; cbn; auto.
  Qed.

  Lemma update_local_other (w : world Vec) m k f s :
    isGlobalSpec g f = Ok false -> k <> m ->
    getD (updateState w m) k f s = getD w k f s.
  Proof.
    intros Hg Hk; unfold getData; rewrite Hg; cbn [bind].
    unfold at_ub; cbn [mgrs updateState].
    rewrite nth_update_nth. destruct (Nat.eqb_spec k m); [contradiction|reflexivity].
  Qed.

  (** ** Invariant of the global data *)
  Definition GInv (w : world Vec) : Prop :=
    forall f, (memb f (fulGlobal w) = true <-> globalData w f STEP_N <> None) /\
              (memb f (fulGlobal w) = true <-> globalData w f STEP_NP1 <> None).

  Lemma GInv_init n : GInv (initial_world n).
  Proof. intros f; cbn; unfold memb; cbn; split; split; intros H; congruence. Qed.

  Lemma GInv_op w o w' : GInv w -> do1 w o = Ok w' -> GInv w'.
  Proof.
    intros HI H; destruct o as [m fids | m f s v | m]; cbn [do_op] in H.
    - unfold allocateData in H.
      apply bind_Ok in H as (a & Ha & H).
      apply bind_Ok in H as (mg & Hmg & H).
      apply bind_Ok in H as (no & Hno & H).
      apply bind_Ok in H as (nn & Hnn & H).
      injection H as H; subst w'.
      intros f; cbn. rewrite memb_app.
      destruct (HI f) as [H1 H2].
      destruct (memb f (i_fulGlobal a)); rewrite ?orb_true_r, ?orb_false_r.
      + split; split; congruence.
      + split; assumption.
    - unfold setData in H.
      apply bind_Ok in H as (v0 & Hv0 & H).
      apply bind_Ok in H as (gl & Hgl & H).
      destruct gl; injection H as H; subst w'; cbn; [|exact HI].
      intros f'; cbn. destruct (HI f') as [H1 H2].
      unfold getData in Hv0; rewrite Hgl in Hv0; cbn in Hv0.
      destruct (Nat.eqb_spec f' f) as [->|Hne]; cbn; [|split; assumption].
      destruct s; cbn; [split; assumption| |].
      + destruct (globalData w f STEP_N) eqn:E; [|discriminate].
        split; [|assumption]. split; intros; [congruence|]. apply H1; congruence.
      + destruct (globalData w f STEP_NP1) eqn:E; [|discriminate].
        split; [assumption|]. split; intros; [congruence|]. apply H2; congruence.
    - injection H as H; subst w'. intros f; cbn. destruct (HI f) as [H1 H2].
      split; [|assumption].
      destruct (memb f (fulGlobal w)) eqn:E; [|assumption].
      split; intros _; [|reflexivity]. apply H2; reflexivity.
  Qed.

  Lemma foldM_inv {A} (f : world Vec -> A -> outcome (world Vec)) (P : world Vec -> Prop) :
    (forall w a w', P w -> f w a = Ok w' -> P w') ->
    forall l w w', P w -> foldM f w l = Ok w' -> P w'.
  Proof.
    intros Hs l; induction l as [|a t IH]; cbn; intros w w' Hw H.
    - congruence.
    - apply bind_Ok in H as (w1 & H1 & H2). eauto.
  Qed.

  Lemma GInv_ops h w w' : GInv w -> doall w h = Ok w' -> GInv w'.
  Proof. apply foldM_inv. intros; eapply GInv_op; eauto. Qed.

  Lemma update_global w m k f :
    GInv w -> isGlobalSpec g f = Ok true ->
    getD (updateState w m) k f STEP_N = getD w k f STEP_NP1 /\
    getD (updateState w m) k f STEP_NP1 = getD w k f STEP_NP1 /\
    getD (updateState w m) k f STEP_NONE = getD w k f STEP_NONE.
  Proof.
    intros HI Hg; unfold getData; rewrite Hg; cbn.
    destruct (HI f) as [H1 H2].
    destruct (memb f (fulGlobal w)) eqn:E; [auto|].
    destruct (globalData w f STEP_N) eqn:E1, (globalData w f STEP_NP1) eqn:E2; auto;
      try (exfalso; assert (false = true) by (apply H1; congruence); discriminate).
    exfalso; assert (false = true) by (apply H2; congruence); discriminate.
  Qed.

  (** ** Writes *)
  Lemma pick_set mg s s' f v :
    pick (Mgr (lessPoint mg) (fulPoint mg) (lessBond mg) (fulBond mg)
              (if step_eqb s STEP_NONE then set_state (sNONE mg) f v else sNONE mg)
              (if step_eqb s STEP_N then set_state (sN mg) f v else sN mg)
              (if step_eqb s STEP_NP1 then set_state (sNP1 mg) f v else sNP1 mg)) s' =
    if step_eqb s' s then set_state (pick (Vec:=Vec) mg s') f v else pick mg s'.
  Proof. destruct s, s'; reflexivity. Qed.

  Lemma set_get w m f s v w' :
    setD w m f s v = Ok w' ->
    forall k f' s',
      getD w' k f' s' =
      match isGlobalSpec g f with
      | Ok true => if (f' =? f) && step_eqb s' s then Ok v else getD w k f' s'
      | _ => if (k =? m) && (f' =? f) && step_eqb s' s then Ok v else getD w k f' s'
      end.
  Proof.
    unfold setData; intros H k f' s'.
    apply bind_Ok in H as (v0 & Hv0 & H).
    apply bind_Ok in H as (gl & Hgl & H). rewrite Hgl.
    destruct gl; injection H as H; subst w'.
    - unfold getData; cbn.
      destruct (Nat.eqb_spec f' f) as [->|Hne]; cbn; [|reflexivity].
      rewrite Hgl; cbn. destruct (step_eqb s' s); reflexivity.
    - unfold getData in Hv0; rewrite Hgl in Hv0; cbn in Hv0.
      unfold getData; cbn [mgrs].
      unfold at_ub at 1; rewrite nth_update_nth.
      destruct (Nat.eqb_spec k m) as [->|Hkm]; [|reflexivity].
      unfold at_ub in Hv0. destruct (nth_error (mgrs w) m) as [mg|] eqn:Em; [|discriminate].
      cbn [option_map bind andb].
      destruct (Nat.eqb_spec f' f) as [->|Hne].
      + rewrite Hgl; cbn [bind]. unfold at_ub; rewrite Em. cbn [bind].
        rewrite pick_set. destruct (step_eqb s' s) eqn:Es; [|reflexivity].
        assert (s' = s) as -> by (destruct s', s; cbn in Es; congruence).
        cbn [andb]. unfold stateGet, set_state in *. cbn [bind] in Hv0.
        destruct (pick mg s) as [st|]; [|discriminate].
        unfold at_ub in *. rewrite nth_update_nth, Nat.eqb_refl.
        destruct (nth_error st f); cbn in *; congruence.
      + destruct (isGlobalSpec g f') as [[]| |]; cbn [bind andb]; try reflexivity.
        unfold at_ub at 1; rewrite Em; cbn [bind].
        rewrite pick_set. destruct (step_eqb s' s) eqn:Es; [|reflexivity].
        unfold set_state; destruct (pick mg s') as [st|]; [|reflexivity].
        unfold stateGet, at_ub. rewrite nth_update_nth.
        destruct (Nat.eqb_spec f' f); [contradiction|reflexivity].
  Qed.

  (** ** Refinement of the two boxes *)
  Definition local_view (w : world Vec) m f (b : boxes Vec) : Prop :=
    getD w m f STEP_N = Ok (at_N b) /\ getD w m f STEP_NP1 = Ok (at_NP1 b).

  Lemma local_refines_1 m f w b o w' :
    isGlobalSpec g f = Ok false -> no_alloc o -> local_view w m f b -> do1 w o = Ok w' ->
    local_view w' m f (local_effect m f b o).
  Proof.
    intros Hg Hna [HN HP] H; destruct o as [m' fids | m' f' s v | m']; [contradiction| |].
    - cbn [do_op] in H. pose proof (set_get _ _ _ _ _ _ H) as G.
      unfold local_view; rewrite !G; clear G.
      destruct (isGlobalSpec g f') as [gl| |] eqn:Eg;
        [|apply bind_Ok in H as (? & _ & H); rewrite Eg in H; discriminate
         |apply bind_Ok in H as (? & _ & H); rewrite Eg in H; discriminate].
      rewrite (Nat.eqb_sym m m'), (Nat.eqb_sym f f'). cbn [local_effect].
      destruct (Nat.eqb_spec f' f) as [->|Hf].
      + assert (gl = false) as -> by congruence.
        destruct s, (m' =? m); cbn; auto.
      + destruct gl, s, (m' =? m); cbn; auto.
    - cbn in H; injection H as H; subst w'. cbn [local_effect].
      destruct (Nat.eqb_spec m' m) as [->|Hm].
      + destruct (update_local w m f Hg) as (U1 & U2 & _).
        split; cbn; [rewrite U1 | rewrite U2]; assumption.
      + split; cbn; rewrite update_local_other by auto; assumption.
  Qed.

  Lemma local_refines m f h w b w' :
    isGlobalSpec g f = Ok false -> Forall no_alloc h -> local_view w m f b -> doall w h = Ok w' ->
    local_view w' m f (fold_left (local_effect m f) h b).
  Proof.
    intros Hg; revert w b; induction h as [|o t IH]; cbn; intros w b Hna Hv H.
    - congruence.
    - inversion Hna as [|? ? Hn1 Hn2]; subst. apply bind_Ok in H as (w1 & H1 & H2).
      eapply IH; eauto. eapply local_refines_1; eauto.
  Qed.

  Lemma global_refines_1 k f w b o w' :
    isGlobalSpec g f = Ok true -> no_alloc o -> GInv w -> local_view w k f b ->
    do1 w o = Ok w' -> local_view w' k f (global_effect f b o).
  Proof.
    intros Hg Hna HI [HN HP] H; destruct o as [m' fids | m' f' s v | m']; [contradiction| |].
    - cbn [do_op] in H. pose proof (set_get _ _ _ _ _ _ H) as G.
      unfold local_view; rewrite !G; clear G.
      destruct (isGlobalSpec g f') as [gl| |] eqn:Eg;
        [|apply bind_Ok in H as (? & _ & H); rewrite Eg in H; discriminate
         |apply bind_Ok in H as (? & _ & H); rewrite Eg in H; discriminate].
      rewrite (Nat.eqb_sym f f'). cbn [global_effect].
      destruct (Nat.eqb_spec f' f) as [->|Hf].
      + assert (gl = true) as -> by congruence. destruct s; cbn; auto.
      + destruct gl, s; cbn; rewrite ?andb_false_r; cbn; auto.
    - cbn in H; injection H as H; subst w'.
      destruct (update_global w m' k f HI Hg) as (U1 & U2 & _).
      split; cbn; [rewrite U1 | rewrite U2]; assumption.
  Qed.

  Lemma global_refines k f h w b w' :
    isGlobalSpec g f = Ok true -> Forall no_alloc h -> GInv w -> local_view w k f b ->
    doall w h = Ok w' -> local_view w' k f (fold_left (global_effect f) h b).
  Proof.
    intros Hg; revert w b; induction h as [|o t IH]; cbn; intros w b Hna HI Hv H.
    - congruence.
    - inversion Hna as [|? ? Hn1 Hn2]; subst. apply bind_Ok in H as (w1 & H1 & H2).
      eapply (IH w1); [exact Hn2 | eapply GInv_op; eauto | eapply global_refines_1; eauto | exact H2].
  Qed.

  Lemma none_refines_local m f h w v w' :
    isGlobalSpec g f = Ok false -> Forall no_alloc h -> getD w m f STEP_NONE = Ok v ->
    doall w h = Ok w' ->
    getD w' m f STEP_NONE = Ok (fold_left (local_none_effect m f) h v).
  Proof.
    intros Hg; revert w v; induction h as [|o t IH]; cbn; intros w v Hna Hv H.
    - congruence.
    - inversion Hna as [|? ? Hn1 Hn2]; subst. apply bind_Ok in H as (w1 & H1 & H2).
      eapply IH; eauto.
      destruct o as [m' fids | m' f' s u | m']; [contradiction| |].
      + cbn [do_op] in H1. rewrite (set_get _ _ _ _ _ _ H1).
        destruct (isGlobalSpec g f') as [gl| |] eqn:Eg;
          [|apply bind_Ok in H1 as (? & _ & H1); rewrite Eg in H1; discriminate
           |apply bind_Ok in H1 as (? & _ & H1); rewrite Eg in H1; discriminate].
        rewrite (Nat.eqb_sym m m'), (Nat.eqb_sym f f'). cbn [local_none_effect].
        destruct (Nat.eqb_spec f' f) as [->|Hf].
        * assert (gl = false) as -> by congruence. destruct s, (m' =? m); cbn; auto.
        * destruct gl, s, (m' =? m); cbn; auto.
      + cbn in H1; injection H1 as H1; subst w1. cbn.
        destruct (Nat.eq_dec m m') as [<-|Hm].
        * destruct (update_local w m f Hg) as (_ & _ & U). congruence.
        * rewrite update_local_other; auto.
  Qed.

  Lemma none_refines_global k f h w v w' :
    isGlobalSpec g f = Ok true -> Forall no_alloc h -> GInv w -> getD w k f STEP_NONE = Ok v ->
    doall w h = Ok w' ->
    getD w' k f STEP_NONE = Ok (fold_left (global_none_effect f) h v).
  Proof.
    intros Hg; revert w v; induction h as [|o t IH]; cbn; intros w v Hna HI Hv H.
    - congruence.
    - inversion Hna as [|? ? Hn1 Hn2]; subst. apply bind_Ok in H as (w1 & H1 & H2).
      eapply (IH w1); [exact Hn2 | eapply GInv_op; eauto | | exact H2].
      destruct o as [m' fids | m' f' s u | m']; [contradiction| |].
      + cbn [do_op] in H1. rewrite (set_get _ _ _ _ _ _ H1).
        destruct (isGlobalSpec g f') as [gl| |] eqn:Eg;
          [|apply bind_Ok in H1 as (? & _ & H1); rewrite Eg in H1; discriminate
           |apply bind_Ok in H1 as (? & _ & H1); rewrite Eg in H1; discriminate].
        rewrite (Nat.eqb_sym f f'). cbn [global_none_effect].
        destruct (Nat.eqb_spec f' f) as [->|Hf].
        * assert (gl = true) as -> by congruence. destruct s; cbn; auto.
        * destruct gl, s; cbn; rewrite ?andb_false_r; cbn; auto.
      + cbn in H1; injection H1 as H1; subst w1. cbn.
        destruct (update_global w m' k f HI Hg) as (_ & _ & U). congruence.
  Qed.

  (** ** Last write before the last update *)
  Lemma foldM_app {A S} (f : S -> A -> outcome S) s l1 l2 :
    foldM f s (l1 ++ l2) = bind (foldM f s l1) (fun s' => foldM f s' l2).
  Proof.
    revert s; induction l1 as [|a t IH]; cbn; intros s; [reflexivity|].
    destruct (f s a); cbn; auto.
  Qed.

  Lemma box_quiet_NP1 m f (h : list (op Vec)) b :
    Forall no_alloc h ->
    Forall (fun o => ~ is_update_of m o) h -> Forall (fun o => ~ writes m f STEP_NP1 o) h ->
    at_NP1 (fold_left (local_effect m f) h b) = at_NP1 b.
  Proof.
    revert b; induction h as [|o t IH]; cbn; intros b Ha Hu Hw; [reflexivity|].
    inversion Ha; inversion Hu; inversion Hw; subst.
    rewrite IH by assumption.
    destruct o as [| m' f' s v | m']; cbn in *; auto.
    - destruct (Nat.eqb_spec m' m), (Nat.eqb_spec f' f), s; cbn; auto; subst; tauto.
    - destruct (Nat.eqb_spec m' m); cbn; auto; subst; tauto.
  Qed.
  Lemma box_quiet_N m f (h : list (op Vec)) b :
    Forall no_alloc h ->
    Forall (fun o => ~ is_update_of m o) h -> Forall (fun o => ~ writes m f STEP_N o) h ->
    at_N (fold_left (local_effect m f) h b) = at_N b.
  Proof.
    revert b; induction h as [|o t IH]; cbn; intros b Ha Hu Hw; [reflexivity|].
    inversion Ha; inversion Hu; inversion Hw; subst.
    rewrite IH by assumption.
    destruct o as [| m' f' s v | m']; cbn in *; auto.
    - destruct (Nat.eqb_spec m' m), (Nat.eqb_spec f' f), s; cbn; auto; subst; tauto.
    - destruct (Nat.eqb_spec m' m); cbn; auto; subst; tauto.
  Qed.

  Lemma last_write_survives w m f v h1 h2 w' b :
    isGlobalSpec g f = Ok false -> local_view w m f b ->
    Forall no_alloc h1 -> Forall no_alloc h2 ->
    Forall (fun o => ~ is_update_of m o) h1 -> Forall (fun o => ~ writes m f STEP_NP1 o) h1 ->
    Forall (fun o => ~ is_update_of m o) h2 -> Forall (fun o => ~ writes m f STEP_N o) h2 ->
    doall w (Write m f STEP_NP1 v :: h1 ++ Update m :: h2) = Ok w' ->
    getD w' m f STEP_N = Ok v.
  Proof.
    intros Hg Hv Ha1 Ha2 Hu1 Hw1 Hu2 Hw2 H.
    eapply local_refines in H; eauto.
    2:{ constructor; [exact I|]. apply Forall_app; split; [assumption|].
        constructor; [exact I|assumption]. }
    destruct H as [H _]. rewrite H; f_equal; clear H.
    cbn [fold_left]. rewrite fold_left_app. cbn [fold_left].
    rewrite box_quiet_N by assumption.
    cbn [local_effect]. rewrite !Nat.eqb_refl. cbn [at_N andb].
    rewrite box_quiet_NP1 by assumption. reflexivity.
  Qed.

  (** ** Globals after every block has been updated *)
  Lemma update_all_globals ms w f k :
    GInv w -> isGlobalSpec g f = Ok true -> ms <> [] ->
    getD (fold_left updateState ms w) k f STEP_N = getD w k f STEP_NP1 /\
    getD (fold_left updateState ms w) k f STEP_NP1 = getD w k f STEP_NP1.
  Proof.
    intros HI Hg. revert w HI; induction ms as [|m t IH]; intros w HI Hne; [congruence|].
    cbn [fold_left].
    assert (HI' : GInv (updateState w m)) by (eapply (GInv_op w (Update m)); eauto; reflexivity).
    destruct (update_global w m k f HI Hg) as (U1 & U2 & _).
    destruct t as [|m2 t].
    - cbn; auto.
    - destruct (IH _ HI') as [V1 V2]; [discriminate|]. rewrite V1, V2. auto.
  Qed.

  (** ** Allocation *)
  Lemma build_state_get m ids f :
    In f ids -> nth_error (build_state zero_vec m ids) f = Some (Some (zero_vec m f)).
  Proof.
    intros Hf. unfold build_state.
    rewrite nth_error_map.
    assert (f < S (list_max ids)).
    { assert (list_max ids <= list_max ids) as HH by lia.
      apply list_max_le in HH. rewrite Forall_forall in HH. specialize (HH f Hf). lia. }
    rewrite (nth_error_nth' _ 0) by (rewrite seq_length; lia).
    rewrite seq_nth by lia. cbn [option_map Nat.add].
    apply memb_In in Hf; rewrite Hf; reflexivity.
  Qed.

  Definition ids_le (a b : sorted_ids) : Prop :=
    incl (i_lessGlobal a) (i_lessGlobal b) /\ incl (i_fulGlobal a) (i_fulGlobal b) /\
    incl (i_lessBond a) (i_lessBond b) /\ incl (i_fulBond a) (i_fulBond b) /\
    incl (i_lessPoint a) (i_lessPoint b) /\ incl (i_fulPoint a) (i_fulPoint b).

  Lemma ids_le_refl a : ids_le a a.
  Proof. unfold ids_le; repeat split; apply incl_refl. Qed.
  Lemma ids_le_trans a b c : ids_le a b -> ids_le b c -> ids_le a c.
  Proof.
    unfold ids_le; intros (?&?&?&?&?&?) (?&?&?&?&?&?).
    repeat split; eapply incl_tran; eauto.
  Qed.

  Lemma classify_mono allG a f b : classify g allG a f = Ok b -> ids_le a b.
  Proof.
    destruct a as [lg fg lb fb lp fp]; unfold classify; intros H.
    apply bind_Ok in H as (s & _ & H).
    destruct (rq_rel (fs_req s)); try (injection H as H; subst b; apply ids_le_refl);
    repeat match type of H with
    | context [memb ?a ?b] => destruct (memb a b)
    | context [rq_len ?r] => destruct (rq_len r)
    | context [rq_tmp ?r] => destruct (rq_tmp r)
    end; try discriminate; injection H as H; subst b;
    unfold ids_le; cbn; repeat split; try apply incl_refl; apply incl_appl, incl_refl.
  Qed.

  Lemma classify_all_mono allG l a b : foldM (classify g allG) a l = Ok b -> ids_le a b.
  Proof.
    revert a; induction l as [|x t IH]; cbn; intros a H.
    - injection H as H; subst; apply ids_le_refl.
    - apply bind_Ok in H as (c & Hc & H). eapply ids_le_trans; [eapply classify_mono|]; eauto.
  Qed.

  (** Where an id of the list ends up. *)
  Lemma classify_all_in allG l a b f s :
    foldM (classify g allG) a l = Ok b -> In f l ->
    getFieldSpec g (Z.of_nat f) = Ok s ->
    match rq_rel (fs_req s), rq_tmp (fs_req s) with
    | GLOBAL, CONSTANT => In f allG \/ In f (i_lessGlobal b)
    | GLOBAL, TWO_STEP => In f allG \/ In f (i_fulGlobal b)
    | BOND, CONSTANT => In f (i_lessBond b)
    | BOND, TWO_STEP => In f (i_fulBond b)
    | NODE, CONSTANT | ELEMENT, CONSTANT => In f (map fst (i_lessPoint b))
    | NODE, TWO_STEP | ELEMENT, TWO_STEP => In f (map fst (i_fulPoint b))
    | _, _ => True
    end.
  Proof.
    revert a; induction l as [|x t IH]; intros a H Hin Hs; [destruct Hin|].
    cbn in H. apply bind_Ok in H as (c & Hc & H).
    destruct Hin as [<-|Hin]; [|eapply IH; eauto].
    apply classify_all_mono in H as (M1 & M2 & M3 & M4 & M5 & M6).
    destruct a as [lg fg lb fb lp fp]; unfold classify in Hc.
    rewrite Hs in Hc; cbn [bind] in Hc.
    destruct (memb x allG) eqn:Em.
    - apply memb_In in Em.
      destruct (rq_rel (fs_req s)), (rq_tmp (fs_req s)); auto;
      destruct (rq_len (fs_req s)); try discriminate; injection Hc as Hc; subst c; cbn in *;
      solve [ apply M3; apply in_or_app; right; left; reflexivity
            | apply M4; apply in_or_app; right; left; reflexivity
            | eapply (in_map fst) in M5; [|idtac]; auto
            | apply incl_map with (f:=fst) in M5; apply M5; rewrite map_app; apply in_or_app; right; left; reflexivity
            | apply incl_map with (f:=fst) in M6; apply M6; rewrite map_app; apply in_or_app; right; left; reflexivity ].
    - destruct (rq_rel (fs_req s)), (rq_tmp (fs_req s)); auto;
      destruct (rq_len (fs_req s)); try discriminate; injection Hc as Hc; subst c; cbn in *;
      solve [ right; apply M1; apply in_or_app; right; left; reflexivity
            | right; apply M2; apply in_or_app; right; left; reflexivity
            | apply M3; apply in_or_app; right; left; reflexivity
            | apply M4; apply in_or_app; right; left; reflexivity
            | apply incl_map with (f:=fst) in M5; apply M5; rewrite map_app; apply in_or_app; right; left; reflexivity
            | apply incl_map with (f:=fst) in M6; apply M6; rewrite map_app; apply in_or_app; right; left; reflexivity ].
  Qed.

  Lemma make_state_get m pts bonds st f :
    make_state zero_vec m pts bonds = Ok st -> In f (map fst pts ++ bonds) ->
    exists l, st = Some l /\ nth_error l f = Some (Some (zero_vec m f)).
  Proof.
    unfold make_state; intros H Hf.
    assert (exists l, st = Some l /\ l = build_state zero_vec m (map fst pts ++ bonds)) as (l & -> & ->).
    { destruct pts, bonds; cbn in Hf; try contradiction;
        destruct (lengths_ok _); inversion H; subst; eauto. }
    eexists; split; [reflexivity|]. apply build_state_get; assumption.
  Qed.

  Lemma alloc_local w m fids w' f s :
    allocateData zero_vec g w m fids = Ok w' -> In f fids ->
    getFieldSpec g (Z.of_nat f) = Ok s ->
    isGlobalSpec g f = Ok false ->
    (rq_rel (fs_req s) = BOND \/ rq_rel (fs_req s) = NODE \/ rq_rel (fs_req s) = ELEMENT) ->
    (rq_tmp (fs_req s) = TWO_STEP ->
       getD w' m f STEP_N = Ok (zero_vec m f) /\ getD w' m f STEP_NP1 = Ok (zero_vec m f)) /\
    (rq_tmp (fs_req s) = CONSTANT -> getD w' m f STEP_NONE = Ok (zero_vec m f)).
  Proof.
    intros H Hf Hs Hg Hr. unfold allocateData in H.
    apply bind_Ok in H as (a & Ha & H).
    apply bind_Ok in H as (mg & Hmg & H).
    apply bind_Ok in H as (no & Hno & H).
    apply bind_Ok in H as (nn & Hnn & H).
    injection H as H.
    pose proof (classify_all_in _ _ _ _ f s Ha) as Hc.
    assert (Hin : In f (nodup Nat.eq_dec fids)) by (apply nodup_In; assumption).
    specialize (Hc Hin Hs).
    apply at_ub_Ok in Hmg.
    split; intros Ht; rewrite Ht in Hc.
    - assert (Hin2 : In f (map fst (fulPoint mg ++ i_fulPoint a) ++ fulBond mg ++ i_fulBond a)).
      { rewrite map_app, !in_app_iff. destruct Hr as [Hr|[Hr|Hr]]; rewrite Hr in Hc; auto. }
      destruct (make_state_get _ _ _ _ _ Hnn Hin2) as (l & -> & Hl).
      subst w'. unfold getData; rewrite Hg; cbn [bind]. unfold at_ub; cbn [mgrs].
      rewrite nth_update_nth, Nat.eqb_refl, Hmg. cbn. unfold at_ub; rewrite Hl. auto.
    - assert (Hin2 : In f (map fst (lessPoint mg ++ i_lessPoint a) ++ lessBond mg ++ i_lessBond a)).
      { rewrite map_app, !in_app_iff. destruct Hr as [Hr|[Hr|Hr]]; rewrite Hr in Hc; auto. }
      destruct (make_state_get _ _ _ _ _ Hno Hin2) as (l & -> & Hl).
      subst w'. unfold getData; rewrite Hg; cbn [bind]. unfold at_ub; cbn [mgrs].
      rewrite nth_update_nth, Nat.eqb_refl, Hmg. cbn. unfold at_ub; rewrite Hl. auto.
  Qed.

  (** ** getFieldIds without arguments *)
  Definition all_defined : Prop := forall f s, getFieldSpec g f = Ok s ->
    rq_len (fs_req s) <> UNDEFINED_LENGTH.
  Lemma default_ids_empty s l :
    all_defined -> stateFieldIdsDefault (Vec:=Vec) g s = Ok l -> l = [].
  Proof.
    intros Hd. unfold stateFieldIdsDefault, stateFieldIds.
    generalize (seq 0 (length s)).
    assert (Hgen : forall ids acc, foldM (fun acc f =>
             if stateHas s f then
               let? sp := getFieldSpec g (Z.of_nat f) in
               if flength_eq_dec (rq_len (fs_req sp)) UNDEFINED_LENGTH
               then if relation_eq_dec (rq_rel (fs_req sp)) UNDEFINED_RELATION then Ok (acc ++ [f]) else Ok acc
               else Ok acc
             else Ok acc) acc ids = Ok l -> l = acc).
    { induction ids as [|f t IH]; cbn; intros acc H; [congruence|].
      destruct (stateHas s f); cbn in H; [|auto].
      apply bind_Ok in H as (acc1 & H1 & H2).
      apply bind_Ok in H1 as (sp & Hsp & H1).
      destruct (flength_eq_dec _ _); [exfalso; eapply Hd; eauto|].
      injection H1 as <-. auto. }
    intros ids H; exact (Hgen _ _ H).
  Qed.
End P.
