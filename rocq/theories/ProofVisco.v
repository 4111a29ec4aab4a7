(** * The viscoelastic back extension (C16) *)
From Coq Require Import ZArith Reals Lra Lia.
From Verif Require Import Base Num ModelNeigh SpecDamage ModelForce SpecForce ModelPlastic SpecPlastic.
From Verif Require Import ProofData ProofCopy ProofDamage ProofForce ProofKernels ProofFrame ProofMaterial ProofPlastic ProofYield.
Local Open Scope R_scope.
Local Notation vec := (V3 RN).

Lemma decay_R : forall tau dt, 0 < tau -> 0 < dt -> visco_decay (N:=RN) exp tau dt = exp (- (dt / tau)).
Proof. intros. unfold visco_decay. to_R. f_equal. field. lra. Qed.
Lemma edb_R : forall tau dt e0 e1 b, 0 < tau -> 0 < dt ->
  visco_edb (N:=RN) exp tau dt e0 e1 b = e1 - tau * ((e1 - e0) / dt) + (b - e0 + tau * ((e1 - e0) / dt)) * exp (- (dt / tau)).
Proof. intros. unfold visco_edb, visco_beta. rewrite decay_R by auto. to_R. field. lra. Qed.

Lemma affine_d : forall (g : R -> R) s t, (forall u w, g u - g w = (u - w) * s) -> derivable_pt_lim g t s.
Proof.
  intros g s t H eps Heps. exists (mkposreal 1 Rlt_0_1). intros h Hh _. rewrite H.
  replace ((t + h - t) * s / h - s) with 0 by (field; auto). now rewrite Rabs_R0.
Qed.

(** ** exactness over one linear piece *)
Lemma one_piece : forall tau e b t0 dt, 0 < tau -> 0 < dt -> linear_on e t0 (t0 + dt) -> relaxes tau e b t0 (t0 + dt) ->
  b (t0 + dt) = visco_edb (N:=RN) exp tau dt (e t0) (e (t0 + dt)) (b t0).
Proof.
  intros tau e b t0 dt Htau Hdt HL HR. rewrite edb_R by auto.
  set (s := (e (t0 + dt) - e t0) / dt).
  set (g := fun t => (b t - (e t0 + (t - t0) * s - tau * s)) * exp ((t - t0) / tau)).
  assert (HE : forall t, t0 <= t <= t0 + dt -> e t = e t0 + (t - t0) * s).
  { intros t Ht. rewrite (HL t Ht). unfold s. field. lra. }
  assert (HD : forall t, t0 <= t <= t0 + dt -> derivable_pt_lim g t 0).
  { intros t Ht. pose proof (HR t Ht) as HB. unfold g.
    assert (D1 : derivable_pt_lim (fun t => e t0 + (t - t0) * s - tau * s) t s).
    { apply affine_d. intros u w. ring. }
    assert (D2 : derivable_pt_lim (fun t => exp ((t - t0) / tau)) t (exp ((t - t0) / tau) * (/ tau))).
    { apply (derivable_pt_lim_comp (fun t => (t - t0) / tau) exp); [|apply derivable_pt_lim_exp].
      apply affine_d. intros u w. field. lra. }
    pose proof (derivable_pt_lim_mult _ _ _ _ _ (derivable_pt_lim_minus _ _ _ _ _ HB D1) D2) as D.
    match type of D with derivable_pt_lim _ _ ?l => assert (EQ : l = 0) end.
    { unfold minus_fct. rewrite (HE t Ht). field. lra. }
    exact (eq_rect _ (fun l => derivable_pt_lim _ t l) D _ EQ). }
  assert (HG : g (t0 + dt) = g t0).
  { destruct (MVT_cor2 g (fun _ => 0) t0 (t0 + dt)) as (c & E & _); [lra| |lra]. intros t Ht. apply HD. lra. }
  unfold g in HG. replace (t0 + dt - t0) with dt in HG by ring. replace (t0 - t0) with 0 in HG by ring.
  unfold Rdiv in HG at 2. rewrite !Rmult_0_l, exp_0 in HG.
  assert (HX : exp (dt / tau) * exp (- (dt / tau)) = 1) by (rewrite <- exp_plus, Rplus_opp_r; apply exp_0).
  assert (HS : e (t0 + dt) = e t0 + dt * s) by (unfold s; field; lra). rewrite HS.
  replace (e t0 + dt * s - e t0) with (dt * s) by ring. replace (dt * s / dt) with s by (field; lra).
  set (X := exp (dt / tau)) in *. set (Z := exp (- (dt / tau))) in *.
  assert (HG' : b (t0 + dt) - (e t0 + dt * s - tau * s) = (b t0 - e t0 + tau * s) * Z).
  { replace (b (t0 + dt) - (e t0 + dt * s - tau * s)) with ((b (t0 + dt) - (e t0 + dt * s - tau * s)) * X * Z) by (rewrite Rmult_assoc, HX; ring).
    rewrite HG. ring. }
  lra.
Qed.

(** a solution exists *)
Lemma relaxes_exists : forall tau e0 s b0 t0 t1, 0 < tau ->
  exists b, b t0 = b0 /\ relaxes tau (fun t => e0 + s * (t - t0)) b t0 t1.
Proof.
  intros tau e0 s b0 t0 t1 Htau.
  exists (fun t => e0 + s * (t - t0) - tau * s + (b0 - e0 + tau * s) * exp (- ((t - t0) / tau))). split.
  - replace (t0 - t0) with 0 by ring. unfold Rdiv. rewrite Rmult_0_l, Ropp_0, exp_0. ring.
  - intros t _.
    assert (D1 : derivable_pt_lim (fun t => e0 + s * (t - t0) - tau * s) t s).
    { apply affine_d. intros u w. ring. }
    assert (D2 : derivable_pt_lim (fun t => exp (- ((t - t0) / tau))) t (exp (- ((t - t0) / tau)) * (- / tau))).
    { apply (derivable_pt_lim_comp (fun t => - ((t - t0) / tau)) exp); [|apply derivable_pt_lim_exp].
      apply affine_d. intros u w. field. lra. }
    pose proof (derivable_pt_lim_plus _ _ _ _ _ D1 (derivable_pt_lim_mult (fun _ => b0 - e0 + tau * s) _ _ _ _ (derivable_pt_lim_const _ t) D2)) as D.
    match type of D with derivable_pt_lim _ _ ?l => match goal with |- derivable_pt_lim _ _ ?r => assert (EQ : l = r) end end.
    { field. lra. }
    exact (eq_rect _ (fun l => derivable_pt_lim _ t l) D _ EQ).
Qed.

Lemma relaxes_sub : forall tau e b t0 t1 u0 u1, relaxes tau e b t0 t1 -> t0 <= u0 -> u1 <= t1 -> relaxes tau e b u0 u1.
Proof. intros tau e b t0 t1 u0 u1 H ? ? t Ht. apply H. lra. Qed.
Lemma total_nonneg : forall dts, Forall (Rlt 0) dts -> 0 <= total_time dts.
Proof. induction 1; cbn [total_time fold_right]; [lra|]. unfold total_time in IHForall. lra. Qed.

Lemma pieces : forall tau e b, 0 < tau -> forall dts t, Forall (Rlt 0) dts -> piecewise_linear e t dts -> relaxes tau e b t (t + total_time dts) ->
  back_steps tau e t (b t) dts = b (t + total_time dts).
Proof.
  intros tau e b Htau. induction dts as [|dt dts IH]; intros t HF HP HR.
  - cbn. f_equal. ring.
  - inversion HF; subst. destruct HP as [HL HP]. cbn [back_steps]. pose proof (total_nonneg _ H2) as TN.
    assert (ET : total_time (dt :: dts) = dt + total_time dts) by reflexivity. rewrite ET in *.
    rewrite <- (one_piece tau e b t dt Htau H1 HL) by (eapply relaxes_sub; [exact HR|lra|lra]).
    rewrite (IH (t + dt) H2 HP) by (eapply relaxes_sub; [exact HR|lra|lra]). f_equal. ring.
Qed.

(** ** constant extension *)
Lemma const_step : forall tau dt e b, 0 < tau -> 0 < dt -> visco_edb (N:=RN) exp tau dt e e b = e + (b - e) * exp (- (dt / tau)).
Proof. intros. rewrite edb_R by auto. to_R. field. lra. Qed.
Lemma const_steps : forall tau e, 0 < tau -> forall dts t b, Forall (Rlt 0) dts ->
  back_steps tau (fun _ => e) t b dts = e + (b - e) * exp (- (total_time dts / tau)).
Proof.
  intros tau e Htau. induction dts as [|dt dts IH]; intros t b HF.
  - cbn. unfold Rdiv. rewrite Rmult_0_l, Ropp_0, exp_0. ring.
  - inversion HF; subst. cbn [back_steps]. rewrite IH by auto. rewrite const_step by auto.
    change (total_time (dt :: dts)) with (dt + total_time dts).
    replace (- ((dt + total_time dts) / tau)) with (- (dt / tau) + - (total_time dts / tau)) by (field; lra). rewrite exp_plus. ring.
Qed.
Lemma const_merge : forall tau e dts t b, 0 < tau -> Forall (Rlt 0) dts -> dts <> [] ->
  back_steps tau (fun _ => e) t b dts = visco_edb (N:=RN) exp tau (total_time dts) e e b.
Proof.
  intros tau e dts t b Htau HF Hne. rewrite const_steps, const_step; auto.
  destruct dts as [|dt dts]; [contradiction|]. inversion HF; subst. pose proof (total_nonneg _ H2).
  change (total_time (dt :: dts)) with (dt + total_time dts). lra.
Qed.
Lemma decay_range : forall tau dt, 0 < tau -> 0 < dt -> 0 < exp (- (dt / tau)) < 1.
Proof.
  intros tau dt H1 H2. split; [apply exp_pos|]. rewrite <- exp_0. apply exp_increasing.
  assert (0 < dt / tau) by (apply Rmult_lt_0_compat; [auto|now apply Rinv_0_lt_compat]). lra.
Qed.
Lemma const_between : forall tau dt e b, 0 < tau -> 0 < dt ->
  let b' := visco_edb (N:=RN) exp tau dt e e b in
  (b < e -> b < b' < e) /\ (b = e -> b' = e) /\ (e < b -> e < b' < b) /\ Rabs (b' - e) <= Rabs (b - e).
Proof.
  intros tau dt e b H1 H2 b'. subst b'. rewrite const_step by auto. pose proof (decay_range tau dt H1 H2) as [D1 D2].
  set (q := exp (- (dt / tau))) in *. repeat split; try nra.
  replace (e + (b - e) * q - e) with ((b - e) * q) by ring. rewrite Rabs_mult, (Rabs_right q) by lra.
  pose proof (Rabs_pos (b - e)). nra.
Qed.
Lemma total_repeat : forall k dt, total_time (repeat dt k) = INR k * dt.
Proof. induction k; intros dt; [cbn; ring|]. rewrite S_INR. cbn [repeat total_time fold_right]. unfold total_time in IHk. rewrite IHk. ring. Qed.
Lemma Forall_repeat : forall k dt, 0 < dt -> Forall (Rlt 0) (repeat dt k).
Proof. induction k; intros; cbn; auto. Qed.
Lemma const_limit : forall tau dt e b, 0 < tau -> 0 < dt -> Un_cv (fun k => back_steps tau (fun _ => e) 0 b (repeat dt k)) e.
Proof.
  intros tau dt e b H1 H2. pose proof (decay_range tau dt H1 H2) as [D1 D2]. set (q := exp (- (dt / tau))) in *.
  assert (E : forall k, back_steps tau (fun _ => e) 0 b (repeat dt k) = e + (b - e) * q ^ k).
  { intros k. rewrite const_steps by (auto using Forall_repeat). rewrite total_repeat. f_equal. f_equal. unfold q. rewrite <- (Rmult_1_l tau) at 1.
    clear. induction k as [|k IH]; [cbn; unfold Rdiv; rewrite !Rmult_0_l, Ropp_0; apply exp_0|].
    rewrite S_INR. cbn [pow]. rewrite <- IH, <- exp_plus. f_equal. rewrite Rmult_1_l. unfold Rdiv. ring. }
  intros eps Heps. destruct (Req_dec (b - e) 0) as [Z|NZ].
  - exists 0%nat. intros k _. rewrite E, Z. unfold R_dist. replace (e + 0 * q ^ k - e) with 0 by ring. now rewrite Rabs_R0.
  - assert (0 < Rabs (b - e)) by (now apply Rabs_pos_lt).
    destruct (pow_lt_1_zero q) with (y := eps / Rabs (b - e)) as [n0 Hn0]; [rewrite Rabs_right; lra|apply Rmult_lt_0_compat; [lra|now apply Rinv_0_lt_compat]|].
    exists n0. intros k Hk. rewrite E. unfold R_dist. replace (e + (b - e) * q ^ k - e) with ((b - e) * q ^ k) by ring.
    rewrite Rabs_mult. specialize (Hn0 k Hk). apply Rmult_lt_reg_l with (/ Rabs (b - e)); [now apply Rinv_0_lt_compat|].
    rewrite <- Rmult_assoc, Rinv_l by lra. unfold Rdiv in Hn0. lra.
Qed.

(** ** the kernel: one step, then any number *)
Section Kernel.
  Variables (K MU lam tau : R) (n : nat) (nbrs : list (list nat)) (x : list vec) (v m dmg : list R).
  Hypothesis Htau : 0 < tau.

  Lemma edb_len : forall D (out : list (D * list R)) nb, length out = length nb ->
    (forall p js, nth_error nb p = Some js -> exists o, nth_error out p = Some o /\ length (snd o) = length js) ->
    length (flat_map snd out) = num_bonds nb.
  Proof.
    intros D out nb. revert out. induction nb as [|js nb IH]; intros [|o out] L H; try discriminate; [reflexivity|].
    destruct (H 0%nat js eq_refl) as (o' & E & Lo). injection E as <-.
    cbn [flat_map]. rewrite app_length, Lo. unfold num_bonds. cbn [map fold_right]. f_equal.
    apply IH; [now injection L|]. intros q js' Hq. exact (H (S q) js' Hq).
  Qed.

  Lemma visco_run_bond : forall dt yN y thN th edb f f' out, 0 < dt ->
    run_kernel (visco (N:=RN) exp K MU lam tau dt x yN y v m thN th dmg edb) nbrs f = Ok (f', out) ->
    length (new_edb (N:=RN) out) = num_bonds nbrs /\
    forall p k j e0 e1 b, bond_at nbrs p k j -> ext_at x yN dmg thN p k j e0 -> ext_at x y dmg th p k j e1 -> nth_error edb k = Some b ->
      nth_error (new_edb (N:=RN) out) k = Some (visco_edb (N:=RN) exp tau dt e0 e1 b).
  Proof.
    intros dt yN y thN th edb f f' out Hdt Hrun. destruct (outs_ok _ _ _ _ _ _ _ Hrun) as [L HO].
    split; [exact (edb_len _ out nbrs L HO)|].
    intros p k j e0 e1 b (js & i & Hp & Hi & ->) (X & XP & YN & YPN & d & t0 & A1 & A2 & A3 & A4 & A5 & A6 & A7) (X' & XP' & Y & YP & d' & t1 & B1 & B2 & B3 & B4 & B5 & B6 & B7) Hb.
    rewrite A1 in B1. injection B1 as <-. rewrite A2 in B2. injection B2 as <-. rewrite A5 in B5. injection B5 as <-.
    pose proof (run_out _ _ _ _ _ Hrun) as [_ HR]. destruct (HR p js Hp) as (D & ss & C1 & C2 & C3 & C4).
    destruct (C4 i j Hi) as (fb & s & D1 & D2).
    assert (Hlt : (i < length ss)%nat) by (apply nth_error_Some; rewrite D2; discriminate).
    assert (E : nth_error (new_edb (N:=RN) out) (offset nbrs p + i) = Some s).
    { unfold new_edb. rewrite <- (out_offset _ _ nbrs out L HO p).
      etransitivity; [exact (flat_nth _ _ (@snd _ (list (T RN))) out p (D, ss) i C1 Hlt)|exact D2]. }
    rewrite E. f_equal. cbn [pre bond visco] in C2, D1. split_bind C2. injection C2 as <-.
    apply at_ub_Ok in E0, E1, E2, E3, E4, E5. split_bind D1. apply at_ub_Ok in E6, E7, E8, E9, E10. apply Ok_pair in D1 as [_ ->].
    assert (a = X) by congruence. assert (a0 = YN) by congruence. assert (a1 = Y) by congruence. subst a a0 a1.
    assert (a5 = XP) by congruence. assert (a6 = YPN) by congruence. assert (a7 = YP) by congruence. subst a5 a6 a7.
    assert (a3 = t0) by (pose proof (eq_trans (eq_sym E4) A6) as W; now injection W).
    assert (a4 = t1) by (pose proof (eq_trans (eq_sym E5) B6) as W; now injection W).
    assert (a8 = d) by (pose proof (eq_trans (eq_sym E9) A5) as W; now injection W).
    assert (a9 = b) by (pose proof (eq_trans (eq_sym E10) Hb) as W; now injection W). subst a3 a4 a8 a9.
    rewrite !vlen_dist. rewrite A7, B7. reflexivity.
  Qed.

  Variables (Hx : length x = n) (Hnv : length v = n) (Hnn : (length nbrs <= n)%nat) (Hnb : Forall (Forall (fun j => (j < n)%nat)) nbrs).
  Variables (Lm : length m = length nbrs) (Ld : length dmg = num_bonds nbrs).
  Definition vstate_fits (s : visco_state (N:=RN)) : Prop :=
    length (fst (fst s)) = n /\ length (snd (fst s)) = length nbrs /\ length (snd s) = num_bonds nbrs.
  Let steps := visco_steps (N:=RN) exp K MU lam tau nbrs x v m dmg.

  Lemma visco_step_ok : forall s dt y th, vstate_fits s -> 0 < dt -> length y = n -> length th = length nbrs ->
    exists edb, visco_step (N:=RN) exp K MU lam tau nbrs x v m dmg s (dt, (y, th)) = Ok (y, th, edb) /\ length edb = num_bonds nbrs /\
      forall p k j e0 e1 b, bond_at nbrs p k j -> ext_at x (fst (fst s)) dmg (snd (fst s)) p k j e0 -> ext_at x y dmg th p k j e1 ->
        nth_error (snd s) k = Some b -> nth_error edb k = Some (visco_edb (N:=RN) exp tau dt e0 e1 b).
  Proof.
    intros [[yN thN] edbN] dt y th (S1 & S2 & S3) Hdt Ly Lth. cbn [fst snd] in *.
    assert (HI : visco_inputs (N:=RN) n nbrs x yN y v m thN th dmg edbN) by (repeat split; auto).
    pose proof (visco_total (N:=RN) exp K MU lam tau dt n nbrs x yN y v m thN th dmg edbN HI) as HT.
    assert (LZ : length (map (fun _ : vec => vzero (N:=RN)) x) = n) by now rewrite map_length.
    rewrite <- LZ in HT. destruct (run_total _ _ _ HT) as (f' & out & Hrun & _).
    destruct (visco_run_bond dt yN y thN th edbN _ f' out Hdt Hrun) as [L HB].
    exists (new_edb (N:=RN) out). split; [unfold visco_step; rewrite Hrun; reflexivity|]. split; [exact L|exact HB].
  Qed.

  Lemma visco_steps_exact : forall sts s, vstate_fits s -> steps_fit nbrs n sts ->
    exists s', steps s sts = Ok s' /\ vstate_fits s' /\
      forall p k j e b t0, bond_at nbrs p k j -> ext_at x (fst (fst s)) dmg (snd (fst s)) p k j (e t0) ->
        follows x dmg p k j e t0 sts -> relaxes tau e b t0 (t0 + total_time (map fst sts)) -> nth_error (snd s) k = Some (b t0) ->
        nth_error (snd s') k = Some (b (t0 + total_time (map fst sts))).
  Proof.
    induction sts as [|[dt [y th]] sts IH]; intros s HS HF.
    - exists s. split; [reflexivity|]. split; [exact HS|]. intros p k j e b t0 _ _ _ _ Hb. etransitivity; [exact Hb|]. cbn [map total_time fold_right]. do 2 f_equal. ring.
    - inversion HF as [|? ? (F1 & F2 & F3) F4]; subst. cbn [fst snd] in *.
      destruct (visco_step_ok s dt y th HS F1 F2 F3) as (edb & E1 & L1 & B1).
      destruct (IH (y, th, edb) (conj F2 (conj F3 L1)) F4) as (s' & E2 & L2 & B2).
      exists s'. split; [unfold steps, visco_steps in *; cbn [foldM]; match goal with |- bind _ ?g = _ => etransitivity; [exact (f_equal (fun z => bind z g) E1)|exact E2] end|]. split; [exact L2|].
      intros p k j e b t0 Hbond He (G1 & G2 & G3) HR Hb. cbn [map fst] in *.
      assert (ET : total_time (dt :: map fst sts) = dt + total_time (map fst sts)) by reflexivity. rewrite ET in *.
      assert (TN : 0 <= total_time (map fst sts)).
      { apply total_nonneg. clear - F4. induction F4 as [|a l Ha Hl IHl]; constructor; auto. apply Ha. }
      replace (t0 + (dt + total_time (map fst sts))) with (t0 + dt + total_time (map fst sts)) in * by ring.
      apply (B2 p k j e b (t0 + dt) Hbond); cbn [fst snd]; auto.
      + eapply relaxes_sub; [exact HR|lra|lra].
      + rewrite (one_piece tau e b t0 dt Htau F1 G1) by (eapply relaxes_sub; [exact HR|lra|lra]).
        exact (B1 p k j _ _ _ Hbond He G2 Hb).
  Qed.
End Kernel.

(** ** no Maxwell branch: the elastic solid *)
Lemma visco_elastic : forall K MU tau dt h n nbrs x yN y v m thN th dmg edb f,
  visco_inputs (N:=RN) n nbrs x yN y v m thN th dmg edb -> length f = n -> 
  exists f' out out2, run_kernel (visco (N:=RN) exp K MU 0 tau dt x yN y v m thN th dmg edb) nbrs f = Ok (f', out) /\
    run_kernel (lps (N:=RN) (fun _ _ => 1) K MU h 0 None x y v m th dmg None) nbrs f = Ok (f', out2).
Proof.
  intros K MU tau dt h n nbrs x yN y v m thN th dmg edb f HI Hf.
  refine (sim_id _ _ _ _ _ _ (fun p d1 d2 => exists X YN Y mp t0 t1, d1 = (X, YN, Y, mp, t0, t1) /\ d2 = (X, Y, mp, t1, None)) (fun _ _ _ => True) nbrs n _ _ f Hf).
  - exact (visco_total (N:=RN) exp K MU 0 tau dt n nbrs x yN y v m thN th dmg edb HI).
  - split; [|split].
    + intros p js d1 Hp H. cbn [pre visco] in H. split_bind H. injection H as <-.
      exists (a, a1, a2, a4, None). split; [|exists a, a0, a1, a2, a3, a4; auto].
      cbn [pre lps]. rewrite E. cbn [bind]. rewrite E1. cbn [bind]. rewrite E2. cbn [bind]. rewrite E4. reflexivity.
    + intros p k j d1 d2 fb s Hb (X & YN & Y & mp & t0 & t1 & -> & ->) H. cbn [bond visco] in H. split_bind H. apply Ok_pair in H as [-> _].
      exists tt. split; [|exact I]. cbn [bond lps]. rewrite E. cbn [bind]. rewrite E1. cbn [bind]. rewrite E2. cbn [bind].
      do 2 f_equal. unfold lps_t, visco_td, thermal. f_equal. to_R. unfold Rdiv. ring.
    + intros p k j r _ Hr. exact Hr.
Qed.
