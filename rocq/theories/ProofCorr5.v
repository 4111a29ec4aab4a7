(** * computeForce of the correspondence materials *)
From Coq Require Import Reals Lra Lia.
From Verif Require Import Base Num ModelNeigh SpecDamage ModelForce ModelCorr SpecCorr ProofData ProofDamage ProofForce ProofKernels ProofFrame ProofMaterial ProofCorr ProofCorr2 ProofCorr3 ProofCorr4.
From Verif Require Import SpecForce.
Local Open Scope R_scope.
Local Notation vec := (V3 RN).
Local Notation ten := (M3 RN).

Lemma corr_force_moment : forall omega n nbrs (x y : list vec) (v hs : list R) geo stress dmg f f' out, corr_inputs n nbrs x y v hs ->
  geo_of omega x y v hs nbrs geo -> (forall p X h nbs, neighbourhood x v hs nbrs p X h nbs -> det3 (shape omega h X nbs) <> 0) ->
  (forall p s, nth_error stress p = Some s -> symmetric (ent s)) -> length f = n ->
  run_kernel (corr_force (N:=RN) omega x v hs geo stress dmg) nbrs f = Ok (f', out) -> moment v y f' = moment v y f.
Proof.
  intros omega n nbrs x y v hs geo stress dmg f f' out HI HG HD HS Hf H. pose proof (run_len _ _ _ _ _ H) as L'.
  pose proof HI as ((C1 & C2 & C3 & C4 & C5) & Hh).
  assert (G : forall pr : vec -> R, (forall a b, pr (vadd a b) = pr a + pr b) -> (forall a b, pr (vsub a b) = pr a - pr b) ->
     (forall k a, pr (vscale (N:=RN) k a) = k * pr a) -> pr vzero = 0 -> pr (moment v y f') = pr (moment v y f)).
  { intros pr P1 P2 P3 P5.
    assert (Ca : forall q a b : vec, vcross q (vadd a b) = vadd (vcross q a) (vcross q b))
      by (intros [] [] []; apply v3_ext; cbn; to_R; ring).
    assert (Cs : forall q a b : vec, vcross q (vsub a b) = vsub (vcross q a) (vcross q b))
      by (intros [] [] []; apply v3_ext; cbn; to_R; ring).
    rewrite !(moment_gsum pr P1 P3 P5 _ v y 0 v y) by (auto; change (T RN) with R in *; congruence).
    eapply run_delta; [| |exact H].
    - intros i. split; intros; [rewrite Ca, P1|rewrite Cs, P2]; ring.
    - intros p js d Hp Hd. destruct (neighbourhood_ok _ _ _ _ _ _ _ _ HI Hp) as (X & h & nbs & HN).
      destruct (HG p js X h nbs Hp HN) as (Y & K & F1 & [Ki F] & Eg & EY & ES & HK & EF & Hinv & _). cbn [fst snd] in *.
      destruct (Hinv (HD p X h nbs HN)) as [I1 I2]. pose proof HN as (js' & _ & EX & EH & _).
      cbn [pre corr_force] in Hd. split_bind Hd.
      apply at_ub_Ok in E0, E1. rewrite Eg in E0. injection E0 as <-. cbn [fst snd] in Hd.
      apply bind_Ok in Hd as [P [EP Hd]]. apply bind_Ok in Hd as [X' [EX' Hd]]. apply Ok_eq in Hd. subst d.
      apply at_ub_Ok in EX'. rewrite EX in EX'. injection EX' as <-. apply at_ub_Ok in E. pose proof (eq_trans (eq_sym EH) E) as Eh. injection Eh as <-.
      assert (p < length nbrs)%nat by (apply nth_error_Some; congruence).
      destruct (nth_error v p) as [vp|] eqn:EV; [|exfalso; apply nth_error_None in EV; change (T RN) with R in *; lia].
      rewrite matmul_nn.
      etransitivity; [exact (corr_delta pr P1 P2 P3 omega x y v hs geo stress dmg p X Y h (mul_nn P Ki) vp EV (nth_error_nth y p vzero EY) js (offset nbrs p) mzero mzero K F1 ES)|].
      destruct (piola_ok F a1 P EP) as (_ & HP & _).
      rewrite (axial_sym (mul_nt F1 (mul_nn P Ki))).
      + replace (axial (mul_nt mzero (mul_nn P Ki))) with (@vzero RN) by (apply v3_ext; cbn; rring). rewrite P5. ring.
      + eapply (corr_balance F1 F K Ki a1 P); eauto; [eapply shape_sums_sym; eauto|].
        apply (HS p a1) in E1. apply symmetric_iff in E1. rewrite <- E1 at 2. mext. }
  apply v3_ext; [apply (G (@vx RN))|apply (G (@vy RN))|apply (G (@vz RN))]; intros; reflexivity.
Qed.

(** ** sums of the two forces *)
Lemma momentum_update : forall (v : list R) (a b : list vec), length a = length b -> momentum v (update a b) = vadd (momentum v a) (momentum v b).
Proof.
  intros v a b H. revert v b H. induction a as [|u a IH]; intros v [|w b] H; try discriminate.
  - destruct v; apply v3_ext; cbn; rring.
  - destruct v as [|r v]; [apply v3_ext; cbn; rring|]. unfold update. cbn [combine map momentum fst snd]. fold (update a b). rewrite IH by (simpl in H; lia).
    generalize (momentum v a) (momentum v b). intros [] []. destruct u, w. apply v3_ext; cbn; rring.
Qed.
Lemma moment_update : forall (v : list R) (y a b : list vec), length a = length b -> moment v y (update a b) = vadd (moment v y a) (moment v y b).
Proof.
  intros v y a b H. revert v y b H. induction a as [|u a IH]; intros v y [|w b] H; try discriminate.
  - destruct v, y; apply v3_ext; cbn; rring.
  - destruct v as [|r v]; [apply v3_ext; cbn; rring|]. destruct y as [|q y]; [apply v3_ext; cbn; rring|]. unfold update. cbn [combine map moment fst snd]. fold (update a b). rewrite IH by (simpl in H; lia).
    generalize (moment v y a) (moment v y b). intros [] []. destruct u, w, q. apply v3_ext; cbn; rring.
Qed.

Lemma rotate_stress_eq : forall Q s : ten, rotate_stress Q s = mul_nn Q (mul_nn s (mtrans Q)).
Proof. intros. unfold rotate_stress. rewrite matmul_nt, matmul_nn, nt_trans. reflexivity. Qed.
Lemma rotate_stress_sym : forall Q s : ten, symmetric (ent s) -> symmetric (ent (rotate_stress Q s)).
Proof.
  intros Q s H. apply symmetric_iff in H. apply symmetric_iff. rewrite rotate_stress_eq, trans_nn, trans_nn, trans_trans, H. now rewrite nn_assoc.
Qed.
Lemma nth_combine_snd : forall A B (a : list A) (b : list B) i u, nth_error (combine a b) i = Some u -> nth_error b i = Some (snd u).
Proof. induction a; intros b i u H; [destruct i; discriminate|]. destruct b, i; simpl in *; try discriminate; [injection H as <-; reflexivity|eauto]. Qed.

Lemma correspondence_parts : forall omega sinf cosf cauchy bulk coef dt n nbrs (x y vel : list vec) (v hs : list R) st sN dmg f st' s' ps,
  corr_inputs n nbrs x y v hs ->
  correspondence (N:=RN) omega sinf cosf cauchy bulk coef dt x y vel v hs nbrs st sN dmg = Ok (f, st', s', ps) ->
  exists geo rs f1 out f2 out2,
    deformation (N:=RN) omega x y v hs nbrs = Ok (0%Z, geo) /\ length geo = length nbrs /\ geo_of omega x y v hs nbrs geo /\
    (forall p X h nbs, neighbourhood x v hs nbrs p X h nbs -> det3 (shape omega h X nbs) <> 0) /\
    rates (N:=RN) omega sinf cosf dt x vel v hs nbrs geo st = Ok (0%Z, rs) /\ cauchy (map snd rs) sN = Ok s' /\ st' = map fst rs /\
    run_kernel (corr_force (N:=RN) omega x v hs geo (map (fun rs => rotate_stress (snd (fst (fst rs))) (snd rs)) (combine rs s')) dmg) nbrs (repeat vzero n) = Ok (f1, out) /\
    run_kernel (hourglass (N:=RN) bulk coef x y v hs geo) nbrs (repeat vzero n) = Ok (f2, out2) /\
    f = update f2 f1 /\ ps = map (fun o => partial_stress (snd o)) out.
Proof.
  intros omega sinf cosf cauchy bulk coef dt n nbrs x y vel v hs st sN dmg f st' s' ps HI H. unfold correspondence in H.
  destruct (deformation_ok omega n nbrs x y v hs HI) as (code & geo & ED & Lg & HG & HC). rewrite ED in H. cbn [bind] in H.
  destruct (Z.eqb_spec code 0) as [->|]; [|discriminate]. cbn [negb] in H.
  apply bind_Ok in H as [[c2 rs] [ER H]]. destruct (Z.eqb_spec c2 0) as [->|]; [|discriminate]. cbn [negb] in H.
  apply bind_Ok in H as [s1 [EC H]]. cbv zeta in H. apply bind_Ok in H as [[f1 out] [E1 H]]. apply bind_Ok in H as [[f2 out2] [E2 H]].
  apply Ok_eq in H. injection H as <- <- <- <-. pose proof HI as ((C1 & _) & _). rewrite C1 in E1, E2.
  exists geo, rs, f1, out, f2, out2. repeat split; auto. now apply HC.
Qed.

Lemma correspondence_momentum : forall omega sinf cosf cauchy bulk coef dt n nbrs (x y vel : list vec) (v hs : list R) st sN dmg f st' s' ps,
  corr_inputs n nbrs x y v hs ->
  correspondence (N:=RN) omega sinf cosf cauchy bulk coef dt x y vel v hs nbrs st sN dmg = Ok (f, st', s', ps) ->
  length f = n /\ momentum v f = vzero.
Proof.
  intros omega sinf cosf cauchy bulk coef dt n nbrs x y vel v hs st sN dmg f st' s' ps HI H.
  destruct (correspondence_parts _ _ _ _ _ _ _ _ _ _ _ _ _ _ _ _ _ _ _ _ _ HI H) as (geo & rs & f1 & out & f2 & out2 & ED & Lg & HG & HC & ER & EC & Es & E1 & E2 & Ef & Ep).
  pose proof HI as ((C1 & C2 & C3 & C4 & C5) & Hh).
  pose proof (run_len _ _ _ _ _ E1) as L1. pose proof (run_len _ _ _ _ _ E2) as L2. rewrite repeat_length in L1, L2.
  split.
  - subst f. unfold update. rewrite map_length, combine_length, L1, L2. apply Nat.min_id.
  - subst f. rewrite momentum_update by congruence.
    rewrite (run_momentum _ _ _ nbrs v (cell_volumes_balanced _ _ (corr_force (N:=RN) omega x v hs geo _ dmg) nbrs v eq_refl) _ _ _ (eq_trans C3 (eq_sym (repeat_length _ n))) E1).
    rewrite (run_momentum _ _ _ nbrs v (cell_volumes_balanced _ _ (hourglass (N:=RN) bulk coef x y v hs geo) nbrs v eq_refl) _ _ _ (eq_trans C3 (eq_sym (repeat_length _ n))) E2).
    rewrite momentum_zero. apply v3_ext; cbn; rring.
Qed.
Lemma correspondence_moment : forall omega sinf cosf cauchy bulk coef dt n nbrs (x y vel : list vec) (v hs : list R) st sN dmg f st' s' ps,
  corr_inputs n nbrs x y v hs ->
  correspondence (N:=RN) omega sinf cosf cauchy bulk coef dt x y vel v hs nbrs st sN dmg = Ok (f, st', s', ps) ->
  (forall s, In s s' -> symmetric (ent s)) -> moment v y f = vzero.
Proof.
  intros omega sinf cosf cauchy bulk coef dt n nbrs x y vel v hs st sN dmg f st' s' ps HI H HS.
  destruct (correspondence_parts _ _ _ _ _ _ _ _ _ _ _ _ _ _ _ _ _ _ _ _ _ HI H) as (geo & rs & f1 & out & f2 & out2 & ED & Lg & HG & HC & ER & EC & Es & E1 & E2 & Ef & Ep).
  pose proof HI as ((C1 & C2 & C3 & C4 & C5) & Hh).
  pose proof (run_len _ _ _ _ _ E1) as L1. pose proof (run_len _ _ _ _ _ E2) as L2. rewrite repeat_length in L1, L2.
  subst f. rewrite moment_update by congruence.
  rewrite (corr_force_moment omega n nbrs x y v hs geo (map (fun rs => rotate_stress (snd (fst (fst rs))) (snd rs)) (combine rs s')) dmg (repeat vzero n) f1 out HI HG HC); [| |apply repeat_length|exact E1].
  - rewrite (run_moment _ _ _ nbrs v y (cell_volumes_balanced _ _ (hourglass (N:=RN) bulk coef x y v hs geo) nbrs v eq_refl) (hourglass_parallel _ _ _ _ _ _ _ _) _ _ _ (eq_trans C3 (eq_sym (repeat_length _ n))) (eq_trans C2 (eq_sym (repeat_length _ n))) E2).
    rewrite moment_zero. apply v3_ext; cbn; rring.
  - intros p s Hp. rewrite nth_error_map in Hp. destruct (nth_error (combine rs s') p) as [u|] eqn:EU; [|discriminate]. injection Hp as <-.
    apply rotate_stress_sym. apply HS. eapply nth_error_In. eapply nth_combine_snd. exact EU.
Qed.

(** ** partial stress *)
Lemma partial_go : forall l (acc : ten), fold_left madd l acc = madd acc (fold_left madd l mzero).
Proof.
  induction l as [|a l IH]; intros acc; cbn [fold_left]; [mext|]. rewrite IH, (IH (madd mzero a)). 
  generalize (fold_left madd l (@mzero RN)). intros s. mext.
Qed.
Lemma partial_cons : forall a (l : list ten), partial_stress (a :: l) = madd a (partial_stress l).
Proof. intros a l. unfold partial_stress. cbn [fold_left]. rewrite partial_go. replace (madd mzero a) with a by mext. reflexivity. Qed.
(** the contributions of the bonds add up to the matrix times the shape tensor *)
Lemma partial_sum : forall (omega : R -> R -> R) (x y : list vec) (v hs : list R) geo stress dmg p X Y h (B : ten) js k accK accF K F1 ss,
  foldM (fun acc j =>
      let? vj := at_ub v j in let? XP := at_ub x j in let? YP := at_ub y j in
      let dX := vsub XP X in let dY := vsub YP Y in
      let temp := mul (n:=RN) (mul (n:=RN) (sub (ofZ 1) (ofZ 0)) (omega (vlen dX) h)) vj in
      Ok (madd (fst acc) (outer temp dX dX), madd (snd acc) (outer temp dY dX))) (accK, accF) js = Ok (K, F1) ->
  length ss = length js ->
  (forall n j, nth_error js n = Some j -> exists fb s, bond _ _ (corr_force (N:=RN) omega x v hs geo stress dmg) (X, h, B) p (k + n) j = Ok (fb, s) /\ nth_error ss n = Some s) ->
  madd (mul_nn B accK) (partial_stress ss) = mul_nn B K.
Proof.
  intros omega x y v hs geo stress dmg p X Y h B. induction js as [|j js IH]; intros k accK accF K F1 ss H L HB; cbn [foldM] in H.
  - destruct ss; [|discriminate]. injection H as <- _. unfold partial_stress. cbn [fold_left]. mext.
  - destruct ss as [|s ss]; [discriminate|].
    apply bind_Ok in H as [s1 [E H]]. apply bind_Ok in E as [vj [E1 E]]. apply bind_Ok in E as [XP [E2 E]]. apply bind_Ok in E as [YP [E3 E]].
    apply Ok_eq in E. cbv zeta in E. subst s1. cbn [fst snd] in H.
    destruct (HB 0%nat j eq_refl) as (fb & s' & Eb & Es). cbn in Es. injection Es as <-.
    rewrite <- (IH (S k) _ _ _ _ ss H).
    + rewrite partial_cons. cbn [bond corr_force] in Eb. rewrite E2 in Eb. cbn [bind] in Eb. rewrite (E1 : at_ub (A:=T RN) v j = Ok vj) in Eb. cbn [bind] in Eb.
      apply Ok_eq in Eb. cbv zeta in Eb. apply (f_equal snd) in Eb. cbn [snd] in Eb. subst s.
      generalize (partial_stress ss) (omega (vlen (vsub XP X)) h). intros t w. generalize (vsub XP X). intros d. mext.
    + simpl in L. lia.
    + intros n j' Hn. destruct (HB (S n) j' Hn) as (fb' & s'' & Q1 & Q2). exists fb', s''. rewrite Nat.add_succ_r in Q1. auto.
Qed.
Lemma partial_is_piola : forall omega n nbrs (x y : list vec) (v hs : list R) geo stress dmg f f' out, corr_inputs n nbrs x y v hs ->
  geo_of omega x y v hs nbrs geo -> (forall p X h nbs, neighbourhood x v hs nbrs p X h nbs -> det3 (shape omega h X nbs) <> 0) ->
  run_kernel (corr_force (N:=RN) omega x v hs geo stress dmg) nbrs f = Ok (f', out) ->
  length out = length nbrs /\
  forall p o g s, nth_error out p = Some o -> nth_error geo p = Some g -> nth_error stress p = Some s ->
    piola_of (ent (snd g)) (ent s) (ent (partial_stress (snd o))).
Proof.
  intros omega n nbrs x y v hs geo stress dmg f f' out HI HG HD H. destruct (run_out _ _ _ _ _ H) as [L RO]. split; [exact L|].
  intros p o g s Ho Hg Hs.
  assert (p < length nbrs)%nat by (rewrite <- L; apply nth_error_Some; congruence).
  destruct (nth_error nbrs p) as [js|] eqn:Hp; [|exfalso; apply nth_error_None in Hp; lia].
  destruct (RO p js Hp) as (d & ss & Eo & Hd & Ls & HB). rewrite Ho in Eo. injection Eo as ->. cbn [snd].
  destruct (neighbourhood_ok _ _ _ _ _ _ _ _ HI Hp) as (X & h & nbs & HN).
  destruct (HG p js X h nbs Hp HN) as (Y & K & F1 & [Ki F] & Eg & EY & ES & HK & EF & Hinv & _). rewrite Hg in Eg. injection Eg as ->. cbn [fst snd] in *.
  destruct (Hinv (HD p X h nbs HN)) as [I1 I2]. pose proof HN as (js' & _ & EX & EH & _).
  cbn [pre corr_force] in Hd. split_bind Hd. apply at_ub_Ok in E0, E1. rewrite Hg in E0. injection E0 as <-. rewrite Hs in E1. injection E1 as <-. cbn [fst snd] in Hd.
  apply bind_Ok in Hd as [P [EP Hd]]. apply bind_Ok in Hd as [X' [EX' Hd]]. apply Ok_eq in Hd. subst d.
  apply at_ub_Ok in EX'. rewrite EX in EX'. injection EX' as <-. apply at_ub_Ok in E. pose proof (eq_trans (eq_sym EH) E) as Eh. injection Eh as <-.
  rewrite matmul_nn in HB. pose proof (partial_sum omega x y v hs geo stress dmg p X Y h (mul_nn P Ki) js (offset nbrs p) mzero mzero K F1 ss ES Ls HB) as EQ.
  replace (madd (mul_nn (mul_nn P Ki) mzero) (partial_stress ss)) with (partial_stress ss) in EQ by (generalize (partial_stress ss); intros t; mext).
  rewrite EQ, nn_assoc, I2, nn_one_r. now destruct (piola_ok F s P EP) as (_ & _ & HP).
Qed.
