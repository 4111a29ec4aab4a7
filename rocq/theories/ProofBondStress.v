(** * Stresses of the bonds of the bond-associated material *)
From Coq Require Import Reals Lra Lia.
From Verif Require Import Base Num ModelNeigh SpecDamage ModelForce SpecForce ModelCorr SpecCorr
  ProofData ProofDamage ProofForce ProofKernels ProofCorr ProofCorr2 ProofCorr3 ProofCorr4 ProofCorr5 ProofTangent ProofRot ProofRot2 ProofBondAssoc ProofBondAssoc2 ProofBondAssoc3 ProofBondAssoc4 ProofBondForce ProofBondForce2 ProofBondForce3 ProofBondForce4 ProofBondForce5
  ModelBondAssoc SpecBondAssoc SpecBondForce.
Local Open Scope R_scope.
Local Notation vec := (V3 RN).
Local Notation ten := (M3 RN).

Lemma bond_law : forall sinf cosf dt om xi dY dU F FP G GP s o Fb Gb, bond_step (N:=RN) sinf cosf dt om xi dY dU F FP G GP s = Ok o -> 0 < om -> vdot xi xi <> 0 ->
  bond_level (average (ent F) (ent FP)) xi dY Fb -> bond_level (average (ent G) (ent GP)) xi dU Gb ->
  exists L : ten, eq3 (prod (ent L) Fb) Gb /\ det3 Fb <> 0 /\ rotation_step (N:=RN) sinf cosf dt L (b_V s) (b_R s) = (b_V (fst o), b_R (fst o), snd o).
Proof.
  intros sinf cosf dt om xi dY dU F FP G GP s o Fb0 Gb0 H Hom NZx HL HG.
  set (Fb := bond_gradient (mean F FP) xi dY) in *. set (Gb := bond_gradient (mean G GP) xi dU) in *.
  assert (EF : eq3 Fb0 (ent Fb)). { eapply bond_level_unique; [exact NZx|exact HL|]. eapply bond_level_ext; [apply mean_average|]. now apply bond_gradient_level. }
  assert (EG : eq3 Gb0 (ent Gb)). { eapply bond_level_unique; [exact NZx|exact HG|]. eapply bond_level_ext; [apply mean_average|]. now apply bond_gradient_level. }
  unfold bond_step in H. cbv zeta in H. destruct (ltb (n:=RN) (ofZ 0) om) eqn:E; [|cbn in E; unfold Rltb in E; destruct (Rlt_dec 0 om); [discriminate|lra]].
  change (bond_gradient (mean F FP) xi dY) with Fb in H. change (bond_gradient (mean G GP) xi dU) with Gb in H. destruct (Req_dec (det3 (ent Fb)) 0) as [Z|NZ]; [rewrite (invert_singular _ Z) in H; discriminate|].
  destruct (invert_regular _ NZ) as (Fi & EI & I1 & I2). rewrite EI in H. cbn [Z.ltb Z.compare] in H. rewrite matmul_nn in H.
  exists (mul_nn Gb Fi). split; [|split].
  - intros i j Hi Hj. rewrite (EG i j Hi Hj). transitivity (ent (mul_nn (mul_nn Gb Fi) Fb) i j); [rewrite nn_ent by auto; unfold prod, sum3; rewrite !EF by lia; reflexivity|]. now rewrite nn_assoc, I2, nn_one_r.
  - unfold det3 in *. rewrite !(EF _ _) by lia. exact NZ.
  - destruct (rotation_step (N:=RN) sinf cosf dt (mul_nn Gb Fi) (b_V s) (b_R s)) as [[V1 R1] d]. injection H as <-. reflexivity.
Qed.
Lemma off_step : forall sinf cosf dt om xi dY dU F FP G GP s, om <= 0 -> bond_step (N:=RN) sinf cosf dt om xi dY dU F FP G GP s = Ok (s, mzero).
Proof.
  intros. unfold bond_step. destruct (ltb (n:=RN) (ofZ 0) om) eqn:E; [cbn in E; unfold Rltb in E; destruct (Rlt_dec 0 om); [lra|discriminate]|]. destruct s. reflexivity.
Qed.
Lemma law_bond : forall sinf cosf cauchy dt (x y vel : list vec) (v : list R) nbrs (s : ba_state (N:=RN)) Fs Gs st sN st1 s1 f p k j,
  ba_compute_force (N:=RN) sinf cosf cauchy dt x y vel v nbrs s Fs Gs st sN = Ok (st1, s1, f) -> length sN = num_bonds nbrs -> bond_at nbrs p k j ->
  exists b o sg, nth_error st k = Some b /\ nth_error st1 k = Some (fst o) /\ nth_error sN k = Some sg /\ nth_error s1 k = Some (cauchy dt (snd o) sg) /\
    step_of sinf cosf dt x y vel Fs Gs (om_of (s_wt s) k) p j b = Ok o.
Proof.
  intros * H LS HB. apply force_parts in H as (kin & Is & out & HK & -> & -> & _). pose proof (kin_spec _ _ _ _ _ _ _ _ _ _ _ _ HK) as [LK D]. destruct (D p k j HB) as (w & b & o & A1 & A2 & A3 & A4).
  assert (Hk : (k < num_bonds nbrs)%nat) by (eapply bond_at_bound; eauto). destruct (nth_error sN k) as [sg|] eqn:ES; [|apply nth_error_None in ES; lia].
  exists b, o, sg. split; auto. split; [now rewrite nth_error_map, A3|]. split; [reflexivity|]. split; [rewrite nth_error_map, nth_combine, A3, ES; reflexivity|]. now rewrite (om_nth _ _ _ A1).
Qed.
Lemma hooke_ent : forall K mu dt (d s : ten), eq3 (ent (hooke (N:=RN) K mu dt d s))
  (fun i c => ent s i c + 2 * mu * (dt * ent d i c - kron i c * (dt * tr3 (ent d)) / 3) + K * (dt * tr3 (ent d)) * kron i c).
Proof.
  intros K mu dt d s i c Hi Hc. destruct d as [d0 d1 d2 d3 d4 d5 d6 d7 d8], s as [s0 s1 s2 s3 s4 s5 s6 s7 s8]. unfold kron, tr3, sum3. ij i c Hi Hc; cbn; to_R; change (T RN) with R in *; field.
Qed.
Lemma hooke_zero : forall K mu dt (s : ten), hooke (N:=RN) K mu dt mzero s = s.
Proof.
  intros K mu dt s. apply M3_ext. intros i c Hi Hc. rewrite hooke_ent by auto. unfold tr3, sum3. replace (ent mzero i c) with 0 by (clear -Hi Hc; ij i c Hi Hc; reflexivity). cbn. change (T RN) with R in *. field.
Qed.
(** a translation changes no gradient *)
Lemma grad_sum_shift : forall (c : vec) v u u' wt U js k acc, (forall j, at_ub u' j = let? a := at_ub u j in Ok (vadd a c)) -> grad_sum (N:=RN) v u' wt (vadd U c) k js acc = grad_sum (N:=RN) v u wt U k js acc.
Proof.
  intros c v u u' wt U js. induction js as [|j js IH]; intros k acc H; cbn [grad_sum]; auto. destruct (at_ub v j); cbn [bind]; auto. rewrite H. destruct (at_ub u j) as [UP| |]; cbn [bind]; auto. destruct (at_ub wt k); cbn [bind]; auto.
  replace (vsub (vadd UP c) (vadd U c)) with (vsub UP U); [apply IH; auto|]. destruct UP as [a1 a2 a3], U as [b1 b2 b3], c as [c1 c2 c3]. apply v3_ext; cbn; to_R; change (T RN) with R; ring.
Qed.
Lemma gradients_shift : forall (c : vec) st v u u' wt nbrs p k, (forall j, at_ub u' j = let? a := at_ub u j in Ok (vadd a c)) -> gradients (N:=RN) st v u' wt p k nbrs = gradients (N:=RN) st v u wt p k nbrs.
Proof.
  intros c st v u u' wt. induction nbrs as [|js r IH]; intros p k H; cbn [gradients]; auto. rewrite H. destruct (at_ub u p) as [U| |]; cbn [bind]; auto. rewrite (grad_sum_shift c v u u') by auto. destruct (grad_sum _ _ _ _ _ _ _); cbn [bind]; auto. now rewrite IH.
Qed.
Lemma sym_hat : forall (w : vec) (L : ten), eq3 (ent L) (ent (turn w)) -> L = hat w.
Proof. intros w L H. apply M3_ext. intros i j Hi Hj. rewrite (H i j Hi Hj). clear. destruct w as [a b c]. destruct i as [|[|[|i]]], j as [|[|[|j]]]; cbn; to_R; change (T RN) with R; try ring; reflexivity. Qed.
Lemma spin_rate : forall sinf cosf dt (w : vec) V Q, snd (rotation_step (N:=RN) sinf cosf dt (hat w) V Q) = mzero.
Proof.
  intros sinf cosf dt w V Q. rewrite step_rate. cbv zeta. generalize (snd (fst (rotation_step (N:=RN) sinf cosf dt (hat w) V Q))). intros Q1. replace (rate_of_deformation (hat w)) with (mzero (N:=RN)).
  - apply M3_ext. intros i j Hi Hj. clear -Hi Hj. ij i j Hi Hj; cbn; to_R; change (T RN) with R; ring.
  - apply M3_ext. intros i j Hi Hj. rewrite rate_ent by auto. unfold sym_part. destruct w as [a b c]. clear -Hi Hj. ij i j Hi Hj; cbn; to_R; change (T RN) with R; field.
Qed.
Lemma spin_at : forall w c (y vel : list vec), spinning w c y vel -> forall j, at_ub vel j = let? a := at_ub (map (vcross w) y) j in Ok (vadd a c).
Proof.
  intros w c y vel H. induction H as [|Y U y vel H F IH]; intros [|j]; try reflexivity.
  - cbn. now rewrite H.
  - exact (IH j).
Qed.
Lemma spin_step_of : forall sinf cosf dt (x y u vel : list vec) (v : list R) nbrs (s : ba_state (N:=RN)) Fs Gs w c,
  mutual nbrs -> apart nbrs x (s_w0 s) -> length y = length nbrs -> (forall p, (p < length nbrs)%nat -> at3 y p = vadd (at3 x p) (at3 u p)) ->
  reproduces nbrs x v (s_wt s) -> deformation_gradients (N:=RN) v u (s_wt s) nbrs = Ok Fs -> velocity_gradients (N:=RN) v vel (s_wt s) nbrs = Ok Gs ->
  spinning w c y vel -> forall p k j b o, bond_at nbrs p k j -> 0 < om_of (s_wt s) k -> step_of sinf cosf dt x y vel Fs Gs (om_of (s_wt s) k) p j b = Ok o ->
  rotation_step (N:=RN) sinf cosf dt (hat w) (b_V b) (b_R b) = (b_V (fst o), b_R (fst o), snd o).
Proof.
  intros * MU AP Ly HY RP HF HG SP p k j b o HB Hom A5.
  pose proof (spin_at _ _ _ _ SP) as SA. unfold velocity_gradients in HG. rewrite (gradients_shift c mzero v (map (vcross w) y) vel (s_wt s) nbrs 0 0 SA) in HG.
  pose proof (turned_gradient w x y u v (s_wt s) nbrs Fs Gs RP MU ltac:(lia) HY HF HG) as TG.
  destruct (bond_at_parts _ _ _ _ HB) as (Hp & m & Hm & _ & Ej). assert (Hj : (j < length nbrs)%nat). { destruct MU as (_ & FB & _). rewrite Forall_forall in FB. specialize (FB (nth p nbrs []) (nth_In _ _ Hp)). rewrite Forall_forall in FB. apply FB. rewrite Ej. now apply nth_In. }
  destruct (AP p k j HB) as (NZ & _). set (Fb := bond_gradient (N:=RN) (mean (nth p Fs mzero) (nth j Fs mzero)) (between x p j) (between y p j)).
  assert (HL : bond_level (average (ent (nth p Fs mzero)) (ent (nth j Fs mzero))) (between x p j) (between y p j) (ent Fb)). { eapply bond_level_ext; [apply mean_average|]. now apply bond_gradient_level. }
  assert (HL2 : bond_level (average (ent (nth p Gs mzero)) (ent (nth j Gs mzero))) (between x p j) (between vel p j) (prod (ent (turn w)) (ent Fb))).
  { rewrite !TG by auto. replace (between vel p j) with (vcross w (between y p j)); [now apply turn_level|].
    assert (EV : forall q, (q < length nbrs)%nat -> at3 vel q = vadd (vcross w (at3 y q)) c). { intros q Hq. specialize (SA q). unfold at_ub in SA. destruct (nth_error vel q) as [a|] eqn:E1; [|exfalso; rewrite nth_error_map, (nth_error_nth' y vzero) in SA by lia; discriminate]. unfold at3 at 1. rewrite (nth_error_nth _ _ vzero E1). rewrite nth_error_map, (nth_error_nth' y vzero) in SA by lia. cbn in SA. injection SA as ->. reflexivity. }
    unfold between. rewrite !EV by auto. destruct w as [e1 e2 e3], c as [c1 c2 c3], (at3 y p) as [a1 a2 a3], (at3 y j) as [b1 b2 b3]. apply v3_ext; cbn; to_R; change (T RN) with R; ring. }
  destruct (bond_law _ _ _ _ _ _ _ _ _ _ _ _ _ _ _ A5 Hom NZ HL HL2) as (L & E1 & ND & E2). rewrite <- E2. f_equal. symmetry. apply sym_hat.
  destruct (invert_regular _ ND) as (Fi & _ & I1 & _). intros a q Ha Hq. assert (EM : mul_nn L Fb = mul_nn (turn w) Fb). { apply M3_ext. intros i l Hi Hl. rewrite !nn_ent by auto. apply E1; auto. }
  rewrite <- (nn_one_r L), <- I1, <- nn_assoc, EM, nn_assoc, I1, nn_one_r. reflexivity.
Qed.
Lemma spin_bond : forall sinf cosf cauchy dt (x y u vel : list vec) (v : list R) nbrs (s : ba_state (N:=RN)) Fs Gs st sN st1 s1 f w c,
  ba_compute_force (N:=RN) sinf cosf cauchy dt x y vel v nbrs s Fs Gs st sN = Ok (st1, s1, f) -> length sN = num_bonds nbrs ->
  mutual nbrs -> apart nbrs x (s_w0 s) -> length y = length nbrs -> (forall p, (p < length nbrs)%nat -> at3 y p = vadd (at3 x p) (at3 u p)) ->
  reproduces nbrs x v (s_wt s) -> deformation_gradients (N:=RN) v u (s_wt s) nbrs = Ok Fs -> velocity_gradients (N:=RN) v vel (s_wt s) nbrs = Ok Gs ->
  spinning w c y vel -> forall p k j, bond_at nbrs p k j -> 0 < om_of (s_wt s) k ->
  exists b o sg, nth_error st k = Some b /\ nth_error st1 k = Some (fst o) /\ nth_error sN k = Some sg /\ nth_error s1 k = Some (cauchy dt (snd o) sg) /\
    rotation_step (N:=RN) sinf cosf dt (hat w) (b_V b) (b_R b) = (b_V (fst o), b_R (fst o), snd o).
Proof.
  intros * H LS MU AP Ly HY RP HF HG SP p k j HB Hom. destruct (law_bond _ _ _ _ _ _ _ _ _ _ _ _ _ _ _ _ _ _ _ _ H LS HB) as (b & o & sg & A1 & A2 & A3 & A4 & A5). exists b, o, sg. repeat (split; [assumption|]).
  eapply spin_step_of; eauto.
Qed.
Section H.
Variables (omega : R -> R -> R) (K mu : R) (svd : list (list R) -> list (list R) * list R * list (list R)) (order : Z)
  (x : list vec) (v hs : list R) (nbrs : list (list nat)) (dt : R) (w0 : list R).
Hypothesis (MU : mutual nbrs) (AP : apart nbrs x w0) (EH : even_horizon nbrs hs) (OM : forall r h, 0 <= omega r h)
  (Lx : length x = length nbrs) (Lv : length v = length nbrs) (Ho : (1 <= order)%Z).
Variables (w : vec) (p k j : nat).
Hypothesis (HB : bond_at nbrs p k j) (OP : 0 < omega (vlen (between x p j)) (nth p hs 0)).
Definition unstretched (D : R) (sg : ten) (c : between_steps) : Prop := let '(_, _, st, sN) := c in exists b, nth_error st k = Some b /\ b_V b = mone /\ det3 (ent (b_R b)) = D /\ nth_error sN k = Some sg.
Lemma spin_one : forall dN1 dmg u vel c c1 f dmgN D sg, force_step omega sin cos (hooke (N:=RN) K mu) svd order x v hs nbrs dt (dN1, dmg, u, vel) c = Ok (c1, f) -> good omega svd order x v hs nbrs w0 dmgN c ->
  (forall q, (q < length nbrs)%nat -> own nbrs q dmg = own nbrs q dmgN \/ nth q (old_damage c) 0 + 1 / 1000000000000000 < nth q dN1 0) ->
  spin_step omega svd order x v hs nbrs w k (dN1, dmg, u, vel) -> unstretched D sg c -> unstretched ((1 + excess dt w) * D) sg c1.
Proof.
  intros dN1 dmg u vel [[[s dN] st] sN] c1 f dmgN D sg H (G1 & G2 & G3 & G4 & G5 & G6 & G7) HR ([ED1 ED2] & Lu & AR & ND & c & SP) (b & B1 & B2 & B3 & B4). cbn [old_damage] in HR.
  unfold force_step in H. apply bind_Ok in H as ([[s1 Fs] Gs] & HP & H). apply bind_Ok in H as ([[st1 sg1] f'] & HC & H). injection H as <- <-.
  destruct (precompute_fresh _ _ _ _ _ _ _ _ _ _ _ _ _ _ _ _ _ HP G1 G2 HR) as (A & B & HF & HG & W). assert (AP1 : apart nbrs x (s_w0 s1)) by (rewrite W, G3; exact AP).
  assert (LM : length (moved x u) = length nbrs) by (unfold moved; rewrite map_length, combine_length; lia).
  assert (Hom : 0 < om_of (s_wt s1) k). { destruct (fresh_bond _ _ _ _ _ _ _ _ _ B p k j HB) as (ww & d & C1 & C2 & C3 & _). rewrite (om_nth _ _ _ C1), C3. change (T RN) with R in *. rewrite (nth_error_nth _ _ 0 C2) in ND. apply Rmult_lt_0_compat; lra. }
  destruct (spin_bond sin cos (hooke (N:=RN) K mu) dt x (moved x u) u vel v nbrs s1 Fs Gs st sN st1 sg1 f' w c HC G4 MU AP1 LM) with (p := p) (k := k) (j := j) as (b' & o & sg' & E1 & E2 & E3 & E4 & E5); auto.
  - intros q Hq. apply at3_moved; lia.
  - eapply fresh_reproduces; eauto.
  - rewrite B1 in E1. injection E1 as <-. rewrite B4 in E3. injection E3 as <-. rewrite B2 in E5. destruct (step_spin dt w (b_R b)) as [S1 S2]. rewrite E5 in S1, S2. cbn [fst snd] in S1, S2. injection S1 as S1 S3.
    exists (fst o). split; [exact E2|]. split; [exact S1|]. split; [|rewrite E4, S2; f_equal; apply hooke_zero].
    pose proof (step_det dt (hat w) mone (b_R b)) as SD. rewrite E5 in SD. cbn [fst snd] in SD. rewrite SD, B3. do 3 f_equal. unfold angular. cbv zeta. destruct (invert (trace_minus mone)) as [[rc d] ti]. destruct w as [wa wb wc]. apply v3_ext; cbn; to_R; change (T RN) with R in *; unfold half; cbn; lra.
Qed.
Lemma spin_steps : forall es c c1 dmgN D sg, force_steps omega sin cos (hooke (N:=RN) K mu) svd order x v hs nbrs dt es c = Ok c1 -> good omega svd order x v hs nbrs w0 dmgN c ->
  reported nbrs (old_damage c) dmgN es -> Forall (spin_step omega svd order x v hs nbrs w k) es -> unstretched D sg c -> unstretched ((1 + excess dt w) ^ length es * D) sg c1.
Proof.
  induction es as [|[[[d1 dm] u] vel] es IH]; intros c c1 dmgN D sg H G RP FE U; unfold force_steps in H; cbn [foldM] in H.
  - injection H as <-. cbn [length pow]. rewrite Rmult_1_l. exact U.
  - apply bind_Ok in H as (c2 & H1 & H). apply bind_Ok in H1 as ([c2' f] & H1 & E). injection E as <-. inversion FE as [|? ? F1 F2]; subst. pose proof F1 as (F3 & F4 & _). destruct RP as [R1 R2].
    destruct (good_step omega sin cos (hooke (N:=RN) K mu) svd order x v hs nbrs dt w0 MU AP (hooke_sym K mu) EH OM Lx Lv _ _ _ _ _ _ _ _ H1 G R1 F3 F4) as (G' & E & _). rewrite <- E in R2.
    pose proof (spin_one _ _ _ _ _ _ _ _ _ _ H1 G R1 F1 U) as U'. pose proof (IH _ _ _ _ _ H G' R2 F2 U') as Z. cbn [length pow]. replace ((1 + excess dt w) * (1 + excess dt w) ^ length es * D) with ((1 + excess dt w) ^ length es * ((1 + excess dt w) * D)) by ring. exact Z.
Qed.
End H.
