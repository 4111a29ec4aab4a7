(** * Histories, uniform stress, broken bonds, stops *)
From Coq Require Import Reals Lra Lia.
From Verif Require Import Base Num ModelNeigh SpecDamage ModelForce SpecForce ModelCorr SpecCorr
  ProofData ProofDamage ProofForce ProofKernels ProofCorr ProofCorr2 ProofCorr3 ProofCorr4 ProofCorr5 ProofTangent ProofBondAssoc ProofBondAssoc2 ProofBondAssoc3 ProofBondAssoc4 ProofBondForce ProofBondForce2 ProofBondForce3 ProofBondForce4
  ModelBondAssoc SpecBondAssoc SpecBondForce.
Local Open Scope R_scope.
Local Notation vec := (V3 RN).
Local Notation ten := (M3 RN).

Lemma force_momentum : forall sinf cosf cauchy dt x y vel (v : list R) nbrs s Fs Gs st sN st1 s1 f,
  ba_compute_force (N:=RN) sinf cosf cauchy dt x y vel v nbrs s Fs Gs st sN = Ok (st1, s1, f) -> length v = length y -> momentum v f = vzero.
Proof.
  intros * H L. apply force_parts in H as (kin & Is & out & _ & _ & _ & _ & HR).
  match type of HR with run_kernel ?K _ _ = _ => pose proof (run_momentum _ _ K nbrs v (cell_volumes_balanced _ _ K nbrs v eq_refl) _ _ _ ltac:(rewrite repeat_length; exact L) HR) as E end.
  rewrite E. apply mom_zero.
Qed.
Lemma at3_moved : forall (x u : list vec) p, (p < length x)%nat -> length u = length x -> at3 (moved x u) p = vadd (at3 x p) (at3 u p).
Proof.
  intros x u p H L. unfold moved, at3. rewrite (nth_indep _ vzero ((fun c => vadd (fst c) (snd c)) (vzero (N:=RN), vzero (N:=RN)))) by (rewrite map_length, combine_length; lia).
  rewrite (map_nth (fun c => vadd (fst c) (snd c))), combine_nth by auto. reflexivity.
Qed.

Section H.
Variables (omega : R -> R -> R) (sinf cosf : R -> R) (cauchy : R -> ten -> ten -> ten) (svd : list (list R) -> list (list R) * list R * list (list R)) (order : Z)
  (x : list vec) (v hs : list R) (nbrs : list (list nat)) (dt : R) (w0 : list R).
Definition good (dmg : list R) (c : between_steps) : Prop :=
  let '(s, dN, st, sN) := c in settled nbrs (s_flags s) /\ all_fresh omega svd order x v hs nbrs dmg (s_wt s) /\ s_w0 s = w0 /\ length sN = num_bonds nbrs /\
    two_sided nbrs st /\ two_sided nbrs sN /\ Forall (fun a => symmetric (ent a)) sN.
Definition old_damage (c : between_steps) : list R := let '(_, dN, _, _) := c in dN.
Hypothesis (MU : mutual nbrs) (AP : apart nbrs x w0) (KS : keeps_symmetric cauchy) (EH : even_horizon nbrs hs) (OM : forall r h, 0 <= omega r h)
  (Lx : length x = length nbrs) (Lv : length v = length nbrs).
Lemma good_step : forall dN1 dmg u vel c c1 f dmgN, force_step omega sinf cosf cauchy svd order x v hs nbrs dt (dN1, dmg, u, vel) c = Ok (c1, f) -> good dmgN c ->
  (forall p, (p < length nbrs)%nat -> own nbrs p dmg = own nbrs p dmgN \/ nth p (old_damage c) 0 + 1 / 1000000000000000 < nth p dN1 0) -> even_damage nbrs dmg ->
  length u = length x ->
  good dmg c1 /\ old_damage c1 = dN1 /\ momentum v f = vzero /\ ((1 <= order)%Z -> all_resolved omega svd order x v hs nbrs dmg -> moment v (moved x u) f = vzero).
Proof.
  intros dN1 dmg u vel [[[s dN] st] sN] c1 f dmgN H (G1 & G2 & G3 & G4 & G5 & G6 & G7) HR [ED1 ED2] Lu. cbn [old_damage] in HR. unfold force_step in H. apply bind_Ok in H as ([[s1 Fs] Gs] & HP & H). apply bind_Ok in H as ([[st1 sg1] f'] & HC & H). injection H as <- <-.
  destruct (precompute_fresh _ _ _ _ _ _ _ _ _ _ _ _ _ _ _ _ _ HP G1 G2 HR) as (A & B & HF & HG & W).
  pose proof (fresh_two _ _ _ _ _ _ _ _ _ B EH ED1) as TW. pose proof (fresh_proper _ _ _ _ _ _ _ _ _ B OM ED2) as PW. assert (AP1 : apart nbrs x (s_w0 s1)) by (rewrite W, G3; exact AP).
  pose proof (force_keeps _ _ _ _ _ _ _ _ _ _ _ _ _ _ _ _ _ HC AP1 TW KS G4 G5 G6 G7) as (K1 & K2 & K3 & K4).
  assert (LM : length (moved x u) = length nbrs) by (unfold moved; rewrite map_length, combine_length; lia).
  split; [repeat split; auto; try apply A; try apply B; congruence|]. split; [reflexivity|]. split; [eapply force_momentum; [exact HC|change (T RN) with R in *; lia]|].
  intros Ho AR. pose proof (force_len _ _ _ _ _ _ _ _ _ _ _ _ _ _ _ _ _ HC) as LF. apply moment_power; try (change (T RN) with R in *; lia). intros e.
  eapply (turn_power sinf cosf cauchy dt x (moved x u) u vel v nbrs s1 Fs Gs st sN st1 sg1 _ e HC); eauto; try (apply B).
  - intros p Hp. apply at3_moved; lia.
  - eapply fresh_reproduces; eauto.
Qed.
Lemma good_steps : forall e es c c1 dmgN, force_steps omega sinf cosf cauchy svd order x v hs nbrs dt es c = Ok c1 -> good dmgN c ->
  reported nbrs (old_damage c) dmgN (es ++ [e]) -> Forall (fun e => even_damage nbrs (snd (fst (fst e))) /\ length (snd (fst e)) = length x) (es ++ [e]) ->
  exists dmg, good dmg c1 /\ reported nbrs (old_damage c1) dmg [e].
Proof.
  intros e. induction es as [|[[[d1 dm] u] vel] es IH]; intros c c1 dmgN H G RP FE; unfold force_steps in H; cbn [foldM] in H.
  - injection H as <-. exists dmgN. auto.
  - apply bind_Ok in H as (c2 & H1 & H). apply bind_Ok in H1 as ([c2' f] & H1 & E). injection E as <-. cbn [app] in FE. inversion FE as [|? ? F1 F2]; subst. cbn [fst snd] in F1. destruct F1 as [F1 F1']. destruct RP as [R1 R2].
    destruct (good_step _ _ _ _ _ _ _ _ H1 G R1 F1 F1') as (G' & E & _). rewrite <- E in R2. eapply IH; eauto.
Qed.
End H.
Lemma good_start : forall omega svd order (x : list vec) (v hs : list R) nbrs s0 d0, ba_initialize (N:=RN) omega svd order x v hs nbrs = Ok s0 ->
  good omega svd order x v hs nbrs (s_w0 s0) (repeat 0 (num_bonds nbrs)) (s0, d0, ba_bonds (N:=RN) nbrs, ba_stresses (N:=RN) nbrs).
Proof.
  intros * H. destruct (initialize_fresh _ _ _ _ _ _ _ _ H) as (A & B & _).
  assert (NB : length (concat nbrs) = num_bonds nbrs) by (clear; induction nbrs as [|js r IH]; auto; cbn [concat]; rewrite app_length, num_bonds_cons, IH; auto).
  unfold good, ba_bonds, ba_stresses. rewrite NB. split; [exact A|]. split; [exact B|]. split; [reflexivity|]. split; [apply repeat_length|]. split; [apply two_repeat|]. split; [apply two_repeat|].
  apply Forall_forall. intros a Ha. apply repeat_spec in Ha. subst a. apply zero_sym.
Qed.

(** ** Hooke *)
Lemma hooke_sym : forall K mu, keeps_symmetric (hooke (N:=RN) K mu).
Proof.
  intros K mu dt d s Hd Hs. apply symmetric_iff in Hd, Hs. apply symmetric_iff. destruct d as [d0 d1 d2 d3 d4 d5 d6 d7 d8], s as [s0 s1 s2 s3 s4 s5 s6 s7 s8]. unfold mtrans in Hd, Hs. cbn in Hd, Hs.
  injection Hd as E1 E2 E3 E4 E5 E6. injection Hs as F1 F2 F3 F4 F5 F6. subst. reflexivity.
Qed.

(** ** Piola stress *)
Lemma piola_first : forall sinf cosf dt om xi dY dU F FP G GP s o sigma Fb, bond_step (N:=RN) sinf cosf dt om xi dY dU F FP G GP s = Ok o -> 0 < om -> vdot xi xi <> 0 ->
  bond_level (average (ent F) (ent FP)) xi dY Fb -> det3 Fb <> 0 /\ first_piola Fb (ent (b_R (fst o))) (ent sigma) (ent (bond_piola (N:=RN) (fst o) sigma)).
Proof.
  intros sinf cosf dt om xi dY dU F FP G GP s o sigma Fb0 H Hom NZx HL.
  set (Fb := bond_gradient (mean F FP) xi dY) in *.
  assert (EF : eq3 Fb0 (ent Fb)). { eapply bond_level_unique; [exact NZx|exact HL|]. eapply bond_level_ext; [apply mean_average|]. now apply bond_gradient_level. }
  assert (ED : det3 Fb0 = det3 (ent Fb)) by (unfold det3; rewrite !(EF _ _) by lia; reflexivity).
  unfold bond_step in H. cbv zeta in H. destruct (ltb (n:=RN) (ofZ 0) om) eqn:E; [|cbn in E; unfold Rltb in E; destruct (Rlt_dec 0 om); [discriminate|lra]].
  change (bond_gradient (mean F FP) xi dY) with Fb in H. destruct (Req_dec (det3 (ent Fb)) 0) as [Z|NZ]; [rewrite (invert_singular _ Z) in H; discriminate|].
  destruct (invert_regular _ NZ) as (Fi & EI & I1 & I2). rewrite EI in H. cbn [Z.ltb Z.compare] in H. split; [now rewrite ED|].
  match type of H with context [rotation_step (N:=RN) sinf cosf dt ?L ?V ?Q] => destruct (rotation_step (N:=RN) sinf cosf dt L V Q) as [[V1 R1] d] end. injection H as <-. cbn [fst]. unfold bond_piola, first_piola. cbn [b_J b_R b_Finv].
  rewrite ED. set (J := det3 (ent Fb)) in *. rewrite rotate_stress_eq. set (sg := mul_nn R1 (mul_nn sigma (mtrans R1))).
  assert (EQ : mul_nn (matmul (N:=RN) false true J sg Fi) (mtrans Fb) = mscale (N:=RN) J sg).
  { assert (E1 : matmul (N:=RN) false true J sg Fi = mscale (N:=RN) J (mul_nn sg (mtrans Fi))). { apply M3_ext. intros i j Hi Hj. rewrite matmul_ent by auto. clearbody J sg. clear -Hi Hj. ij i j Hi Hj; unfold prod, transp, sum3; cbn; to_R; change (T RN) with R; ring. }
    assert (E2 : forall a b : ten, mul_nn (mscale (N:=RN) J a) b = mscale (N:=RN) J (mul_nn a b)). { intros a b. apply M3_ext. intros i j Hi Hj. clearbody J. clear -Hi Hj. ij i j Hi Hj; cbn; to_R; change (T RN) with R; ring. }
    rewrite E1, E2, nn_assoc, <- trans_nn, I1. assert (mtrans mone = mone (N:=RN)) as -> by reflexivity. now rewrite nn_one_r. }
  intros i c Hi Hc. transitivity (ent (mul_nn (matmul (N:=RN) false true J sg Fi) (mtrans Fb)) i c).
  - rewrite nn_ent by auto. unfold prod, sum3, transp. rewrite !(EF c) by lia. rewrite !ent_trans by lia. reflexivity.
  - rewrite EQ. transitivity (J * ent sg i c); [clearbody J sg; clear -Hi Hc; ij i c Hi Hc; reflexivity|]. f_equal. unfold sg. clear -Hi Hc. destruct R1, sigma. ij i c Hi Hc; unfold prod, sum3, transp; cbn; to_R; change (T RN) with R; ring.
Qed.

(** ** uniform stress *)
Lemma volumes_spec : forall (v : list R) wt nbrs k W, weighted_volumes (N:=RN) v wt k nbrs = Ok W -> length W = length nbrs /\
  forall p, (p < length nbrs)%nat -> nth p W 0 = sum_to (length (nth p nbrs [])) (fun m => om_of wt (k + (offset nbrs p + m)) * nth (nth m (nth p nbrs []) 0%nat) v 0).
Proof.
  intros v wt.
  assert (K : forall js k acc W, volume_sum (N:=RN) v wt k js acc = Ok W -> W = acc + sum_to (length js) (fun m => om_of wt (k + m) * nth (nth m js 0%nat) v 0)).
  { induction js as [|j js IH]; intros k acc W H; cbn [volume_sum] in H; [injection H as <-; unfold sum_to; cbn [length seq]; rewrite so_nil; symmetry; apply Rplus_0_r|].
    apply bind_Ok in H as (w & H1 & H). apply bind_Ok in H as (vj & H2 & H). apply at_ub_Ok in H1, H2. rewrite (IH _ _ _ H). cbn [length]. rewrite sum_to_S. cbn [nth]. rewrite Nat.add_0_r, (om_nth _ _ _ H1), (real_nth v _ _ H2). to_R. rewrite <- Rplus_assoc. f_equal.
    apply sum_to_ext. intros m _. now rewrite Nat.add_succ_r. }
  induction nbrs as [|js rest IH]; intros k W H; cbn [weighted_volumes] in H; [injection H as <-; split; auto; intros p Hp; cbn in Hp; lia|].
  apply bind_Ok in H as (a & H1 & H). apply bind_Ok in H as (r & H2 & H). injection H as <-. destruct (IH _ _ H2) as [L D]. split; [exact (f_equal S L)|]. intros [|p] Hp; cbn [nth].
  - rewrite (K _ _ _ _ H1). change (ofZ (n:=RN) 0) with 0. rewrite Rplus_0_l. apply sum_to_ext. intros m _. reflexivity.
  - cbn [length] in Hp. rewrite D by lia. apply sum_to_ext. intros m _. rewrite offset_S. do 2 f_equal. lia.
Qed.
Lemma share_total : forall nbrs (v w0 : list R) wt W, mutual nbrs -> two_sided nbrs (map (w_om (N:=RN)) wt) -> weighted_volumes (N:=RN) v wt 0 nbrs = Ok W ->
  total nbrs (share v w0 wt) = sum_to (length nbrs) (fun p => nth p v 0 * (nth p W 0 / nth p w0 0)).
Proof.
  intros nbrs v w0 wt W MU TW HW. apply volumes_spec in HW as [_ HW].
  transitivity (total nbrs (fun p k j => nth p v 0 * nth j v 0 * om_of wt k * (1 / nth p w0 0))).
  - rewrite (total_half nbrs (fun p k j => nth p v 0 * nth j v 0 * om_of wt k * (1 / nth p w0 0)) MU). apply total_ext. intros p k j HB. destruct (mate_bond _ _ _ _ MU HB) as [HB' _]. unfold share.
    rewrite <- (om_two nbrs wt p k j _ TW HB HB'). unfold Rdiv. ring.
  - unfold total. apply sum_to_ext. intros p Hp. rewrite HW by auto. cbn [Nat.add].
    transitivity (nth p v 0 / nth p w0 0 * sum_to (length (nth p nbrs [])) (fun m => om_of wt (offset nbrs p + m) * nth (nth m (nth p nbrs []) 0%nat) v 0)); [|unfold Rdiv; ring].
    rewrite <- sum_to_mul. apply sum_to_ext. intros m _. unfold Rdiv. ring.
Qed.
Lemma affine_gradient : forall A b (x w : list vec) (v : list R) wt nbrs Ws, reproduces nbrs x v wt -> mutual nbrs -> length x = length nbrs -> affine A b x w ->
  velocity_gradients (N:=RN) v w wt nbrs = Ok Ws -> forall p, (p < length nbrs)%nat -> eq3 (ten_of Ws p) A.
Proof.
  intros A b x w v wt nbrs Ws RP (_ & FB & _) Lx HA HW p Hp i c Hi Hc. apply gradients_spec in HW as [_ HW].
  assert (Hn : nth_error nbrs p = Some (nth p nbrs [])) by now apply nth_error_nth'. pose proof (RP p Hp) as MOM. set (js := nth p nbrs []) in *.
  assert (FJ : forall m, (m < length js)%nat -> (nth m js 0%nat < length nbrs)%nat). { intros m Hm. rewrite Forall_forall in FB. specialize (FB js (nth_error_In _ _ Hn)). rewrite Forall_forall in FB. apply FB. now apply nth_In. }
  destruct (HW p js Hn) as (U & W & HU & HWp & HG). cbn [Nat.add] in *. unfold ten_of. rewrite (nth_error_nth _ _ mzero HWp), (grad_sum_nth v w wt U i c Hi Hc js _ _ _ HG).
  replace (ent mzero i c) with 0 by (clear -Hi Hc; ij i c Hi Hc; reflexivity). rewrite Rplus_0_l.
  transitivity (sum3 (fun a => A i a * kron a c)); [|unfold sum3, kron; clear -Hc; i3 c Hc; cbn; ring].
  unfold sum3. rewrite <- !MOM by lia. cbv zeta. unfold sum_to. rewrite <- !so_mul, <- !so_add. apply sum_to_ext. intros m Hm. rewrite <- (at3_nth _ _ _ HU).
  pose proof (HA p ltac:(lia) i Hi) as E1. pose proof (HA (nth m js 0%nat) ltac:(specialize (FJ m Hm); lia) i Hi) as E2.
  assert (E : comp (vsub (at3 w (nth m js 0%nat)) (at3 w p)) i = image A (at3 x (nth m js 0%nat)) i - image A (at3 x p) i).
  { transitivity (comp (at3 w (nth m js 0%nat)) i - comp (at3 w p) i); [clear -Hi; i3 i Hi; reflexivity|]. rewrite E1, E2. ring. }
  rewrite E. unfold image, sum3, between. destruct (at3 x p) as [a1 a2 a3], (at3 x (nth m js 0%nat)) as [b1 b2 b3]. cbn. to_R. change (T RN) with R. ring.
Qed.

(** ** broken bonds *)
Lemma unloaded : forall (x : list vec) (v w0 : list R) wt P Is nbrs n f out q, run_kernel (ba_force (N:=RN) x v w0 wt P Is) nbrs (repeat vzero n) = Ok (f, out) -> proper_weights wt ->
  (forall p k j, bond_at nbrs p k j -> p = q \/ j = q -> om_of wt k = 0) -> (q < n)%nat -> nth_error f q = Some vzero.
Proof.
  intros x v w0 wt P Is nbrs n f out q HR PW HB Hq. pose proof (run_len _ _ _ _ _ HR) as L. rewrite repeat_length in L.
  destruct (nth_error f q) as [a|] eqn:E; [|apply nth_error_None in E; lia]. f_equal.
  assert (K : forall pr : vec -> R, (forall a b, pr (vadd a b) = pr a + pr b) -> (forall a b, pr (vsub a b) = pr a - pr b) -> pr vzero = 0 -> pr a = 0).
  { intros pr A1 A2 A3. set (g := fun (i : nat) (b : vec) => if Nat.eqb i q then pr b else 0).
    assert (GA : forall i, additive (g i)). { intros i. unfold additive, g. destruct (Nat.eqb i q); split; intros; rewrite ?A1, ?A2; ring. }
    pose proof (run_sum (ba_force (N:=RN) x v w0 wt P Is) g (fun _ _ _ => 0 * 0) GA nbrs) as RS.
    assert (G0 : gsum g 0 f = 0).
    { rewrite (fun H => RS H _ _ _ HR).
      - rewrite total_mul, gsum_zero; [ring|]. intros m. unfold g. destruct (Nat.eqb m q); auto.
      - intros p js d Hn Hd k j fb s vn vs HBd Hf Hv. cbn [pre bond vols ba_force] in *. apply bind_Ok in Hd as (X & D1 & Hd). apply bind_Ok in Hd as (wp & D2 & Hd). apply bind_Ok in Hd as (Sp & D3 & Hd). injection Hd as <-.
        apply bind_Ok in Hf as (b & B1 & Hf). apply at_ub_Ok in B1. unfold g. destruct (Nat.eqb_spec p q) as [Ep|Np]; destruct (Nat.eqb_spec j q) as [Ej|Nj]; try ring;
          (assert (Z : om_of wt k = 0) by (apply (HB p k j HBd); auto)); rewrite (om_nth _ _ _ B1) in Z; rewrite Z in Hf; cbn [ltb RN ofZ] in Hf; unfold Rltb in Hf; (destruct (Rlt_dec 0 0); [lra|]); injection Hf as <- _;
          (assert (ZV : forall r, vmulr (N:=RN) vzero r = vzero) by (intros r; unfold vmulr, vzero; cbn; to_R; f_equal; change (T RN) with R; ring)); rewrite ?ZV, ?A3; ring. }
    rewrite gsum_sum in G0. cbn [Nat.add] in G0. rewrite <- G0. unfold sum_to. transitivity (pr (at3 f q)); [now rewrite (at3_nth _ _ _ E)|].
    rewrite <- (so_seq_one (length f) (fun m => pr (at3 f m)) q 0) by lia. apply so_ext. intros m _. unfold g. reflexivity. }
  apply v3_ext; apply K; intros; cbn; to_R; reflexivity.
Qed.
