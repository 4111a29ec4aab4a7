(** * Moments, weights, histories *)
From Coq Require Import Reals Lra Lia.
From Verif Require Import Base Num ModelNeigh SpecDamage ModelForce SpecForce ModelCorr SpecCorr
  ProofData ProofDamage ProofForce ProofKernels ProofCorr ProofCorr2 ProofCorr3 ProofCorr4 ProofCorr5 ProofTangent ProofBondAssoc ProofBondAssoc2 ProofBondAssoc3 ProofBondAssoc4 ProofBondForce ProofBondForce2 ProofBondForce3
  ModelBondAssoc SpecBondAssoc SpecBondForce.
Local Open Scope R_scope.
Local Notation vec := (V3 RN).
Local Notation ten := (M3 RN).

(** ** the pieces of a force evaluation *)
Lemma force_parts : forall sinf cosf cauchy dt x y vel v nbrs s Fs Gs st sN st1 s1 f,
  ba_compute_force (N:=RN) sinf cosf cauchy dt x y vel v nbrs s Fs Gs st sN = Ok (st1, s1, f) ->
  exists kin Is out, bond_kinematics (N:=RN) sinf cosf dt x y vel Fs Gs (s_wt s) st 0 0 nbrs = Ok kin /\
    st1 = map fst kin /\ s1 = map (fun c => cauchy dt (snd (fst c)) (snd c)) (combine kin sN) /\
    let P := map (fun c => bond_piola (fst (fst c)) (snd c)) (combine kin s1) in
    integrals (N:=RN) x v (s_w0 s) (s_wt s) P 0 0 nbrs = Ok Is /\ run_kernel (ba_force (N:=RN) x v (s_w0 s) (s_wt s) P Is) nbrs (repeat vzero (length y)) = Ok (f, out).
Proof.
  intros * H. unfold ba_compute_force in H. destruct (negb (node_code Fs =? 0)%Z); [discriminate|]. apply bind_Ok in H as (kin & HK & H). cbv zeta in H. apply bind_Ok in H as (Is & HI & H). apply bind_Ok in H as ([f' out] & HR & H). injection H as <- <- <-.
  exists kin, Is, out. auto.
Qed.
Lemma mom_zero : forall (v : list R) n, momentum v (repeat vzero n) = vzero.
Proof.
  induction v as [|a v IH]; intros [|n]; cbn; auto. rewrite IH. unfold vadd, vscale, vzero. cbn. to_R. f_equal; change (T RN) with R; ring.
Qed.
Lemma force_len : forall sinf cosf cauchy dt x y vel v nbrs s Fs Gs st sN st1 s1 f,
  ba_compute_force (N:=RN) sinf cosf cauchy dt x y vel v nbrs s Fs Gs st sN = Ok (st1, s1, f) -> length f = length y.
Proof. intros * H. apply force_parts in H as (kin & Is & out & _ & _ & _ & _ & HR). rewrite (run_len _ _ _ _ _ HR). apply repeat_length. Qed.

(** stresses and states of the two halves stay alike *)
Lemma force_keeps : forall sinf cosf cauchy dt x y vel v nbrs s Fs Gs st sN st1 s1 f,
  ba_compute_force (N:=RN) sinf cosf cauchy dt x y vel v nbrs s Fs Gs st sN = Ok (st1, s1, f) ->
  apart nbrs x (s_w0 s) -> two_sided nbrs (map (w_om (N:=RN)) (s_wt s)) -> keeps_symmetric cauchy ->
  length sN = num_bonds nbrs -> two_sided nbrs st -> two_sided nbrs sN -> Forall (fun a => symmetric (ent a)) sN ->
  length s1 = num_bonds nbrs /\ two_sided nbrs st1 /\ two_sided nbrs s1 /\ Forall (fun a => symmetric (ent a)) s1.
Proof.
  intros * H AP TW KS LS TS TN FS. apply force_parts in H as (kin & Is & out & HK & -> & -> & _). pose proof (kin_spec _ _ _ _ _ _ _ _ _ _ _ _ HK) as [LK D]. pose proof (kin_two _ _ _ _ _ _ _ _ _ _ _ _ _ HK AP TW TS) as TK.
  split; [rewrite map_length, combine_length; lia|]. split; [now apply two_map|]. split; [apply two_map, two_combine; auto|].
  apply Forall_forall. intros a Ha. apply in_map_iff in Ha as (c & <- & Hc). apply In_nth_error in Hc as [k Hk]. rewrite nth_combine in Hk. destruct (nth_error kin k) as [o|] eqn:E1; [|discriminate]. destruct (nth_error sN k) as [t|] eqn:E2; [|discriminate]. injection Hk as <-. cbn [fst snd].
  apply KS; [|rewrite Forall_forall in FS; apply FS; now apply nth_error_In in E2].
  assert (Hk : (k < num_bonds nbrs)%nat) by (rewrite <- LK; apply nth_error_Some; congruence).
  assert (exists p j, bond_at nbrs p k j) as (p & j & HB).
  { clear -Hk. revert k Hk. induction nbrs as [|js rest IH]; intros k Hk; [cbn in Hk; lia|]. rewrite num_bonds_cons in Hk. destruct (Nat.lt_ge_cases k (length js)) as [L|L].
    - exists 0%nat, (nth k js 0%nat), js, k. repeat split; auto. now apply nth_error_nth'.
    - destruct (IH (k - length js)%nat ltac:(lia)) as (p & j & js' & m & A & B & C). exists (S p), j, js', m. repeat split; auto. rewrite offset_S. lia. }
  destruct (D p k j HB) as (w & s0 & o' & _ & _ & A & B). rewrite E1 in A. injection A as <-. eapply step_rate_sym. exact B.
Qed.

(** ** moment *)
Lemma turn_power : forall sinf cosf cauchy dt (x y u vel : list vec) (v : list R) nbrs s Fs Gs st sN st1 s1 f e,
  ba_compute_force (N:=RN) sinf cosf cauchy dt x y vel v nbrs s Fs Gs st sN = Ok (st1, s1, f) ->
  mutual nbrs -> apart nbrs x (s_w0 s) -> proper_weights (s_wt s) -> two_sided nbrs (map (w_om (N:=RN)) (s_wt s)) -> keeps_symmetric cauchy ->
  length sN = num_bonds nbrs -> two_sided nbrs st -> two_sided nbrs sN -> Forall (fun a => symmetric (ent a)) sN ->
  length x = length nbrs -> length y = length nbrs -> length v = length nbrs -> length (s_wt s) = num_bonds nbrs ->
  (forall p, (p < length nbrs)%nat -> at3 y p = vadd (at3 x p) (at3 u p)) ->
  reproduces nbrs x v (s_wt s) -> deformation_gradients (N:=RN) v u (s_wt s) nbrs = Ok Fs ->
  power v (map (vcross e) y) f = 0.
Proof.
  intros * H MU AP PW TW KS LS TS TN FS Lx Ly Lv Lw HY RP HF. pose proof (force_keeps _ _ _ _ _ _ _ _ _ _ _ _ _ _ _ _ _ H AP TW KS LS TS TN FS) as (L1 & _ & T1 & F1).
  apply force_parts in H as (kin & Is & out & HK & -> & E1 & HI & HR). pose proof (kin_spec _ _ _ _ _ _ _ _ _ _ _ _ HK) as [LK D]. pose proof (kin_two _ _ _ _ _ _ _ _ _ _ _ _ _ HK AP TW TS) as TK.
  set (P := map _ (combine kin s1)) in *. assert (TP : two_sided nbrs P) by (apply two_map, two_combine; auto).
  destruct (gradients_total mzero v (map (vcross e) y) (s_wt s) nbrs 0 0) as [Ws HW]; rewrite ?map_length; change (T RN) with R in *; try lia.
  { destruct MU as (_ & FB & _). rewrite Ly. exact FB. }
  pose proof (turned_gradient e x y u v (s_wt s) nbrs Fs Ws RP MU ltac:(lia) HY HF HW) as TG.
  set (G := fun p k j : nat => ent (mul_nn (turn e) (bond_gradient (N:=RN) (mean (nth p Fs mzero) (nth j Fs mzero)) (between x p j) (between y p j)))).
  rewrite (bond_power _ nbrs x (map (vcross e) y) v (s_w0 s) (s_wt s) P Is f out Ws G MU AP PW TW TP ltac:(lia) ltac:(rewrite map_length; lia) HI HR HW).
  - rewrite (total_ext _ _ (fun _ _ _ => 0 * 0)); [rewrite total_mul; ring|]. intros p k j HB. destruct (D p k j HB) as (w & s0 & o & A1 & A2 & A3 & A4).
    destruct (proper_nth _ _ _ PW A1) as [O1 _]. unfold share. rewrite (om_nth _ _ _ A1). destruct (Req_dec (w_om w) 0) as [Z|NZ]; [rewrite Z; ring|].
    assert (Hk : (k < num_bonds nbrs)%nat) by (eapply bond_at_bound; eauto).
    destruct (nth_error s1 k) as [sg|] eqn:ES; [|apply nth_error_None in ES; lia].
    assert (EP : nth_error P k = Some (bond_piola (fst o) sg)). { unfold P. rewrite nth_error_map, nth_combine, A3, ES. reflexivity. }
    unfold ten_of, G. rewrite (nth_error_nth _ _ mzero EP), turn_ddot; [ring|]. eapply piola_sym; [exact A4|lra|]. rewrite Forall_forall in F1. apply F1. now apply nth_error_In in ES.
  - intros p k j HB. destruct (AP p k j HB) as (NZ & _). pose proof (bond_gradient_level (mean (nth p Fs mzero) (nth j Fs mzero)) (between x p j) (between y p j) NZ) as HL. eapply bond_level_ext in HL; [|apply mean_average].
    destruct (bond_at_parts _ _ _ _ HB) as (Hp & m & Hm & _ & Ej). assert (Hj : (j < length nbrs)%nat). { destruct MU as (_ & FB & _). rewrite Forall_forall in FB. specialize (FB (nth p nbrs []) (nth_In _ _ Hp)). rewrite Forall_forall in FB. apply FB. rewrite Ej. now apply nth_In. }
    apply (turn_level e) in HL. unfold ten_of, G. rewrite !TG by auto.
    assert (between (map (vcross e) y) p j = vcross e (between y p j)) as ->.
    { unfold between. rewrite !map_at3 by lia. destruct e as [e1 e2 e3], (at3 y p) as [a1 a2 a3], (at3 y j) as [b1 b2 b3]. unfold vcross, vsub. cbn. to_R. f_equal; change (T RN) with R; ring. }
    destruct HL as [HL1 HL2]. pose proof (nn_ent (turn e) (bond_gradient (N:=RN) (mean (nth p Fs mzero) (nth j Fs mzero)) (between x p j) (between y p j))) as NE.
    split; [intros i Hi; rewrite <- (HL1 i Hi)|intros t Ht i Hi; rewrite <- (HL2 t Ht i Hi)]; unfold image, sum3; rewrite !(NE i) by lia; reflexivity.
Qed.
Lemma moment_power : forall (v : list R) (y f : list vec), length v = length f -> length y = length f -> (forall e, power v (map (vcross e) y) f = 0) -> moment v y f = vzero.
Proof.
  intros v y f Lv Ly H.
  assert (K : forall pr e, (forall a b, pr (vadd a b) = pr a + pr b) -> (forall k a, pr (vscale (N:=RN) k a) = k * pr a) -> pr vzero = 0 -> (forall a b, pr (vcross a b) = vdot (vcross e a) b) -> pr (moment v y f) = 0).
  { intros pr e A1 A2 A3 A4. rewrite (moment_gsum pr A1 A2 A3 f v y 0 v y Lv Ly) by reflexivity. transitivity (power v (map (vcross e) y) f); [|apply H]. rewrite gsum_sum. unfold power. apply sum_to_ext. intros i Hi. cbn [Nat.add]. rewrite A4, map_at3 by lia. reflexivity. }
  apply v3_ext.
  - apply (K (@vx RN) (v3 (N:=RN) 1 0 0)); intros; cbn; to_R; change (T RN) with R; try ring; reflexivity.
  - apply (K (@vy RN) (v3 (N:=RN) 0 1 0)); intros; cbn; to_R; change (T RN) with R; try ring; reflexivity.
  - apply (K (@vz RN) (v3 (N:=RN) 0 0 1)); intros; cbn; to_R; change (T RN) with R; try ring; reflexivity.
Qed.

(** ** weights of the current damage *)
Section Om.
Variable omega : R -> R -> R.
Lemma gather_spec : forall (x : list vec) v dmg h X js k bs, gather (N:=RN) omega x v dmg h X k js = Ok bs -> length bs = length js /\
  forall m j, nth_error js m = Some j -> exists XP d vj, nth_error x j = Some XP /\ nth_error dmg (k + m) = Some d /\ nth_error bs m = Some (Bdat (N:=RN) (vsub XP X) (omega (vlen (vsub XP X)) h * (1 - d)) vj).
Proof.
  intros x v dmg h X. induction js as [|j js IH]; intros k bs H; cbn [gather] in H.
  - injection H as <-. split; auto. intros [|m] j Hm; discriminate.
  - apply bind_Ok in H as (XP & H1 & H). apply bind_Ok in H as (vj & H2 & H). apply bind_Ok in H as (d & H3 & H). apply bind_Ok in H as (r & H4 & H). injection H as <-. apply at_ub_Ok in H1, H2, H3.
    destruct (IH _ _ H4) as [L D]. split; [cbn; now rewrite L|]. intros [|m] j' Hm; cbn in Hm.
    + injection Hm as <-. exists XP, d, vj. rewrite Nat.add_0_r. repeat split; auto.
    + destruct (D m j' Hm) as (XP' & d' & vj' & A & B & C). exists XP', d', vj'. replace (k + S m)%nat with (1 + k + m)%nat by lia. auto.
Qed.
Lemma fresh_bond : forall svd order (x : list vec) (v hs : list R) nbrs (dmg : list R) wt, all_fresh omega svd order x v hs nbrs dmg wt -> forall p k j, bond_at nbrs p k j ->
  exists w d, nth_error wt k = Some w /\ nth_error dmg k = Some d /\ w_om w = omega (vlen (between x p j)) (nth p hs 0) * (1 - d) /\ (w_om w = 0 -> w_phi w = vzero).
Proof.
  intros svd order x v hs nbrs dmg wt [L H] p k j (js & m & H1 & H2 & ->). specialize (H p js H1). unfold point_weights in H.
  apply bind_Ok in H as (h & Hh & H). apply bind_Ok in H as (X & HX & H). apply bind_Ok in H as (bs & Hb & H). apply at_ub_Ok in Hh, HX. cbv zeta in H.
  destruct (invert_cond _ _ _) as [rc Mi]. injection H as _ H. destruct (gather_spec _ _ _ _ _ _ _ _ Hb) as [LB D]. destruct (D m j H2) as (XP & d & vj & A & B & C).
  assert (Hm : (m < length js)%nat) by (apply nth_error_Some; congruence).
  assert (E : nth_error (own nbrs p wt) m = nth_error wt (offset nbrs p + m)). { unfold own. rewrite (nth_error_nth _ _ _ H1), nth_first by auto. apply nth_skip. }
  rewrite <- H, nth_error_map, C in E. cbn [option_map] in E. symmetry in E. eexists _, d. split; [exact E|]. split; [exact B|]. cbn [w_om w_phi]. split.
  - unfold between. rewrite (at3_nth _ _ _ A), (at3_nth _ _ _ HX), (real_nth hs _ _ Hh). reflexivity.
  - intros Z. cbn [b_om] in Z. rewrite !phi_zero by exact Z. reflexivity.
Qed.
Lemma bond_exists : forall nbrs k, (k < num_bonds nbrs)%nat -> exists p j, bond_at nbrs p k j.
Proof.
  induction nbrs as [|js rest IH]; intros k Hk; [cbn in Hk; lia|]. rewrite num_bonds_cons in Hk. destruct (Nat.lt_ge_cases k (length js)) as [L|L].
  - exists 0%nat, (nth k js 0%nat), js, k. repeat split; auto. now apply nth_error_nth'.
  - destruct (IH (k - length js)%nat ltac:(lia)) as (p & j & js' & m & A & B & C). exists (S p), j, js', m. repeat split; auto. rewrite offset_S. lia.
Qed.
Lemma fresh_proper : forall svd order (x : list vec) (v hs : list R) nbrs (dmg : list R) wt, all_fresh omega svd order x v hs nbrs dmg wt -> (forall r h, 0 <= omega r h) -> Forall (fun d => 0 <= d <= 1) dmg -> proper_weights wt.
Proof.
  intros svd order x v hs nbrs dmg wt HF HO HD. apply Forall_forall. intros w Hw. apply In_nth_error in Hw as [k Hk]. destruct (bond_exists nbrs k) as (p & j & HB).
  { rewrite <- (proj1 HF). apply nth_error_Some. congruence. }
  destruct (fresh_bond _ _ _ _ _ _ _ _ HF p k j HB) as (w' & d & A & B & C & E). rewrite Hk in A. injection A as <-. split; auto. rewrite C. rewrite Forall_forall in HD. apply nth_error_In, HD in B. apply Rmult_le_pos; [auto|lra].
Qed.
Lemma vlen_swap : forall (x : list vec) p j, vlen (between x j p) = vlen (between x p j).
Proof. intros. rewrite between_swap. unfold vlen, vdot. destruct (between x p j) as [a b c]. cbn. to_R. f_equal. change (T RN) with R. ring. Qed.
Lemma fresh_two : forall svd order (x : list vec) (v hs : list R) nbrs (dmg : list R) wt, all_fresh omega svd order x v hs nbrs dmg wt -> even_horizon nbrs hs -> two_sided nbrs dmg -> two_sided nbrs (map (w_om (N:=RN)) wt).
Proof.
  intros svd order x v hs nbrs dmg wt HF EH TD p k j k' HB HB'. destruct (fresh_bond _ _ _ _ _ _ _ _ HF p k j HB) as (w & d & A1 & A2 & A3 & _), (fresh_bond _ _ _ _ _ _ _ _ HF j k' p HB') as (w' & d' & B1 & B2 & B3 & _).
  rewrite !nth_error_map, A1, B1. cbn. f_equal. pose proof (TD p k j k' HB HB') as E. rewrite A2, B2 in E. injection E as <-. etransitivity; [exact A3|]. symmetry. etransitivity; [exact B3|]. rewrite vlen_swap, <- (EH p k j HB). reflexivity.
Qed.
Lemma fresh_reproduces : forall svd order (x : list vec) (v hs : list R) nbrs (dmg : list R) wt, all_fresh omega svd order x v hs nbrs dmg wt -> (1 <= order)%Z ->
  (forall p, (p < length nbrs)%nat -> exists X h bs, around x v hs dmg nbrs p X h bs /\ 0 < h /\ resolved omega svd order h bs) -> reproduces nbrs x v wt.
Proof.
  intros svd order x v hs nbrs dmg wt [L HF] Ho HR p Hp a c Ha Hc. destruct (HR p Hp) as (X & h & bs & HA & Hh & RS). assert (Hn : nth_error nbrs p = Some (nth p nbrs [])) by now apply nth_error_nth'.
  assert (HD : (1 <= Z.of_nat (degree (unit_exp a)) <= order)%Z) by (destruct a as [|[|a]]; cbn; lia).
  pose proof (fresh_moments omega svd order x v hs dmg nbrs p X h bs _ _ HA Hn (HF p _ Hn) Hh Ho RS c (unit_exp a) Hc HD) as M.
  assert (E : (if is_exp (unit_exp a) (unit_exp c) then 1 else 0) = kron a c) by (clear -Ha Hc; ij a c Ha Hc; reflexivity). rewrite <- E, <- M.
  pose proof (own_len _ wt nbrs p _ Hn L) as LO. destruct HA as (js & Hn' & HX & _ & LB & HB). rewrite Hn in Hn'. injection Hn' as EJ. rewrite EJ in *. clear EJ.
  rewrite (so_nth _ _ ((vzero, 0, 0) : bond3, Bw (N:=RN) 0 vzero) (combine bs (own nbrs p wt))), combine_length. rewrite LO, LB, Nat.min_id. apply sum_to_ext. intros m Hm. cbv zeta.
  rewrite combine_nth by lia. cbn [fst snd]. destruct (HB m (nth m js 0%nat)) as (XP & vj & d & A1 & A2 & _ & A4); [now apply nth_error_nth'|]. rewrite (nth_error_nth _ _ _ A4). unfold bvol, bvec. cbn [fst snd].
  unfold between. rewrite (at3_nth _ _ _ A1), (at3_nth _ _ _ HX), (real_nth v _ _ A2).
  assert (EO : nth m (own nbrs p wt) (Bw (N:=RN) 0 vzero) = nth (offset nbrs p + m) wt (Bw (N:=RN) 0 vzero)).
  { destruct (nth_error (own nbrs p wt) m) as [w|] eqn:EW; [|apply nth_error_None in EW; lia]. rewrite (nth_error_nth _ _ _ EW). unfold own in EW. rewrite (nth_error_nth _ _ _ Hn), nth_first, nth_skip in EW by auto. now rewrite (nth_error_nth _ _ _ EW). }
  rewrite EO. unfold phi_of. assert (EM : forall t : vec, mono (unit_exp a) t = comp t a). { intros [t1 t2 t3]. clear -Ha. i3 a Ha; cbn; to_R; change (T RN) with R; ring. } rewrite EM. ring.
Qed.
End Om.
