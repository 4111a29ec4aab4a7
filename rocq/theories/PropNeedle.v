(** * C65: the viscoplastic update with Needleman's flow stress *)
From Coq Require Import Reals Lra Lia ZArith.
From Verif Require Import Base Num ModelForce ModelCorr SpecCorr ModelPlastic ModelGlobal ModelJ2 SpecJ2 ModelNeedle SpecNeedle ProofData ProofCorr ProofCubic ProofJ2 ProofJ22 ProofJ23 ProofJ24 ProofNeedle ProofNeedle2 PropJ2 PropHard.
Local Open Scope R_scope.
Local Notation ten := (M3 RN).
Local Notation material n m rate0 e0 e1 := (@mkflow RN n m rate0 e0 e1).

Lemma found_range : forall powf w K G Y dt (d s : ten) eN, 0 <= found powf w K G Y dt d s eN <= 1.
Proof.
  intros. unfold found, needleman_multiplier. destruct (bisect _ _ _ _ _) as [x ok] eqn:H. cbn [fst].
  apply (bisect_range _ _ 0 1 _ x ok) in H; [exact H|reflexivity|lra].
Qed.
Lemma top_flow : forall K G Y dt eN n m rate0 e0 e1 (d s : ten), admissible G Y n m rate0 e0 e1 dt eN ->
  let lam := found cpow (material n m rate0 e0 e1) K G Y dt d s eN in
  top cpow (material n m rate0 e0 e1) K G Y dt d s eN = flow_stress Y n m rate0 e0 e1 (eN + sqrt (2/3) * lam) (sqrt (2/3) * lam / dt) /\
  0 <= top cpow (material n m rate0 e0 e1) K G Y dt d s eN.
Proof.
  intros K G Y dt eN n m rate0 e0 e1 d s HA lam. pose proof (found_range cpow (material n m rate0 e0 e1) K G Y dt d s eN) as L. fold lam in L.
  assert (ET : top cpow (material n m rate0 e0 e1) K G Y dt d s eN = flow_stress Y n m rate0 e0 e1 (eN + sqrt (2/3) * lam) (sqrt (2/3) * lam / dt)).
  { unfold top. fold lam. apply (yield_flow G Y dt eN n m rate0 e0 e1 HA). destruct HA as (_ & _ & _ & _ & _ & _ & _ & _ & He). pose proof s23_pos. nra. }
  split; [exact ET|]. rewrite ET. apply (flow_nonneg G Y dt eN n m rate0 e0 e1 HA).
Qed.

(** ** Every step, whatever the power function *)
Theorem C65_reported : forall powf w K G Y dt (d s : ten) eN,
  let r := fst (needleman (N:=RN) powf w K G Y dt d s eN) in j_vm r = mises (ent (j_stress r)).
Proof.
  intros powf w K G Y dt d s eN. cbv zeta. destruct (needleman_cases powf w K G Y dt d s eN) as [[_ ->]|[(_ & _ & ->)|(_ & _ & ->)]]; cbn [fst]; [rewrite <- stays_vm; reflexivity|rewrite <- stays_vm; reflexivity|apply radial_vm, dev_tr0].
Qed.
Print Assumptions C65_reported.
Theorem C65_pressure : forall powf w K G Y dt (d s : ten) eN,
  tr3 (ent (j_stress (fst (needleman (N:=RN) powf w K G Y dt d s eN)))) / 3 = tr3 (ent s) / 3 + K * (dt * tr3 (ent d)).
Proof.
  intros powf w K G Y dt d s eN. assert (ST : tr3 (ent (j_stress (stays K G dt d s eN))) / 3 = tr3 (ent s) / 3 + K * (dt * tr3 (ent d))).
  { cbn [stays j_stress]. rewrite (tr3_eq3 _ _ (trial_ent K G dt d s)), tr_trial. field. }
  destruct (needleman_cases powf w K G Y dt d s eN) as [[_ ->]|[(_ & _ & ->)|(_ & _ & ->)]]; cbn [fst]; [exact ST|exact ST|apply ret_pressure].
Qed.
Print Assumptions C65_pressure.
(** below the yield stress of the point the step is elastic *)
Theorem C65_elastic : forall powf w K G Y dt (d s : ten) eN, mises (elastic_step K G dt (ent d) (ent s)) < Y ->
  let r := fst (needleman (N:=RN) powf w K G Y dt d s eN) in
  eq3 (ent (j_stress r)) (elastic_step K G dt (ent d) (ent s)) /\ j_eqps r = eN.
Proof.
  intros powf w K G Y dt d s eN H. cbv zeta. destruct (needleman_cases powf w K G Y dt d s eN) as [[_ ->]|[(C & _ & ->)|(C & _ & ->)]]; cbn [fst]; [|lra|lra].
  split; [apply trial_ent|reflexivity].
Qed.
Print Assumptions C65_elastic.
(** symmetric stresses stay symmetric *)
Theorem C65_symmetric : forall powf w K G Y dt (d s : ten) eN, symmetric (ent d) -> symmetric (ent s) ->
  symmetric (ent (j_stress (fst (needleman (N:=RN) powf w K G Y dt d s eN)))).
Proof.
  intros powf w K G Y dt d s eN Hd Hs. destruct (needleman_cases powf w K G Y dt d s eN) as [[_ ->]|[(_ & _ & ->)|(_ & _ & ->)]]; cbn [fst]; [now apply stays_sym|now apply stays_sym|now apply returned_sym].
Qed.
Print Assumptions C65_symmetric.
(** any number of steps, any sequence of yield stresses *)
Theorem C65_history : forall powf w K G (Y : R -> R) steps (s : ten) e, exists l,
  history (N:=RN) (fun dt d s e => Ok (fst (needleman (N:=RN) powf w K G (Y dt) dt d s e))) steps s e = Ok l /\ length l = length steps /\
  Forall (fun r => j_vm r = mises (ent (j_stress r))) l /\ chain Rle e (map j_eqps l).
Proof.
  intros powf w K G Y steps s e. apply history_chain. intros dt d s' e'. eexists. split; [reflexivity|]. split; [apply C65_reported|].
  destruct (needleman_cases powf w K G (Y dt) dt d s' e') as [[_ ->]|[(_ & _ & ->)|(_ & _ & ->)]]; cbn [fst]; [apply Rle_refl|apply Rle_refl|apply radial_eqps].
Qed.
Print Assumptions C65_history.
(** the points of a block are updated one by one, each with the yield stress its place has *)
Theorem C65_points : forall powf w K G Y flaw dt xs ds ss es rs i, needleman_points (N:=RN) exp powf w K G Y flaw dt xs ds ss es = Ok rs ->
  length rs = length xs /\ (forall x d s e, nth_error xs i = Some x -> nth_error ds i = Some d -> nth_error ss i = Some s -> nth_error es i = Some e ->
    nth_error rs i = Some (fst (needleman (N:=RN) powf w K G (reduced (N:=RN) exp Y flaw x) dt d s e))).
Proof.
  intros powf w K G Y flaw dt. induction xs as [|x xs IH]; intros [|d ds] [|s ss] [|e es] rs i; cbn [needleman_points]; try discriminate.
  - intros H. injection H as <-. split; [reflexivity|]. intros x d s e H. destruct i; discriminate.
  - destruct (needleman_points (N:=RN) exp powf w K G Y flaw dt xs ds ss es) as [rs'| |] eqn:E; cbn [bind]; try discriminate. intros H. injection H as <-. split; [cbn; f_equal; apply (IH _ _ _ _ 0%nat E)|].
    intros x' d' s' e'. destruct i as [|i]; cbn [nth_error].
    + intros [= <-] [= <-] [= <-] [= <-]. reflexivity.
    + exact (proj2 (IH _ _ _ _ i E) x' d' s' e').
Qed.
Print Assumptions C65_points.

(** ** With the power function of the library *)

(** the plastic strain never decreases, nor grows by more than the plastic strain increment of the step; the
    deviator keeps the direction of the elastic one and is not larger *)
Theorem C65_plastic_strain : forall K G Y dt eN n m rate0 e0 e1 (d s : ten), admissible G Y n m rate0 e0 e1 dt eN ->
  let r := fst (needleman (N:=RN) cpow (material n m rate0 e0 e1) K G Y dt d s eN) in
  let E := elastic_step K G dt (ent d) (ent s) in
  eN <= j_eqps r <= eN + eqps_inc G dt (ent d) (ent s) (ent (j_stress r)) /\
  exists k, 0 <= k <= 1 /\ eq3 (dev_of (ent (j_stress r))) (scaled k (dev_of E)).
Proof.
  intros K G Y dt eN n m rate0 e0 e1 d s HA. cbv zeta. destruct (top_flow K G Y dt eN n m rate0 e0 e1 d s HA) as [_ T0]. cbv zeta in T0.
  assert (ST : eN <= j_eqps (stays K G dt d s eN) <= eN + eqps_inc G dt (ent d) (ent s) (ent (j_stress (stays K G dt d s eN))) /\
    exists k, 0 <= k <= 1 /\ eq3 (dev_of (ent (j_stress (stays K G dt d s eN)))) (scaled k (dev_of (elastic_step K G dt (ent d) (ent s))))).
  { split.
    - cbn [stays j_eqps]. unfold eqps_inc. match goal with |- context [norm3 ?a] => pose proof (norm_nonneg a) as NN; set (z := norm3 a) in * end. pose proof s23_pos. assert (0 <= sqrt (2/3) * z) by (apply Rmult_le_pos; lra). change (T RN) with R in *. lra.
    - exists 1. split; [lra|]. cbn [stays j_stress]. eapply eq3_trans; [apply dev_eq3, trial_ent|]. intros i j Hi Hj. unfold scaled. ring. }
  destruct HA as (HG & _).
  destruct (needleman_cases cpow (material n m rate0 e0 e1) K G Y dt d s eN) as [[_ ->]|[(_ & _ & ->)|(C & C' & ->)]]; cbn [fst]; [exact ST|exact ST|].
  split; [split; [apply radial_eqps|]|].
  - pose proof (ret_bound K G dt d s eN _ ltac:(lra) T0 C') as RB. fold (returned K G dt d s eN (top cpow (material n m rate0 e0 e1) K G Y dt d s eN)) in RB. lra.
  - destruct (ret_k K G dt d s _ T0 C') as (K0 & _ & K1). eexists. split; [|apply ret_dev]. lra.
Qed.
Print Assumptions C65_plastic_strain.

(** A step that may be plastic, of less than 100 per cent strain: the bisection ends next to a root of its equation,
    and the von Mises stress is the elastic one or the flow stress of the multiplier found, whichever is less.
    Up to what is missing: that the root is the one of the flow stress at the plastic strain of the step (see below). *)
Theorem C65_root_partial : forall K G Y dt eN n m rate0 e0 e1 (d s : ten), admissible G Y n m rate0 e0 e1 dt eN ->
  let E := elastic_step K G dt (ent d) (ent s) in
  let q := sqrt (2/3) in
  smallest <= norm3 (dev_of E) -> Y <= mises E -> dt * norm3 (dev_of (ent d)) + norm3 (dev_of (ent s)) / (2 * G) < 1 ->
  exists lam z, 0 < z < 1 /\ 0 < lam < 1 /\ excess Y n m rate0 e0 e1 K G dt eN (fun x => eN + x) (ent d) (ent s) z = 0 /\
    Rabs (lam - z) <= Rmax (lam / 10 ^ 6) (/ 2 ^ Z.to_nat 100000) /\
    (/ 2 ^ Z.to_nat 99980 <= z -> snd (needleman (N:=RN) cpow (material n m rate0 e0 e1) K G Y dt d s eN) = true /\ Rabs (lam - z) <= lam / 10 ^ 6) /\
    mises (ent (j_stress (fst (needleman (N:=RN) cpow (material n m rate0 e0 e1) K G Y dt d s eN)))) = Rmin (mises E) (flow_stress Y n m rate0 e0 e1 (eN + q * lam) (q * lam / dt)).
Proof.
  intros K G Y dt eN n m rate0 e0 e1 d s HA E q HF HY HS. rewrite smallest_eq in HF.
  destruct (found_root K G Y dt eN n m rate0 e0 e1 d s HA HF HS) as (z & Hz & Hl & Ez & Hd & Hc).
  destruct (top_flow K G Y dt eN n m rate0 e0 e1 d s HA) as [TE T0]. cbv zeta in TE.
  exists (found cpow (material n m rate0 e0 e1) K G Y dt d s eN), z.
  assert (L20 : Nat.sub bisect_limit 20 = Z.to_nat 99980) by (unfold bisect_limit; change 20%nat with (Z.to_nat 20); rewrite <- Z2Nat.inj_sub by lia; reflexivity).
  rewrite L20 in Hc. split; [exact Hz|]. split; [exact Hl|].
  split; [rewrite (sought_excess K G Y dt eN n m rate0 e0 e1 d s HA HF z ltac:(lra)) in Ez; destruct HA as (HG & _); apply Rmult_eq_reg_r with (/ (2 * G)); [|apply Rinv_neq_0_compat; lra]; rewrite Rmult_0_l; exact Ez|].
  split; [exact Hd|]. unfold q. rewrite <- TE.
  destruct (needleman_cases cpow (material n m rate0 e0 e1) K G Y dt d s eN) as [[C _]|[(_ & C' & ->)|(C & C' & ->)]]; [fold E in C; lra| |]; cbn [fst snd]; fold E in C'.
  - split; [exact Hc|]. rewrite <- stays_vm. rewrite Rmin_left; [reflexivity|exact C'].
  - split; [exact Hc|]. rewrite Rmin_right by lra. apply ret_surface; assumption.
Qed.
Print Assumptions C65_root_partial.

(** ** What does not hold *)

(** From every stress without deviator, a step that yields stores less than half of its plastic strain *)
Theorem C65_first_yield_refuted : forall K G Y dt eN n m rate0 e0 e1 (d s : ten), admissible G Y n m rate0 e0 e1 dt eN ->
  let r := fst (needleman (N:=RN) cpow (material n m rate0 e0 e1) K G Y dt d s eN) in
  let true_strain := eqps_inc G dt (ent d) (ent s) (ent (j_stress r)) in
  eq3 (dev_of (ent s)) (fun _ _ => 0) -> smallest <= norm3 (dev_of (elastic_step K G dt (ent d) (ent s))) ->
  mises (ent (j_stress r)) < mises (elastic_step K G dt (ent d) (ent s)) ->
  0 < true_strain /\ j_eqps r < eN + true_strain / 2.
Proof.
  intros K G Y dt eN n m rate0 e0 e1 d s HA. cbv zeta. intros HV HF HC. rewrite smallest_eq in HF. destruct (top_flow K G Y dt eN n m rate0 e0 e1 d s HA) as [_ T0]. cbv zeta in T0. destruct HA as (HG & _).
  set (E := elastic_step K G dt (ent d) (ent s)) in *.
  destruct (needleman_cases cpow (material n m rate0 e0 e1) K G Y dt d s eN) as [[_ X]|[(_ & _ & X)|(C & C' & X)]]; rewrite X in *; cbn [fst] in *; [rewrite <- stays_vm in HC; fold E in HC; lra|rewrite <- stays_vm in HC; fold E in HC; lra|]. fold E in C, C'.
  set (tp := top cpow (material n m rate0 e0 e1) K G Y dt d s eN) in *.
  destruct (ret_virgin K G dt d s eN tp HG HV T0 C' HF) as [Q1 Q2]. fold E in Q1, Q2. fold (returned K G dt d s eN tp) in Q1, Q2.
  assert (P : 0 < eqps_inc G dt (ent d) (ent s) (ent (j_stress (returned K G dt d s eN tp)))) by (rewrite Q2; apply Rdiv_lt_0_compat; lra).
  split; [exact P|]. rewrite Q1. set (t := eqps_inc G dt (ent d) (ent s) (ent (j_stress (returned K G dt d s eN tp)))) in *.
  assert (F : tp / mises E < 1) by (apply Rmult_lt_reg_r with (mises E); [lra|]; unfold Rdiv; rewrite Rmult_assoc, Rinv_l by lra; lra). change (T RN) with R in *. nra.
Qed.
Print Assumptions C65_first_yield_refuted.

(** The bisection looks for the multiplier between 0 and 1.  When the elastic deviator is larger than 2 G plus the
    radius of the flow surface at 100 per cent strain, the residual is positive there, the interval shrinks to 0 for all
    of the 100000 iterations, and the stress is returned to a surface of (almost) no extent *)
Theorem C65_large_step_refuted : forall K G Y dt eN n m rate0 e0 e1 (d s : ten), admissible G Y n m rate0 e0 e1 dt eN ->
  let E := elastic_step K G dt (ent d) (ent s) in
  let high := Y * cpow (1 + (eN + 1) / e0) n * cpow (sqrt (2/3) / dt / rate0) m in
  let r := needleman (N:=RN) cpow (material n m rate0 e0 e1) K G Y dt d s eN in
  smallest <= norm3 (dev_of E) -> Y <= mises E -> 2 * G + sqrt (2/3) * high < norm3 (dev_of E) ->
  snd r = false /\ mises (ent (j_stress (fst r))) <= high * cpow (/ 2 ^ S (Z.to_nat 100000)) m.
Proof.
  intros K G Y dt eN n m rate0 e0 e1 d s HA E hi r HF HY HL. rewrite smallest_eq in HF.
  pose proof (found_large K G Y dt eN n m rate0 e0 e1 d s HA HF HL) as FL.
  destruct (top_flow K G Y dt eN n m rate0 e0 e1 d s HA) as [TE T0]. cbv zeta in TE.
  set (tp := top cpow (material n m rate0 e0 e1) K G Y dt d s eN) in *.
  assert (EL : found cpow (material n m rate0 e0 e1) K G Y dt d s eN = / 2 ^ S (Z.to_nat 100000)) by (unfold found; rewrite FL; reflexivity).
  assert (TP : tp <= hi * cpow (/ 2 ^ S (Z.to_nat 100000)) m).
  { rewrite TE, EL. apply (flow_high G Y dt eN n m rate0 e0 e1 HA).
    - left. apply Rinv_0_lt_compat, pow_lt. lra.
    - pose proof (found_range cpow (material n m rate0 e0 e1) K G Y dt d s eN) as FR. rewrite EL in FR. pose proof s23_pos. assert (sqrt (2/3) <= 1) by (rewrite <- sqrt_1; apply sqrt_le_1_alt; lra).
      destruct HA as (_ & _ & _ & _ & _ & _ & _ & _ & He). set (l := / 2 ^ S (Z.to_nat 100000)) in *. split; nra. }
  unfold r. destruct (needleman_cases cpow (material n m rate0 e0 e1) K G Y dt d s eN) as [[C _]|[(_ & C' & ->)|(C & C' & ->)]]; [fold E in C; lra| |]; cbn [fst snd]; fold E in C'; fold tp in C'; rewrite FL; (split; [reflexivity|]).
  - rewrite <- stays_vm. fold E. lra.
  - fold tp. pose proof (ret_surface K G dt d s eN tp T0 HF) as RS. fold (returned K G dt d s eN tp) in RS. rewrite RS. exact TP.
Qed.
Print Assumptions C65_large_step_refuted.

(** ** Examples: shear from rest *)
Lemma dev_shear : forall g, eq3 (dev_of (ent (shear g))) (ent (shear g)).
Proof. intros g i j Hi Hj. unfold dev_of, tr3, sum3, kron. ij i j Hi Hj; cbn; field. Qed.
Lemma dev_zero : eq3 (dev_of (ent mzero)) (fun _ _ => 0).
Proof. intros i j Hi Hj. unfold dev_of, tr3, sum3, kron. ij i j Hi Hj; cbn; field. Qed.
Lemma norm_zero : norm3 (fun _ _ => 0) = 0.
Proof. unfold norm3, ddot, sum3. replace (0 * 0 + 0 * 0 + 0 * 0 + (0 * 0 + 0 * 0 + 0 * 0) + (0 * 0 + 0 * 0 + 0 * 0)) with 0 by ring. apply sqrt_0. Qed.
(** half the shear modulus one, one step of one second; 5/8 strain in norm *)
Definition pull (t : R) : ten := shear (t / sqrt 2).
Lemma pull_norm : forall t, 0 <= t -> norm3 (dev_of (ent (pull t))) = t.
Proof.
  intros t H. assert (0 < sqrt 2) by (apply sqrt_lt_R0; lra). unfold pull. rewrite (norm_eq3 _ _ (dev_shear _)), shear_norm by (apply Rmult_le_pos; [lra|left; now apply Rinv_0_lt_compat]). field. lra.
Qed.
Lemma pull_step : forall t, eq3 (dev_of (elastic_step 1 (1/2) 1 (ent (pull t)) (ent mzero))) (dev_of (ent (pull t))).
Proof.
  intros t. eapply eq3_trans; [apply shear_step|]. eapply eq3_trans; [|apply eq3_sym, dev_shear]. intros i j Hi Hj. f_equal. unfold pull. f_equal. lra.
Qed.
Lemma pull_E : forall t, 0 <= t -> norm3 (dev_of (elastic_step 1 (1/2) 1 (ent (pull t)) (ent mzero))) = t.
Proof. intros t H. rewrite (norm_eq3 _ _ (pull_step t)). now apply pull_norm. Qed.
Lemma pull_projected : forall t, 0 < t -> projected 1 (1/2) 1 (ent (pull t)) (ent mzero) = t.
Proof.
  intros t H. unfold projected. rewrite pull_E by lra. rewrite (ddot_eq3 _ _ _ (dev_of (ent (pull t))) (pull_step t)); [|intros i j Hi Hj; unfold scaled; ring].
  rewrite <- norm_sq, pull_norm by lra. field. lra.
Qed.
Definition soft_Y : R := sqrt (3/2) / 2.
Definition soft_rate : R := sqrt (2/3) / 2.
Lemma soft_admissible : admissible (1/2) soft_Y 1 1 soft_rate (1/2) 10 1 0.
Proof. unfold admissible, soft_Y, soft_rate. pose proof s23_pos. pose proof s32_pos. repeat split; lra. Qed.
Lemma soft_flow : forall x y, 0 <= x -> 0 <= y -> sqrt (2/3) * flow_stress soft_Y 1 1 soft_rate (1/2) 10 y (sqrt (2/3) * x / 1) = x * (1 + 2 * y) / (1 + (y / 10) ^ 2).
Proof.
  intros x y Hx Hy. pose proof s23_pos. pose proof s32_pos. unfold flow_stress. rewrite !cpow_1; [|unfold soft_rate; replace (sqrt (2/3) * x / 1 / (sqrt (2/3) / 2)) with (2 * x) by (field; lra); lra|lra].
  unfold soft_Y, soft_rate. pose proof (pow2_ge_0 (y / 10)). 
  replace (sqrt (2/3) * (sqrt (3/2) / 2 * (1 + y / (1/2)) / (1 + (y / 10) ^ 2) * (sqrt (2/3) * x / 1 / (sqrt (2/3) / 2)))) with (sqrt (2/3) * sqrt (3/2) * (x * (1 + 2 * y) / (1 + (y / 10) ^ 2))) by (field; split; lra).
  rewrite s23_32. ring.
Qed.
Lemma soft_excess : forall x, 0 <= x -> excess soft_Y 1 1 soft_rate (1/2) 10 1 (1/2) 1 0 (fun x => 0 + x) (ent (pull (5/8))) (ent mzero) x = 5/8 - x - x * (1 + 2 * x) / (1 + (x / 10) ^ 2).
Proof.
  intros x Hx. unfold excess. rewrite soft_flow by lra. rewrite pull_projected by lra. rewrite (norm_eq3 _ _ dev_zero), norm_zero. replace (0 + x) with x by ring. lra.
Qed.
Lemma soft_root : forall z, 0 <= z -> 5/8 - z - z * (1 + 2 * z) / (1 + (z / 10) ^ 2) = 0 -> 0.25 <= z <= 0.2505.
Proof.
  intros z Hz H. pose proof (pow2_ge_0 (z / 10)) as P. set (D := 1 + (z / 10) ^ 2) in *.
  assert (DP : 0 < D) by (unfold D; lra).
  assert (E : (5/8 - z) * D = z * (1 + 2 * z)) by (replace (5/8 - z) with (z * (1 + 2 * z) / D) by lra; field; apply Rgt_not_eq; exact DP).
  assert (ED : D = 1 + z * z / 100) by (unfold D; field). rewrite ED in E. split.
  - destruct (Rle_or_lt 0.25 z); [assumption|]. exfalso. assert (0 <= (5/8 - z) * (z * z / 100)) by (apply Rmult_le_pos; [lra|]; nra). nra.
  - destruct (Rle_or_lt z 0.2505); [assumption|]. exfalso. 
    assert (z * z * z / 100 >= 0) by (assert (0 <= z * z) by nra; nra). nra.
Qed.
Lemma soft_hypotheses : smallest <= norm3 (dev_of (elastic_step 1 (1/2) 1 (ent (pull (5/8))) (ent mzero))) /\
  soft_Y <= mises (elastic_step 1 (1/2) 1 (ent (pull (5/8))) (ent mzero)) /\
  1 * norm3 (dev_of (ent (pull (5/8)))) + norm3 (dev_of (ent mzero)) / (2 * (1/2)) < 1.
Proof.
  rewrite mises_norm, pull_E, pull_norm by lra. rewrite (norm_eq3 _ _ dev_zero), norm_zero. unfold smallest, soft_Y. pose proof s32_pos. repeat split; try lra.
Qed.

(** A step should end on the flow surface of the plastic strain and the plastic strain rate it made.  The equation
    solved takes the multiplier itself for the increment of the equivalent plastic strain, and the surface is then
    evaluated with sqrt(2/3) of it; this step ends at less than 0.95 of the flow stress it should have, although the
    bisection ends by its test *)
Theorem C65_consistency_refuted : exists K G Y dt eN n m rate0 e0 e1 (d s : ten), admissible G Y n m rate0 e0 e1 dt eN /\
  smallest <= norm3 (dev_of (elastic_step K G dt (ent d) (ent s))) /\ Y <= mises (elastic_step K G dt (ent d) (ent s)) /\
  dt * norm3 (dev_of (ent d)) + norm3 (dev_of (ent s)) / (2 * G) < 1 /\ proportional dt (ent d) (ent s) /\
  let r := needleman (N:=RN) cpow (material n m rate0 e0 e1) K G Y dt d s eN in
  let p := eqps_inc G dt (ent d) (ent s) (ent (j_stress (fst r))) in
  snd r = true /\ mises (ent (j_stress (fst r))) < mises (elastic_step K G dt (ent d) (ent s)) /\
  mises (ent (j_stress (fst r))) < 0.95 * flow_stress Y n m rate0 e0 e1 (eN + p) (p / dt).
Proof.
  exists 1, (1/2), soft_Y, 1, 0, 1, 1, soft_rate, (1/2), 10, (pull (5/8)), mzero. pose proof soft_admissible as HA. destruct soft_hypotheses as (H1 & H2 & H3).
  split; [exact HA|]. split; [exact H1|]. split; [exact H2|]. split; [exact H3|]. split; [apply virgin_proportional, dev_zero|].
  set (r := needleman (N:=RN) cpow (material 1 1 soft_rate (1/2) 10) 1 (1/2) soft_Y 1 (pull (5/8)) mzero 0). cbv zeta.
  destruct (C65_root_partial 1 (1/2) soft_Y 1 0 1 1 soft_rate (1/2) 10 (pull (5/8)) mzero HA H1 H2 H3) as (lam & z & Hz & Hl & Ez & _ & Hc & HM). fold r in Hc, HM.
  rewrite soft_excess in Ez by lra. apply soft_root in Ez; [|lra].
  assert (PZ : / 2 ^ Z.to_nat 99980 <= z).
  { apply Rle_trans with (/ 2 ^ 2); [|lra]. apply Rinv_le_contravar; [apply pow_lt; lra|]. apply Rle_pow; [lra|lia]. }
  destruct (Hc PZ) as [OK HD]. assert (LB : 0.2499 <= lam <= 0.2506) by (pose proof (Rle_abs (lam - z)); pose proof (Rle_abs (- (lam - z))) as RA; rewrite Rabs_Ropp in RA; lra).
  pose proof s23_pos as S0. pose proof s23_sq as S1. pose proof s32_pos as S2. pose proof s23_32 as S3. set (q := sqrt (2/3)) in *.
  assert (Q : 0.816 < q < 0.817) by (split; nra).
  assert (QL : 0 <= q * lam) by nra.
  pose proof (soft_flow lam (q * lam) ltac:(lra) QL) as FL. fold q in FL. replace (0 + q * lam) with (q * lam) in HM by ring.
  assert (EE : mises (elastic_step 1 (1/2) 1 (ent (pull (5/8))) (ent mzero)) = sqrt (3/2) * (5/8)) by (rewrite mises_norm, pull_E by lra; reflexivity).
  set (phi := flow_stress soft_Y 1 1 soft_rate (1/2) 10 (q * lam) (q * lam / 1)) in *.
  assert (D1 : 1 <= 1 + (q * lam / 10) ^ 2 <= 1.0005) by (split; nra). set (D := 1 + (q * lam / 10) ^ 2) in *.
  assert (B1 : lam * (1 + 2 * (q * lam)) <= 0.35325) by nra.
  assert (B2 : 0 <= lam * (1 + 2 * (q * lam))) by nra.
  assert (FB : q * phi <= lam * (1 + 2 * (q * lam))).
  { rewrite FL. apply Rmult_le_reg_r with D; [lra|]. unfold Rdiv. rewrite Rmult_assoc, Rinv_l by (apply Rgt_not_eq; lra). nra. }
  assert (PL : phi < sqrt (3/2) * (5/8)).
  { apply Rmult_lt_reg_l with q; [lra|]. rewrite <- Rmult_assoc, S3. lra. }
  assert (MM : mises (ent (j_stress (fst r))) = phi) by (rewrite HM, EE; apply Rmin_right; lra).
  split; [exact OK|]. rewrite MM, EE. split; [exact PL|].
  (* the plastic strain of the step *)
  assert (EP : eqps_inc (1/2) 1 (ent (pull (5/8))) (ent mzero) (ent (j_stress (fst r))) = q * (5/8 - q * phi)).
  { unfold r in *. destruct (top_flow 1 (1/2) soft_Y 1 0 1 1 soft_rate (1/2) 10 (pull (5/8)) mzero HA) as [_ T0]. cbv zeta in T0.
    destruct (needleman_cases cpow (material 1 1 soft_rate (1/2) 10) 1 (1/2) soft_Y 1 (pull (5/8)) mzero 0) as [[C X]|[(_ & C' & X)|(C & C' & X)]]; rewrite X in MM |- *; cbn [fst] in MM |- *.
    - lra.
    - exfalso. rewrite <- stays_vm, EE in MM. lra.
    - set (tp := top cpow (material 1 1 soft_rate (1/2) 10) 1 (1/2) soft_Y 1 (pull (5/8)) mzero 0) in *. rewrite smallest_eq in H1.
      destruct (ret_virgin 1 (1/2) 1 (pull (5/8)) mzero 0 tp ltac:(lra) dev_zero T0 C' H1) as [_ Q2]. fold (returned 1 (1/2) 1 (pull (5/8)) mzero 0 tp) in Q2. rewrite Q2.
      pose proof (ret_surface 1 (1/2) 1 (pull (5/8)) mzero 0 tp T0 H1) as RS. fold (returned 1 (1/2) 1 (pull (5/8)) mzero 0 tp) in RS. rewrite MM in RS. rewrite <- RS, EE.
      replace (q * (5/8 - q * phi)) with (q * (5/8) - q * q * phi) by ring. rewrite S1. replace (sqrt (3/2)) with (3/2 * q) by (apply Rmult_eq_reg_l with q; [|lra]; rewrite S3; replace (q * (3/2 * q)) with (3/2 * (q * q)) by ring; rewrite S1; lra). field. }
  rewrite EP. set (mu := 5/8 - q * phi) in *. assert (MU : 0.2717 <= mu <= 0.625) by (unfold mu; split; [lra|]; assert (0 <= q * phi) by (rewrite FL; apply Rmult_le_pos; [lra|left; apply Rinv_0_lt_compat; lra]); lra).
  replace (0 + q * mu) with (q * mu) by ring. pose proof (soft_flow mu (q * mu) ltac:(lra) ltac:(nra)) as FM. fold q in FM. set (psi := flow_stress soft_Y 1 1 soft_rate (1/2) 10 (q * mu) (q * mu / 1)) in *.
  apply Rmult_lt_reg_l with q; [lra|]. replace (q * (0.95 * psi)) with (0.95 * (q * psi)) by ring. rewrite FM.
  apply Rle_lt_trans with (lam * (1 + 2 * (q * lam))); [exact FB|].
  assert (D2 : 1 <= 1 + (q * mu / 10) ^ 2 <= 1.003) by (split; nra). set (D' := 1 + (q * mu / 10) ^ 2) in *.
  apply Rmult_lt_reg_r with D'; [lra|]. replace (0.95 * (mu * (1 + 2 * (q * mu)) / D') * D') with (0.95 * (mu * (1 + 2 * (q * mu)))) by (field; apply Rgt_not_eq; lra).
  assert (0.39 <= mu * (1 + 2 * (q * mu))) by nra. nra.
Qed.
Print Assumptions C65_consistency_refuted.

(** ** The hypotheses are met *)
(** C65_root_partial, C65_first_yield_refuted: the step of C65_consistency_refuted, from rest *)
Example C65_root_met : admissible (1/2) soft_Y 1 1 soft_rate (1/2) 10 1 0 /\ smallest <= norm3 (dev_of (elastic_step 1 (1/2) 1 (ent (pull (5/8))) (ent mzero))) /\
  soft_Y <= mises (elastic_step 1 (1/2) 1 (ent (pull (5/8))) (ent mzero)) /\ 1 * norm3 (dev_of (ent (pull (5/8)))) + norm3 (dev_of (ent mzero)) / (2 * (1/2)) < 1 /\
  eq3 (dev_of (ent mzero)) (fun _ _ => 0).
Proof. split; [apply soft_admissible|]. destruct soft_hypotheses as (H1 & H2 & H3). repeat split; try assumption. apply dev_zero. Qed.
(** C65_large_step_refuted: the same material pulled eight times as far *)
Example C65_large_met : smallest <= norm3 (dev_of (elastic_step 1 (1/2) 1 (ent (pull 5)) (ent mzero))) /\ soft_Y <= mises (elastic_step 1 (1/2) 1 (ent (pull 5)) (ent mzero)) /\
  2 * (1/2) + sqrt (2/3) * (soft_Y * cpow (1 + (0 + 1) / (1/2)) 1 * cpow (sqrt (2/3) / 1 / soft_rate) 1) < norm3 (dev_of (elastic_step 1 (1/2) 1 (ent (pull 5)) (ent mzero))).
Proof.
  rewrite mises_norm, pull_E by lra. pose proof s23_pos. pose proof s32_pos. pose proof s23_32 as S3. unfold smallest, soft_Y, soft_rate. split; [lra|]. split; [lra|].
  replace (sqrt (2/3) / 1 / (sqrt (2/3) / 2)) with 2 by (field; lra). rewrite !cpow_1 by lra.
  replace (sqrt (2/3) * (sqrt (3/2) / 2 * (1 + (0 + 1) / (1/2)) * 2)) with (sqrt (2/3) * sqrt (3/2) * 3) by field. rewrite S3. lra.
Qed.
