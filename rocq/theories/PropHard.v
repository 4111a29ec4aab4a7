(** * C59: J2 plasticity with isotropic hardening (one-step update) *)
From Coq Require Import Reals Lra Lia.
From Verif Require Import Base Num ModelForce ModelCorr SpecCorr ModelPlastic ModelGlobal ModelJ2 SpecJ2 ProofData ProofCorr ProofCubic ProofJ2 ProofJ22 ProofJ24 PropJ2.
Local Open Scope R_scope.
Local Notation ten := (M3 RN).

(** ** What holds *)

(** von Mises stress reported, pressure, plastic strain not decreasing, elastic below the initial yield stress *)
Theorem C59_reported : forall K G Y H dt (d s : ten) eN, j_vm (hardening (N:=RN) K G Y H dt d s eN) = mises (ent (j_stress (hardening (N:=RN) K G Y H dt d s eN))).
Proof.
  intros K G Y H dt d s eN. destruct (hardening_cases K G dt d s eN Y H) as [[C ->]|(C & C' & ->)]; [rewrite <- stays_vm; reflexivity|apply radial_vm, dev_tr0].
Qed.
Print Assumptions C59_reported.
Theorem C59_pressure : forall K G Y H dt (d s : ten) eN,
  tr3 (ent (j_stress (hardening (N:=RN) K G Y H dt d s eN))) / 3 = tr3 (ent s) / 3 + K * (dt * tr3 (ent d)).
Proof.
  intros K G Y H dt d s eN. destruct (hardening_cases K G dt d s eN Y H) as [[C ->]|(C & C' & ->)].
  - cbn [stays j_stress]. rewrite (tr3_eq3 _ _ (trial_ent K G dt d s)), tr_trial. field.
  - apply ret_pressure.
Qed.
Print Assumptions C59_pressure.
Theorem C59_elastic : forall K G Y H dt (d s : ten) eN, mises (elastic_step K G dt (ent d) (ent s)) < Y ->
  eq3 (ent (j_stress (hardening (N:=RN) K G Y H dt d s eN))) (elastic_step K G dt (ent d) (ent s)) /\ j_eqps (hardening (N:=RN) K G Y H dt d s eN) = eN.
Proof.
  intros K G Y H dt d s eN HY. destruct (hardening_cases K G dt d s eN Y H) as [[C ->]|(C & C' & ->)]; [|lra]. split; [apply trial_ent|reflexivity].
Qed.
Print Assumptions C59_elastic.
(** ... the surface a step returns to is never smaller than the one the material had, and the deviator keeps its direction *)
Theorem C59_surface_grows : forall K G Y H dt (d s : ten) eN, 0 < G -> 0 <= H -> 0 <= Y -> 0 <= eN ->
  smallest <= norm3 (dev_of (elastic_step K G dt (ent d) (ent s))) ->
  let r := hardening (N:=RN) K G Y H dt d s eN in
  eq3 (ent (j_stress r)) (elastic_step K G dt (ent d) (ent s)) /\ j_eqps r = eN \/
  Y + H * eN <= mises (ent (j_stress r)) < mises (elastic_step K G dt (ent d) (ent s)) /\
  eq3 (dev_of (ent (j_stress r))) (scaled (mises (ent (j_stress r)) / mises (elastic_step K G dt (ent d) (ent s))) (dev_of (elastic_step K G dt (ent d) (ent s)))) /\
  eN <= j_eqps r <= eN + eqps_inc G dt (ent d) (ent s) (ent (j_stress r)).
Proof.
  intros K G Y H dt d s eN HG HH HY He HF. rewrite smallest_eq in HF. cbv zeta. destruct (hardening_cases K G dt d s eN Y H) as [[C ->]|(C & C' & ->)].
  - left. split; [apply trial_ent|reflexivity].
  - right. pose proof (delta_lower K G dt d s Y H HG HH HF) as DL.
    assert (S0 : Y + H * eN <= surface K G dt d s eN Y H).
    { unfold surface. assert (0 <= (mises (elastic_step K G dt (ent d) (ent s)) - Y) / (H + 3 * G)) by (apply Rmult_le_pos; [lra|left; apply Rinv_0_lt_compat; lra]). 
      rewrite Rmult_plus_distr_l. assert (0 <= H * (sqrt (2 / 3) * delta_lambda (N:=RN) G H Y (dev_inc (N:=RN) dt d) (deviator (trial (N:=RN) K G dt d s)) (magnitude (deviator (trial (N:=RN) K G dt d s))) s)) by (apply Rmult_le_pos; lra). lra. }
    assert (S1 : 0 <= surface K G dt d s eN Y H) by nra.
    assert (SM : mises (ent (j_stress (returned K G dt d s eN (surface K G dt d s eN Y H)))) = surface K G dt d s eN Y H) by (apply ret_surface; assumption).
    split; [lra|]. split; [|split; [apply radial_eqps|]].
    + rewrite SM. eapply eq3_trans; [apply ret_dev|]. intros i j Hi Hj. unfold scaled. f_equal.
      rewrite magnitude_eq, norm_E, Rmax_right by exact HF. rewrite mises_norm. pose proof s23_32. pose proof s23_pos. pose proof s32_pos.
      assert (0 < norm3 (dev_of (elastic_step K G dt (ent d) (ent s)))) by (pose proof f20_pos; lra).
      replace (sqrt (2/3)) with (/ sqrt (3/2)) by (apply Rmult_eq_reg_r with (sqrt (3/2)); [rewrite Rinv_l by lra; lra|lra]). field. split; lra.
    + pose proof (ret_bound K G dt d s eN _ ltac:(lra) S1 C'). unfold returned in *. lra.
Qed.
Print Assumptions C59_surface_grows.
(** ... and without hardening the update is the perfectly plastic one *)
Theorem C59_no_hardening : forall K G Y dt (d s : ten) eN, hardening (N:=RN) K G Y 0 dt d s eN = perfect (N:=RN) K G Y dt d s eN.
Proof. exact no_hardening. Qed.
Print Assumptions C59_no_hardening.
(** ... over any number of steps *)
Theorem C59_history_partial : forall K G Y H steps (s : ten) e, exists l,
  history (N:=RN) (fun dt d s e => Ok (hardening (N:=RN) K G Y H dt d s e)) steps s e = Ok l /\ length l = length steps /\
  Forall (fun r => j_vm r = mises (ent (j_stress r))) l /\ chain Rle e (map j_eqps l).
Proof.
  intros K G Y H steps s e. apply history_chain. intros dt d s' e'. eexists. split; [reflexivity|]. split; [apply C59_reported|].
  destruct (hardening_cases K G dt d s' e' Y H) as [[C ->]|(C & C' & ->)]; [apply Rle_refl|apply radial_eqps].
Qed.
Print Assumptions C59_history_partial.

(** The flaw lowers the yield stress by the Gaussian of the distance, never below (1 - magnitude) of it *)
Theorem C59_flaw : forall Y (c X : V3 RN) size mag, reduced (N:=RN) exp Y (Some (c, size, mag)) X = Y * (1 - mag * exp (- (vdot (vsub X c) (vsub X c)) / size / size)) /\
  (0 <= Y -> 0 <= mag -> size <> 0 -> Y * (1 - mag) <= reduced (N:=RN) exp Y (Some (c, size, mag)) X <= Y).
Proof.
  intros Y c X size mag. assert (E : reduced (N:=RN) exp Y (Some (c, size, mag)) X = Y * (1 - mag * exp (- (vdot (vsub X c) (vsub X c)) / size / size))).
  { unfold reduced. to_R. unfold vdot, vsub. cbn. do 4 f_equal. unfold Rdiv. f_equal. f_equal. ring. }
  split; [exact E|]. intros HY Hm Hs. rewrite E. set (q := vdot (vsub X c) (vsub X c)).
  assert (Q : 0 <= q) by (unfold q, vdot; to_R; nra).
  assert (Z : - q / size / size <= 0).
  { unfold Rdiv. rewrite Rmult_assoc. assert (0 < / size * / size) by (rewrite <- Rinv_mult; apply Rinv_0_lt_compat; nra). nra. }
  assert (exp (- q / size / size) <= 1) by (destruct Z as [Z|Z]; [left; rewrite <- exp_0; now apply exp_increasing|rewrite Z, exp_0; lra]).
  pose proof (exp_pos (- q / size / size)). assert (0 <= Y * mag) by nra.
  assert (0 <= Y * mag * (1 - exp (- q / size / size))) by (apply Rmult_le_pos; lra). assert (0 <= Y * mag * exp (- q / size / size)) by (apply Rmult_le_pos; lra). split; nra.
Qed.
Print Assumptions C59_flaw.

(** ** What does not hold *)

(** A hardening material should keep the von Mises stress at most Y + H times its equivalent plastic strain.
    From every stress without deviator, at the first plastic step, it does not: the stress is the right one for the
    plastic strain of that step, but the strain stored is less than half of it *)
Theorem C59_first_yield_refuted : forall K G Y H dt (d s : ten), 0 < G -> 0 < H -> 0 < Y -> eq3 (dev_of (ent s)) (fun _ _ => 0) ->
  Y < mises (elastic_step K G dt (ent d) (ent s)) -> smallest <= norm3 (dev_of (elastic_step K G dt (ent d) (ent s))) ->
  let r := hardening (N:=RN) K G Y H dt d s 0 in
  let true_strain := eqps_inc G dt (ent d) (ent s) (ent (j_stress r)) in
  mises (ent (j_stress r)) = Y + H * true_strain /\ 0 < true_strain /\ j_eqps r < true_strain / 2 /\ Y + H * j_eqps r < mises (ent (j_stress r)).
Proof.
  intros K G Y H dt d s HG HH HY HV HC HF. rewrite smallest_eq in HF. cbv zeta. set (E := elastic_step K G dt (ent d) (ent s)) in *.
  pose proof (delta_prop K G dt d s Y H (virgin_proportional dt (ent d) (ent s) HV) HG ltac:(lra) HF) as DP. fold E in DP.
  assert (SE : surface K G dt d s 0 Y H = Y + H * ((mises E - Y) / (H + 3 * G))) by (unfold surface; rewrite Rplus_0_l; f_equal; f_equal; exact DP).
  assert (P : 0 < (mises E - Y) / (H + 3 * G)) by (apply Rdiv_lt_0_compat; lra).
  assert (SG : mises E - surface K G dt d s 0 Y H = 3 * G * ((mises E - Y) / (H + 3 * G))) by (rewrite SE; field; lra).
  assert (S0 : Y < surface K G dt d s 0 Y H) by (rewrite SE; assert (0 < H * ((mises E - Y) / (H + 3 * G))) by (now apply Rmult_lt_0_compat); lra).
  assert (S1 : surface K G dt d s 0 Y H < mises E) by (assert (0 < 3 * G * ((mises E - Y) / (H + 3 * G))) by (apply Rmult_lt_0_compat; lra); lra).
  destruct (hardening_cases K G dt d s 0 Y H) as [[C _]|(C & C' & ->)]; [fold E in C; lra|].
  destruct (ret_virgin K G dt d s 0 (surface K G dt d s 0 Y H) HG HV ltac:(lra) S1 HF) as [Q1 Q2]. fold E in Q1, Q2.
  pose proof (ret_surface K G dt d s 0 (surface K G dt d s 0 Y H) ltac:(lra) HF) as SM. fold (returned K G dt d s 0 (surface K G dt d s 0 Y H)) in *.
  assert (T : eqps_inc G dt (ent d) (ent s) (ent (j_stress (returned K G dt d s 0 (surface K G dt d s 0 Y H)))) = (mises E - Y) / (H + 3 * G)) by (rewrite Q2, SG; field; lra).
  rewrite Q1, SM. rewrite T in *.
  assert (F : 0 <= surface K G dt d s 0 Y H / mises E < 1) by (split; [apply Rmult_le_pos; [lra|left; apply Rinv_0_lt_compat; lra]|apply Rmult_lt_reg_r with (mises E); [lra|]; unfold Rdiv; rewrite Rmult_assoc, Rinv_l by lra; lra]).
  set (t := (mises E - Y) / (H + 3 * G)) in *. set (k := surface K G dt d s 0 Y H / mises E) in *.
  split; [exact SE|]. split; [exact P|]. to_R. split; [nra|]. rewrite SE. assert (0 + k / 2 * t < t) by nra. apply Rplus_lt_compat_l. apply Rmult_lt_compat_l; lra.
Qed.
Print Assumptions C59_first_yield_refuted.

(** A second defect works from any hardened state: the plastic multiplier is computed from the initial yield stress,
    so a step that ends beyond the hardened surface by no more than H eN H / 3 G is taken for elastic *)
Theorem C59_overshoot_refuted : forall K G Y H dt (d s : ten) eN, 0 < G -> 0 < H -> 0 <= Y -> 0 < eN ->
  smallest <= norm3 (dev_of (elastic_step K G dt (ent d) (ent s))) ->
  Y + H * eN < mises (elastic_step K G dt (ent d) (ent s)) <= Y + H * eN * (1 + H / (3 * G)) ->
  let r := hardening (N:=RN) K G Y H dt d s eN in
  eq3 (ent (j_stress r)) (elastic_step K G dt (ent d) (ent s)) /\ j_eqps r = eN /\ Y + H * j_eqps r < mises (ent (j_stress r)).
Proof.
  intros K G Y H dt d s eN HG HH HY He HF HC. rewrite smallest_eq in HF. cbv zeta. pose proof (delta_lower K G dt d s Y H HG ltac:(lra) HF) as DL.
  set (E := elastic_step K G dt (ent d) (ent s)) in *.
  destruct (hardening_cases K G dt d s eN Y H) as [[C ->]|(C & C' & ->)].
  - split; [apply trial_ent|]. split; [reflexivity|]. rewrite <- stays_vm. cbn [stays j_eqps]. apply HC.
  - exfalso. fold E in C, C'. unfold surface in C'.
    assert (Q : H * (eN + (mises E - Y) / (H + 3 * G)) <= H * (eN + sqrt (2 / 3) * delta_lambda (N:=RN) G H Y (dev_inc (N:=RN) dt d) (deviator (trial (N:=RN) K G dt d s)) (magnitude (deviator (trial (N:=RN) K G dt d s))) s)) by (apply Rmult_le_compat_l; lra).
    assert (Q' : Y + H * (eN + (mises E - Y) / (H + 3 * G)) < mises E) by lra.
    assert (Z : (mises E - Y) * (3 * G) <= H * eN * (3 * G + H)).
    { destruct HC as [_ HC]. apply Rmult_le_reg_r with (/ (3 * G)); [apply Rinv_0_lt_compat; lra|].
      replace ((mises E - Y) * (3 * G) * / (3 * G)) with (mises E - Y) by (field; lra). replace (H * eN * (3 * G + H) * / (3 * G)) with (H * eN * (1 + H / (3 * G))) by (field; lra). lra. }
    assert (Q2 : H * eN * (H + 3 * G) + H * (mises E - Y) < (mises E - Y) * (H + 3 * G)).
    { replace (H * eN * (H + 3 * G) + H * (mises E - Y)) with (H * (eN + (mises E - Y) / (H + 3 * G)) * (H + 3 * G)) by (field; lra). apply Rmult_lt_compat_r; lra. }
    nra.
Qed.
Print Assumptions C59_overshoot_refuted.

(** ** The power law update with triaxiality *)
Section Power.
  Variables (powf : R -> R -> R) (K G Y eps0 n dt flag : R) (d s : ten) (eN : R) (stored : J2 RN * R).
  Let E := elastic_step K G dt (ent d) (ent s).
  Let r := power_law (N:=RN) powf K G Y eps0 n dt flag d s eN stored.
  Lemma power_cases : flag < 0 ->
    (mises E < Y * powf (1 + eN / eps0) n /\ r = (stays K G dt d s eN, snd stored)) \/
    (Y * powf (1 + eN / eps0) n <= mises E /\ snd r = triaxiality (fst r) /\ (fst r = stays K G dt d s eN \/ exists y, y < mises E /\ fst r = returned K G dt d s eN y)).
  Proof.
    intros HF. unfold r, power_law. cbv zeta. rewrite !vm_E. to_R. rewrite (proj2 (Rltb_true _ _) HF).
    destruct (Rltb (mises (elastic_step K G dt (ent d) (ent s))) (Y * powf (1 + eN / eps0) n)) eqn:C.
    - apply Rltb_true in C. left. split; [exact C|reflexivity].
    - apply Rltb_false in C. right. split; [exact C|]. split; [reflexivity|]. cbn [fst].
      match goal with |- context [Rltb ?a ?b] => destruct (Rltb a b) eqn:C' end; [right|left; reflexivity].
      apply Rltb_true in C'. eexists. split; [exact C'|reflexivity].
  Qed.
End Power.
Theorem C59_power_law_partial : forall powf K G Y eps0 n dt flag (d s : ten) eN stored,
  let r := fst (power_law (N:=RN) powf K G Y eps0 n dt flag d s eN stored) in
  (0 <= flag -> power_law (N:=RN) powf K G Y eps0 n dt flag d s eN stored = stored) /\
  (flag < 0 -> j_vm r = mises (ent (j_stress r)) /\ eN <= j_eqps r /\ tr3 (ent (j_stress r)) / 3 = tr3 (ent s) / 3 + K * (dt * tr3 (ent d)) /\
    (mises (elastic_step K G dt (ent d) (ent s)) < Y * powf (1 + eN / eps0) n -> eq3 (ent (j_stress r)) (elastic_step K G dt (ent d) (ent s)) /\ j_eqps r = eN)).
Proof.
  intros powf K G Y eps0 n dt flag d s eN stored. cbv zeta. split.
  - intros H. unfold power_law. to_R. now rewrite (proj2 (Rltb_false _ _) H).
  - intros H. destruct (power_cases powf K G Y eps0 n dt flag d s eN stored H) as [[C ->]|(C & _ & [->|(y & Hy & ->)])]; cbn [fst].
    + split; [rewrite <- stays_vm; reflexivity|]. split; [apply Rle_refl|]. split; [|split; [apply trial_ent|reflexivity]].
      cbn [stays j_stress]. rewrite (tr3_eq3 _ _ (trial_ent K G dt d s)), tr_trial. field.
    + split; [rewrite <- stays_vm; reflexivity|]. split; [apply Rle_refl|]. split; [|intros; lra].
      cbn [stays j_stress]. rewrite (tr3_eq3 _ _ (trial_ent K G dt d s)), tr_trial. field.
    + split; [apply radial_vm, dev_tr0|]. split; [apply radial_eqps|]. split; [apply ret_pressure|intros; lra].
Qed.
Print Assumptions C59_power_law_partial.
(** The triaxiality reported is the one of the new stress only if the step may be plastic: an elastic step keeps
    whatever was stored, although it replaces the stress *)
Theorem C59_triaxiality_refuted : forall powf K G Y eps0 n dt flag (d s : ten) eN stored, flag < 0 ->
  let r := power_law (N:=RN) powf K G Y eps0 n dt flag d s eN stored in
  let s' := ent (j_stress (fst r)) in
  (mises (elastic_step K G dt (ent d) (ent s)) < Y * powf (1 + eN / eps0) n -> snd r = snd stored) /\
  (Y * powf (1 + eN / eps0) n <= mises (elastic_step K G dt (ent d) (ent s)) -> snd r = tr3 s' / (3 * Rmax smallest (mises s'))).
Proof.
  intros powf K G Y eps0 n dt flag d s eN stored H. cbv zeta.
  destruct (C59_power_law_partial powf K G Y eps0 n dt flag d s eN stored) as [_ Q]. destruct (Q H) as (V & _).
  destruct (power_cases powf K G Y eps0 n dt flag d s eN stored H) as [[C E]|(C & E & _)]; split; intros D; try lra.
  - rewrite E. reflexivity.
  - rewrite E. unfold triaxiality. rewrite nmax_R, V, trace_ent, smallest_eq. reflexivity.
Qed.
Print Assumptions C59_triaxiality_refuted.

(** ** The hypotheses are met *)
Example C59_first_yield_met : eq3 (dev_of (ent mzero)) (fun _ _ => 0) /\ 1 < mises (elastic_step 1 1 1 (ent (shear 1)) (ent mzero)) /\ smallest <= norm3 (dev_of (elastic_step 1 1 1 (ent (shear 1)) (ent mzero))).
Proof. split; [|apply C19_plastic_met]. intros i j Hi Hj. unfold dev_of, tr3, sum3, kron. ij i j Hi Hj; cbn; field. Qed.
(** G = 1, H = 3, Y = 1, plastic strain 1/2: surface 2.5, and steps up to 4 are taken for elastic, e.g. this one of 2 sqrt 3 *)
Example C59_overshoot_met : smallest <= norm3 (dev_of (elastic_step 1 1 1 (ent (shear 1)) (ent mzero))) /\
  1 + 3 * (1/2) < mises (elastic_step 1 1 1 (ent (shear 1)) (ent mzero)) <= 1 + 3 * (1/2) * (1 + 3 / (3 * 1)).
Proof. split; [apply C19_plastic_met|]. rewrite shear_mises by lra. pose proof sqrt3_bounds. lra. Qed.
(** a first elastic step under pure pressure: the stress has triaxiality of the order 1e20, the stored 0 stays *)
Example C59_triaxiality_met : let d := @m3 RN 1 0 0 0 1 0 0 0 1 in
  -1 < 0 /\ mises (elastic_step 1 1 1 (ent d) (ent mzero)) < 1 * Rpower (1 + 0 / 1) 1 /\
  0 < tr3 (elastic_step 1 1 1 (ent d) (ent mzero)).
Proof.
  cbv zeta. split; [lra|]. split.
  - rewrite mises_norm, (norm_eq3 _ (fun _ _ => 0)).
    + unfold norm3, ddot, sum3. replace (0 * 0 + 0 * 0 + 0 * 0 + (0 * 0 + 0 * 0 + 0 * 0) + (0 * 0 + 0 * 0 + 0 * 0)) with 0 by ring. rewrite sqrt_0, Rmult_0_r. rewrite Rmult_1_l. apply exp_pos.
    + intros i j Hi Hj. unfold elastic_step, hooke_of, dev_of, scaled, tr3, sum3, kron. ij i j Hi Hj; cbn; field.
  - rewrite tr_trial. unfold tr3, sum3. cbn. lra.
Qed.
