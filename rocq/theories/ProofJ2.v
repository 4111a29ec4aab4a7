(** * Algebra of the stress updates *)
From Coq Require Import Reals Lra Lia.
From Verif Require Import Base Num ModelForce ModelCorr SpecCorr ModelPlastic ModelGlobal ModelJ2 SpecJ2 ProofCorr ProofCubic.
Local Open Scope R_scope.
Local Notation ten := (M3 RN).

(** ** From stored numbers to matrices *)
Lemma ent_diag_add : forall (a : ten) (k : R) i j, (i < 3)%nat -> (j < 3)%nat -> ent (diag_add a k) i j = ent a i j + k * kron i j.
Proof. intros a k i j Hi Hj. ij i j Hi Hj; cbn; rring. Qed.
Lemma ent_diag_sub : forall (a : ten) (k : R) i j, (i < 3)%nat -> (j < 3)%nat -> ent (diag_sub a k) i j = ent a i j - k * kron i j.
Proof. intros a k i j Hi Hj. ij i j Hi Hj; cbn; rring. Qed.
Lemma ent_mmulr : forall (a : ten) (k : R) i j, (i < 3)%nat -> (j < 3)%nat -> ent (mmulr a k) i j = ent a i j * k.
Proof. intros a k i j Hi Hj. ij i j Hi Hj; cbn; rring. Qed.
Lemma ent_mdivr : forall (a : ten) (k : R) i j, (i < 3)%nat -> (j < 3)%nat -> ent (mdivr a k) i j = ent a i j / k.
Proof. intros a k i j Hi Hj. ij i j Hi Hj; cbn; reflexivity. Qed.
Lemma ent_madd : forall (a b : ten) i j, (i < 3)%nat -> (j < 3)%nat -> ent (madd a b) i j = ent a i j + ent b i j.
Proof. intros a b i j Hi Hj. ij i j Hi Hj; cbn; reflexivity. Qed.
Lemma ent_msub : forall (a b : ten) i j, (i < 3)%nat -> (j < 3)%nat -> ent (msub a b) i j = ent a i j - ent b i j.
Proof. intros a b i j Hi Hj. ij i j Hi Hj; cbn; reflexivity. Qed.
Lemma ent_mscale : forall (k : R) (a : ten) i j, (i < 3)%nat -> (j < 3)%nat -> ent (mscale (N:=RN) k a) i j = k * ent a i j.
Proof. intros k a i j Hi Hj. ij i j Hi Hj; cbn; reflexivity. Qed.
Lemma trace_ent : forall a : ten, trace a = tr3 (ent a).
Proof. reflexivity. Qed.
Lemma contract_ent : forall a b : ten, contract a b = ddot (ent a) (ent b).
Proof. intros a b. unfold contract, ddot, sum3. cbn. rring. Qed.
Lemma spherical_ent_j : forall a : ten, spherical a = tr3 (ent a) / 3.
Proof. intros a. unfold spherical. rewrite <- trace_ent. reflexivity. Qed.
Lemma deviator_ent : forall a : ten, eq3 (ent (deviator a)) (dev_of (ent a)).
Proof. intros a i j Hi Hj. unfold deviator. rewrite ent_diag_sub by auto. rewrite spherical_ent_j. reflexivity. Qed.
Lemma eq3_trans : forall a b c, eq3 a b -> eq3 b c -> eq3 a c.
Proof. intros a b c H H' i j Hi Hj. rewrite H by auto. now apply H'. Qed.
Lemma eq3_sym : forall a b, eq3 a b -> eq3 b a.
Proof. intros a b H i j Hi Hj. symmetry. now apply H. Qed.
Lemma ddot_eq3 : forall a b c d, eq3 a b -> eq3 c d -> ddot a c = ddot b d.
Proof. intros a b c d H H'. unfold ddot, sum3. rewrite !H, !H' by lia. reflexivity. Qed.
Lemma tr3_eq3 : forall a b, eq3 a b -> tr3 a = tr3 b.
Proof. intros a b H. unfold tr3, sum3. rewrite !H by lia. reflexivity. Qed.
Lemma dev_eq3 : forall a b, eq3 a b -> eq3 (dev_of a) (dev_of b).
Proof. intros a b H i j Hi Hj. unfold dev_of. rewrite (tr3_eq3 a b H), H by auto. reflexivity. Qed.
Lemma norm_eq3 : forall a b, eq3 a b -> norm3 a = norm3 b.
Proof. intros a b H. unfold norm3. now rewrite (ddot_eq3 a b a b H H). Qed.
Lemma mises_eq3 : forall a b, eq3 a b -> mises a = mises b.
Proof. intros a b H. unfold mises. now rewrite (ddot_eq3 _ _ _ _ (dev_eq3 a b H) (dev_eq3 a b H)). Qed.
Lemma dev_inc_ent : forall dt (d : ten), eq3 (ent (dev_inc (N:=RN) dt d)) (scaled dt (dev_of (ent d))).
Proof.
  intros dt d i j Hi Hj. unfold dev_inc. rewrite ent_diag_sub by auto. unfold dilatation_inc, strain_inc. rewrite ent_mmulr by auto.
  unfold scaled, dev_of, tr3, sum3, trace, mmulr. cbn. field.
Qed.
Lemma trial_ent : forall K G dt (d s : ten), eq3 (ent (trial (N:=RN) K G dt d s)) (elastic_step K G dt (ent d) (ent s)).
Proof.
  intros K G dt d s i j Hi Hj. unfold trial, hooke. rewrite ent_diag_add by auto. rewrite ent_madd by auto. rewrite !ent_mmulr by auto. rewrite dev_inc_ent by auto.
  unfold elastic_step, hooke_of, scaled, dev_of, dilatation_inc, strain_inc, trace, tr3, sum3, mmulr. cbn. field.
Qed.

(** ** Deviators *)
Lemma tr_dev : forall a, tr3 (dev_of a) = 0.
Proof. intros a. unfold dev_of, tr3, sum3, kron. cbn. field. Qed.
Lemma dev_dev : forall a, eq3 (dev_of (dev_of a)) (dev_of a).
Proof. intros a i j Hi Hj. unfold dev_of at 1. rewrite tr_dev. field. Qed.
Lemma dev_scaled : forall k a, eq3 (dev_of (scaled k a)) (scaled k (dev_of a)).
Proof. intros k a i j Hi Hj. unfold dev_of, scaled, tr3, sum3. field. Qed.
Lemma dev_shift : forall a p, eq3 (dev_of (fun i j => a i j + p * kron i j)) (dev_of a).
Proof. intros a p i j Hi Hj. unfold dev_of, tr3, sum3. replace (kron 0 0) with 1 by reflexivity. replace (kron 1 1) with 1 by reflexivity. replace (kron 2 2) with 1 by reflexivity. field. Qed.
Lemma ddot_nonneg : forall a, 0 <= ddot a a.
Proof. intros a. unfold ddot, sum3. nra. Qed.
Lemma norm_nonneg : forall a, 0 <= norm3 a.
Proof. intros a. apply sqrt_pos. Qed.
Lemma norm_sq : forall a, norm3 a * norm3 a = ddot a a.
Proof. intros a. apply sqrt_sqrt, ddot_nonneg. Qed.
Lemma ddot_scaled : forall k l a b, ddot (scaled k a) (scaled l b) = k * l * ddot a b.
Proof. intros. unfold ddot, scaled, sum3. ring. Qed.
Lemma norm_scaled : forall k a, norm3 (scaled k a) = Rabs k * norm3 a.
Proof.
  intros k a. unfold norm3. rewrite ddot_scaled. rewrite sqrt_mult_alt by nra.
  f_equal. apply sqrt_Rsqr_abs.
Qed.
Lemma mises_norm : forall a, mises a = sqrt (3/2) * norm3 (dev_of a).
Proof. intros a. unfold mises, norm3. apply sqrt_mult_alt. lra. Qed.
Lemma mises_nonneg : forall a, 0 <= mises a.
Proof. intros a. apply sqrt_pos. Qed.
Lemma s32_pos : 0 < sqrt (3/2).
Proof. apply sqrt_lt_R0. lra. Qed.
Lemma s23_pos : 0 < sqrt (2/3).
Proof. apply sqrt_lt_R0. lra. Qed.
Lemma s23_32 : sqrt (2/3) * sqrt (3/2) = 1.
Proof. rewrite <- sqrt_mult_alt by lra. replace (2/3*(3/2)) with 1 by field. apply sqrt_1. Qed.
Lemma s32_sq : sqrt (3/2) * sqrt (3/2) = 3/2.
Proof. apply sqrt_sqrt. lra. Qed.
Lemma s23_sq : sqrt (2/3) * sqrt (2/3) = 2/3.
Proof. apply sqrt_sqrt. lra. Qed.
Lemma s6_32 : sqrt 6 = 2 * sqrt (3/2).
Proof. apply sqrt_lem_1; [lra|pose proof s32_pos; lra|]. pose proof s32_sq. nra. Qed.
Lemma s6_23 : sqrt 6 = 3 * sqrt (2/3).
Proof. apply sqrt_lem_1; [lra|pose proof s23_pos; lra|]. pose proof s23_sq. nra. Qed.
(** Cauchy-Schwarz for nine entries *)
Lemma ddot_cauchy : forall a b, ddot a b <= norm3 a * norm3 b.
Proof.
  intros a b.
  assert (Q : forall t u, 0 <= t * t * ddot a a - 2 * t * u * ddot a b + u * u * ddot b b).
  { intros t u. replace (t * t * ddot a a - 2 * t * u * ddot a b + u * u * ddot b b) with (ddot (fun i j => t * a i j - u * b i j) (fun i j => t * a i j - u * b i j)) by (unfold ddot, sum3; ring). apply ddot_nonneg. }
  pose proof (norm_nonneg a) as Na. pose proof (norm_nonneg b) as Nb. pose proof (norm_sq a) as Sa. pose proof (norm_sq b) as Sb.
  destruct (Req_dec (norm3 a) 0) as [Z|Z].
  - assert (A0 : ddot a a = 0) by (rewrite <- Sa, Z; ring).
    rewrite Z. pose proof (ddot_nonneg b).
    destruct (Rle_or_lt (ddot a b) 0); [lra|]. exfalso.
    pose proof (Q ((ddot b b + 1) / ddot a b) 1) as Q4. rewrite A0 in Q4.
    replace (2 * ((ddot b b + 1) / ddot a b) * 1 * ddot a b) with (2 * (ddot b b + 1)) in Q4 by (field; lra). lra.
  - destruct (Req_dec (norm3 b) 0) as [Z'|Z'].
    + assert (B0 : ddot b b = 0) by (rewrite <- Sb, Z'; ring). rewrite Z'.
      destruct (Rle_or_lt (ddot a b) 0); [lra|]. exfalso.
      pose proof (Q 1 ((ddot a a + 1) / ddot a b)) as Q4. rewrite B0 in Q4.
      replace (2 * 1 * ((ddot a a + 1) / ddot a b) * ddot a b) with (2 * (ddot a a + 1)) in Q4 by (field; lra).
      pose proof (ddot_nonneg a). lra.
    + pose proof (Q (norm3 b) (norm3 a)) as Q1. rewrite <- Sa, <- Sb in Q1.
      assert (0 < norm3 a * norm3 b) by nra.
      assert (0 <= 2 * (norm3 a * norm3 b) * (norm3 a * norm3 b - ddot a b)) by nra.
      destruct (Rle_or_lt (ddot a b) (norm3 a * norm3 b)); [assumption|]. nra.
Qed.

Lemma von_mises_eq : forall (dev : ten), von_mises dev = sqrt (3/2) * norm3 (ent dev).
Proof. intros dev. unfold von_mises. rewrite contract_ent. to_R. unfold norm3. apply sqrt_mult_alt. lra. Qed.
Lemma von_mises_dev : forall s : ten, von_mises (deviator s) = mises (ent s).
Proof. intros s. rewrite von_mises_eq, mises_norm. f_equal. apply norm_eq3, deviator_ent. Qed.
Definition f20 : R := 1 / IZR (Zpos (10 ^ 20)).
Lemma f20_pos : 0 < f20.
Proof. unfold f20. apply Rdiv_lt_0_compat; [lra|]. apply IZR_lt. reflexivity. Qed.
Lemma nmax_R : forall a b : R, nmax (N:=RN) a b = Rmax a b.
Proof. intros a b. unfold nmax. to_R. destruct (Rltb a b) eqn:E; [apply Rltb_true in E; rewrite Rmax_right; lra|apply Rltb_false in E; rewrite Rmax_left; lra]. Qed.
Lemma magnitude_eq : forall dev : ten, magnitude dev = Rmax f20 (norm3 (ent dev)).
Proof. intros dev. unfold magnitude. rewrite contract_ent. apply nmax_R. Qed.
Lemma magnitude_pos : forall dev : ten, 0 < magnitude dev.
Proof. intros. rewrite magnitude_eq. eapply Rlt_le_trans; [apply f20_pos|apply Rmax_l]. Qed.
Lemma norm_le_mag : forall dev : ten, norm3 (ent dev) <= magnitude dev.
Proof. intros. rewrite magnitude_eq. apply Rmax_r. Qed.

(** ** The radial return *)
Section Radial.
  Variables (G Y eN mag sph : R) (e s dev : ten).
  Hypothesis Htr : tr3 (ent dev) = 0.
  Let k := sqrt (2/3) * Y / mag.
  Let r := radial (N:=RN) G Y eN e s dev sph mag.
  Lemma radial_ent : forall i j, (i < 3)%nat -> (j < 3)%nat -> ent (j_stress r) i j = k * ent dev i j + sph * kron i j.
  Proof. intros i j Hi Hj. unfold r, radial. cbn [j_stress]. rewrite ent_diag_add, ent_mmulr by auto. unfold k. to_R. ring. Qed.
  Lemma radial_dev : eq3 (dev_of (ent (j_stress r))) (scaled k (ent dev)).
  Proof.
    apply eq3_trans with (dev_of (fun i j => scaled k (ent dev) i j + sph * kron i j)).
    - apply dev_eq3. intros i j Hi Hj. rewrite radial_ent by auto. reflexivity.
    - eapply eq3_trans; [apply dev_shift|]. intros i j Hi Hj. unfold dev_of. replace (tr3 (scaled k (ent dev))) with (k * tr3 (ent dev)) by (unfold tr3, scaled, sum3; ring). rewrite Htr. field.
  Qed.
  Lemma radial_tr : tr3 (ent (j_stress r)) = 3 * sph.
  Proof.
    assert (E : tr3 (ent (j_stress r)) = k * tr3 (ent dev) + 3 * sph).
    { unfold tr3, sum3. rewrite !radial_ent by lia. unfold kron. cbn [Nat.eqb]. ring. }
    rewrite E, Htr. ring.
  Qed.
  Lemma radial_mises : mises (ent (j_stress r)) = Rabs k * (sqrt (3/2) * norm3 (ent dev)).
  Proof. rewrite mises_norm, (norm_eq3 _ _ radial_dev), norm_scaled. ring. Qed.
  Lemma radial_vm : j_vm r = mises (ent (j_stress r)).
  Proof.
    rewrite radial_mises. unfold r, radial. cbn [j_vm]. rewrite von_mises_eq.
    match goal with |- _ * norm3 ?m = _ => rewrite (norm_eq3 m (scaled k (ent dev))) end.
    - rewrite norm_scaled. apply Rminus_diag_uniq; ring.
    - intros i j Hi Hj. rewrite ent_mmulr by auto. unfold scaled, k. to_R. ring.
  Qed.
  Lemma radial_eqps : eN <= j_eqps r.
  Proof.
    unfold r, radial, eqps_update. cbn [j_eqps]. cbv zeta. rewrite nmax_R. to_R.
    match goal with |- _ <= _ + Rmax 0 ?x => pose proof (Rmax_l 0 x) end. lra.
  Qed.
  Lemma radial_sym : symmetric (ent dev) -> symmetric (ent (j_stress r)).
  Proof. intros H i j Hi Hj. unfold transp. rewrite !radial_ent by auto. rewrite (H i j) by auto. unfold transp, kron. rewrite Nat.eqb_sym. reflexivity. Qed.
End Radial.

Lemma norm_add : forall a b, norm3 (fun i j => a i j + b i j) <= norm3 a + norm3 b.
Proof.
  intros a b. pose proof (norm_nonneg a). pose proof (norm_nonneg b). pose proof (ddot_cauchy a b) as C.
  apply Rsqr_incr_0_var; [|lra]. unfold Rsqr. rewrite norm_sq.
  replace (ddot (fun i j => a i j + b i j) (fun i j => a i j + b i j)) with (ddot a a + 2 * ddot a b + ddot b b) by (unfold ddot, sum3; ring).
  rewrite <- !norm_sq. nra.
Qed.
Lemma ddot_scale_r : forall k a b, ddot a (scaled k b) = k * ddot a b.
Proof. intros. unfold ddot, scaled, sum3. ring. Qed.
Lemma ddot_scale_l : forall k a b, ddot (scaled k a) b = k * ddot a b.
Proof. intros. unfold ddot, scaled, sum3. ring. Qed.
Lemma norm_div : forall (dev : ten), norm3 (scaled (/ magnitude dev) (ent dev)) <= 1.
Proof.
  intros dev. pose proof (magnitude_pos dev) as P. rewrite norm_scaled, Rabs_pos_eq by (left; apply Rinv_0_lt_compat; exact P).
  pose proof (norm_le_mag dev). apply Rmult_le_reg_l with (magnitude dev); [exact P|]. rewrite <- Rmult_assoc, Rinv_r by lra. lra.
Qed.
Lemma dev_trial : forall K G dt d s, eq3 (dev_of (elastic_step K G dt d s)) (fun i j => dev_of s i j + 2 * G * dt * dev_of d i j).
Proof.
  intros K G dt d s i j Hi Hj. unfold elastic_step, hooke_of, dev_of, scaled, tr3, sum3.
  replace (kron 0 0) with 1 by reflexivity. replace (kron 1 1) with 1 by reflexivity. replace (kron 2 2) with 1 by reflexivity. field.
Qed.
Lemma tr_trial : forall K G dt d s, tr3 (elastic_step K G dt d s) = tr3 s + 3 * K * (dt * tr3 d).
Proof.
  intros K G dt d s. unfold elastic_step, hooke_of, dev_of, scaled, tr3, sum3.
  replace (kron 0 0) with 1 by reflexivity. replace (kron 1 1) with 1 by reflexivity. replace (kron 2 2) with 1 by reflexivity. field.
Qed.
Lemma trial_sym : forall K G dt d s, symmetric d -> symmetric s -> symmetric (elastic_step K G dt d s).
Proof.
  intros K G dt d s Hd Hs i j Hi Hj. unfold transp, elastic_step, hooke_of, dev_of, scaled. rewrite (Hs i j), (Hd i j) by auto.
  unfold transp, kron. rewrite (Nat.eqb_sym i j). reflexivity.
Qed.

(** ** One step: the trial stress, and the return to a surface *)
Section Step.
  Variables (K G dt : R) (d s : ten) (eN : R).
  Let tr := trial (N:=RN) K G dt d s.
  Let dev := deviator tr.
  Let E := elastic_step K G dt (ent d) (ent s).
  Lemma dev_ent : eq3 (ent dev) (dev_of E).
  Proof. eapply eq3_trans; [apply deviator_ent|]. apply dev_eq3, trial_ent. Qed.
  Lemma dev_tr0 : tr3 (ent dev) = 0.
  Proof. rewrite (tr3_eq3 _ _ dev_ent). apply tr_dev. Qed.
  Lemma vm_E : von_mises dev = mises E.
  Proof. unfold dev. rewrite von_mises_dev. apply mises_eq3, trial_ent. Qed.
  Lemma norm_E : norm3 (ent dev) = norm3 (dev_of E).
  Proof. apply norm_eq3, dev_ent. Qed.
  Lemma sph_E : spherical tr = tr3 (ent s) / 3 + K * (dt * tr3 (ent d)).
  Proof. unfold tr. rewrite spherical_ent_j. rewrite (tr3_eq3 _ _ (trial_ent K G dt d s)), tr_trial. apply Rminus_diag_uniq; field. Qed.

  Variable Y : R.
  Let r := radial (N:=RN) G Y eN (dev_inc (N:=RN) dt d) s dev (spherical tr) (magnitude dev).
  Let k := sqrt (2/3) * Y / magnitude dev.
  Lemma ret_k : 0 <= Y -> Y < mises E -> 0 <= k /\ k * norm3 (ent dev) <= sqrt (2/3) * Y /\ k < 1.
  Proof.
    intros H0 HY. pose proof (magnitude_pos dev) as P. pose proof s23_pos as S2.
    assert (K0 : 0 <= k) by (unfold k; apply Rmult_le_pos; [apply Rmult_le_pos; lra|left; apply Rinv_0_lt_compat; exact P]).
    assert (KM : k * magnitude dev = sqrt (2/3) * Y) by (unfold k; field; lra).
    pose proof (norm_le_mag dev) as L. rewrite mises_norm, <- norm_E in HY.
    split; [exact K0|]. split; [rewrite <- KM; apply Rmult_le_compat_l; assumption|].
    assert (sqrt (2/3) * Y < norm3 (ent dev)).
    { apply Rmult_lt_compat_l with (r := sqrt (2/3)) in HY; [|exact S2]. rewrite <- Rmult_assoc, s23_32 in HY. lra. }
    apply Rmult_lt_reg_r with (magnitude dev); [exact P|]. rewrite KM. lra.
  Qed.
  Lemma ret_mises : 0 <= Y -> mises (ent (j_stress r)) <= Y.
  Proof.
    intros H0. pose proof (magnitude_pos dev) as P. pose proof s23_pos as S2. pose proof s32_pos as S3.
    unfold r. rewrite radial_mises by apply dev_tr0. fold k.
    assert (K0 : 0 <= k) by (unfold k; apply Rmult_le_pos; [apply Rmult_le_pos; lra|left; apply Rinv_0_lt_compat; exact P]).
    assert (KM : k * magnitude dev = sqrt (2/3) * Y) by (unfold k; field; lra).
    pose proof (norm_le_mag dev) as L. rewrite Rabs_pos_eq by exact K0.
    replace Y with (sqrt (3/2) * (sqrt (2/3) * Y)) by (rewrite <- Rmult_assoc, (Rmult_comm (sqrt (3/2))), s23_32; ring).
    rewrite <- KM. replace (k * (sqrt (3/2) * norm3 (ent dev))) with (sqrt (3/2) * (k * norm3 (ent dev))) by ring.
    apply Rmult_le_compat_l; [lra|]. apply Rmult_le_compat_l; assumption.
  Qed.
  Lemma ret_surface : 0 <= Y -> f20 <= norm3 (dev_of E) -> mises (ent (j_stress r)) = Y.
  Proof.
    intros H0 HF. pose proof (magnitude_pos dev) as P. pose proof s23_pos as S2.
    unfold r. rewrite radial_mises by apply dev_tr0. fold k.
    assert (K0 : 0 <= k) by (unfold k; apply Rmult_le_pos; [apply Rmult_le_pos; lra|left; apply Rinv_0_lt_compat; exact P]).
    assert (EM : magnitude dev = norm3 (ent dev)) by (rewrite magnitude_eq; apply Rmax_right; rewrite norm_E; exact HF).
    rewrite Rabs_pos_eq by exact K0.
    replace (k * (sqrt (3/2) * norm3 (ent dev))) with (sqrt (3/2) * (k * magnitude dev)) by (rewrite EM; ring).
    replace (k * magnitude dev) with (sqrt (2/3) * Y) by (unfold k; field; lra).
    rewrite <- Rmult_assoc, (Rmult_comm (sqrt (3/2))), s23_32. ring.
  Qed.
  Lemma ret_dev : eq3 (dev_of (ent (j_stress r))) (scaled k (dev_of E)).
  Proof. eapply eq3_trans; [apply radial_dev, dev_tr0|]. intros i j Hi Hj. unfold scaled. rewrite dev_ent by auto. reflexivity. Qed.
  Lemma ret_pressure : tr3 (ent (j_stress r)) / 3 = tr3 (ent s) / 3 + K * (dt * tr3 (ent d)).
  Proof. unfold r. rewrite radial_tr by apply dev_tr0. rewrite sph_E. field. Qed.

  (** the plastic strain increment reported is at most the one of J2 plasticity *)
  Let A := plastic_inc G dt (ent d) (ent s) (ent (j_stress r)).
  Let B : mat := fun i j => (k / magnitude dev * dev_of E i j + / magnitude (deviator s) * dev_of (ent s) i j) / 2.
  Lemma ret_eqps : G <> 0 -> j_eqps r = eN + Rmax 0 (sqrt (2/3) * ddot A B).
  Proof.
    intros HG. unfold r at 1, radial, eqps_update. cbn [j_eqps]. cbv zeta. rewrite nmax_R, contract_ent. to_R.
    f_equal. f_equal. f_equal. apply ddot_eq3; intros i j Hi Hj.
    - rewrite ent_msub, !ent_mdivr, ent_msub, ent_mmulr by auto. rewrite dev_inc_ent by auto. rewrite deviator_ent by auto.
      unfold A, plastic_inc. rewrite ret_dev by auto. unfold scaled. rewrite dev_ent by auto. unfold k. field. split; [pose proof (magnitude_pos dev); lra|exact HG].
    - rewrite ent_mdivr, ent_madd, !ent_mdivr, ent_mmulr by auto. rewrite deviator_ent, dev_ent by auto. unfold B, k.
      pose proof (magnitude_pos dev). pose proof (magnitude_pos (deviator s)). field. split; lra.
  Qed.
  Lemma B_norm : 0 <= Y -> Y < mises E -> norm3 B <= 1.
  Proof.
    intros H0 HY. destruct (ret_k H0 HY) as (K0 & _ & K1).
    assert (EB : eq3 B (fun i j => scaled (k / 2) (scaled (/ magnitude dev) (ent dev)) i j + scaled (/ 2) (scaled (/ magnitude (deviator s)) (ent (deviator s))) i j)).
    { intros i j Hi Hj. unfold B, scaled. rewrite dev_ent, deviator_ent by auto. unfold Rdiv. ring. }
    rewrite (norm_eq3 _ _ EB). eapply Rle_trans; [apply norm_add|]. rewrite (norm_scaled (k/2)), (norm_scaled (/2)).
    rewrite !Rabs_pos_eq by lra. pose proof (norm_div dev). pose proof (norm_div (deviator s)).
    pose proof (norm_nonneg (scaled (/ magnitude dev) (ent dev))). nra.
  Qed.
  Lemma ret_bound : G <> 0 -> 0 <= Y -> Y < mises E -> j_eqps r - eN <= eqps_inc G dt (ent d) (ent s) (ent (j_stress r)).
  Proof.
    intros HG H0 HY. rewrite ret_eqps by exact HG. unfold eqps_inc. fold A.
    pose proof (B_norm H0 HY) as HB. pose proof (ddot_cauchy A B) as C. pose proof (norm_nonneg A). pose proof (norm_nonneg B). pose proof s23_pos.
    assert (0 <= sqrt (2/3) * norm3 A) by nra.
    assert (sqrt (2/3) * ddot A B <= sqrt (2/3) * norm3 A) by (apply Rmult_le_compat_l; [lra|]; nra).
    assert (Rmax 0 (sqrt (2/3) * ddot A B) <= sqrt (2/3) * norm3 A) by (apply Rmax_lub; lra). lra.
  Qed.
  (** ... and from a stress without deviator it is the fraction k/2 of it *)
  Lemma ret_virgin : 0 < G -> eq3 (dev_of (ent s)) (fun _ _ => 0) -> 0 <= Y -> Y < mises E -> f20 <= norm3 (dev_of E) ->
    j_eqps r = eN + Y / mises E / 2 * eqps_inc G dt (ent d) (ent s) (ent (j_stress r)) /\
    eqps_inc G dt (ent d) (ent s) (ent (j_stress r)) = (mises E - Y) / (3 * G).
  Proof.
    intros HG HV H0 HY HF. destruct (ret_k H0 HY) as (K0 & _ & K1). pose proof (magnitude_pos dev) as P. pose proof s23_pos as S2. pose proof s32_pos as S3.
    assert (EM : magnitude dev = norm3 (dev_of E)) by (rewrite magnitude_eq, <- norm_E; apply Rmax_right; rewrite norm_E; exact HF).
    assert (EA : eq3 A (scaled ((1 - k) / (2 * G)) (dev_of E))).
    { intros i j Hi Hj. unfold A, plastic_inc. rewrite ret_dev by auto. unfold scaled. rewrite HV by auto.
      pose proof (dev_trial K G dt (ent d) (ent s) i j Hi Hj) as ET. cbv beta in ET. rewrite HV in ET by auto. fold E in ET. rewrite ET. field. lra. }
    assert (EB : eq3 B (scaled (k / magnitude dev / 2) (dev_of E))).
    { intros i j Hi Hj. unfold B, scaled. rewrite HV by auto. pose proof (magnitude_pos (deviator s)). field. split; lra. }
    assert (KE : k = Y / mises E).
    { unfold k. rewrite mises_norm, <- EM. pose proof s23_32. replace (sqrt (2/3)) with (/ sqrt (3/2)) by (apply Rmult_eq_reg_r with (sqrt (3/2)); [rewrite Rinv_l by lra; lra|lra]). field. split; lra. }
    assert (NA : norm3 A = (1 - k) / (2 * G) * norm3 (dev_of E)).
    { rewrite (norm_eq3 _ _ EA), norm_scaled, Rabs_pos_eq; [reflexivity|]. apply Rmult_le_pos; [lra|left; apply Rinv_0_lt_compat; lra]. }
    assert (DAB : ddot A B = k / 2 * norm3 A).
    { rewrite (ddot_eq3 _ _ _ _ EA EB), ddot_scaled, NA, <- norm_sq, <- EM. field. split; lra. }
    assert (NA0 := norm_nonneg A).
    split.
    - rewrite ret_eqps by lra. unfold eqps_inc. fold A. rewrite DAB, Rmax_right, <- KE; [apply Rminus_diag_uniq; field|]. apply Rmult_le_pos; [lra|]. apply Rmult_le_pos; lra.
    - unfold eqps_inc. fold A. rewrite NA.
      assert (EY : k * norm3 (dev_of E) = sqrt (2/3) * Y) by (rewrite <- EM; unfold k; field; lra).
      assert (MN : norm3 (dev_of E) = sqrt (2/3) * mises E) by (rewrite mises_norm, <- Rmult_assoc, s23_32; ring).
      replace (sqrt (2/3) * ((1 - k) / (2 * G) * norm3 (dev_of E))) with (sqrt (2/3) * (norm3 (dev_of E) - k * norm3 (dev_of E)) / (2 * G)) by (field; lra).
      rewrite EY, MN. replace (sqrt (2/3) * (sqrt (2/3) * mises E - sqrt (2/3) * Y)) with (sqrt (2/3) * sqrt (2/3) * (mises E - Y)) by ring. rewrite s23_sq. field. lra.
  Qed.
End Step.
