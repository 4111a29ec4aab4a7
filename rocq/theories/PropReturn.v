(** * C60: the iterated radial return of the bond-associated hardening materials *)
From Coq Require Import ZArith Reals Lra Lia Rpower SpecFloat.
From Verif Require Import Base Num ModelForce ModelCorr SpecCorr ModelPlastic ModelGlobal ModelJ2 SpecJ2 ProofData ProofCorr ProofCubic ProofJ2 ProofJ22 ProofJ23 ProofJ24 PropJ2.
Local Open Scope R_scope.
Local Notation ten := (M3 RN).

(** A step that stays below the yield stress of the plastic strain before it is elastic *)
Theorem C60_elastic : forall law slope K G dt (d s : ten) eN, mises (elastic_step K G dt (ent d) (ent s)) < law eN ->
  exists r, radial_return (N:=RN) law slope K G dt d s eN = Ok r /\ eq3 (ent (j_stress r)) (elastic_step K G dt (ent d) (ent s)) /\
  j_eqps r = eN /\ j_vm r = mises (ent (j_stress r)).
Proof.
  intros law slope K G dt d s eN H. exists (stays K G dt d s eN). split; [now apply return_elastic|]. split; [apply trial_ent|]. split; [reflexivity|]. rewrite <- stays_vm. reflexivity.
Qed.
Print Assumptions C60_elastic.

(** Any other step that returns ends on the yield surface of the plastic strain after it, up to 1e-16 times the bulk
    modulus and never inside; the plastic strain grows by exactly what J2 plasticity makes it grow; the pressure is the
    elastic one; the deviator keeps its direction; the von Mises stress reported is the one of the stress *)
Theorem C60_consistent : forall law slope K G dt (d s : ten) eN r, 0 < G -> concave_law law slope -> 0 <= eN -> 2 * smallest <= law eN ->
  law eN <= mises (elastic_step K G dt (ent d) (ent s)) ->
  radial_return (N:=RN) law slope K G dt d s eN = Ok r ->
  law (j_eqps r) <= mises (ent (j_stress r)) <= law (j_eqps r) + 1 / 10 ^ 16 * K /\
  j_vm r = mises (ent (j_stress r)) /\
  eN <= j_eqps r /\ j_eqps r = eN + eqps_inc G dt (ent d) (ent s) (ent (j_stress r)) /\
  tr3 (ent (j_stress r)) / 3 = tr3 (ent s) / 3 + K * (dt * tr3 (ent d)) /\
  exists k, 0 <= k <= 1 /\ eq3 (dev_of (ent (j_stress r))) (scaled k (dev_of (elastic_step K G dt (ent d) (ent s)))).
Proof.
  intros law slope K G dt d s eN r HG HL He HS HY HR. rewrite smallest_eq in HS. pose proof f20_pos as F.
  set (E := elastic_step K G dt (ent d) (ent s)) in *. assert (HP : 0 < mises E) by lra.
  assert (HF : f20 <= norm3 (dev_of E)).
  { assert (MN : norm3 (dev_of E) = sqrt (2/3) * mises E) by (rewrite mises_norm, <- Rmult_assoc, s23_32; ring). rewrite MN.
    assert (1/2 <= sqrt (2/3)) by (apply Rsqr_incr_0_var; [rewrite Rsqr_sqrt by lra; unfold Rsqr; lra|apply sqrt_pos]). nra. }
  destruct (return_shape law slope K G dt d s eN r HY HP HF HR) as (p & E1 & E2 & E3 & E4 & E5). fold E in E2, E3, E4, E5.
  destruct (E5 HG HL He) as [P0 P1]. destruct (return_stress K G dt d s r p HG HP E4) as (T1 & T2 & T3 & T4). fold E in T1, T2, T3.
  assert (L0 : 0 <= law (j_eqps r)) by (apply (HL (j_eqps r)); rewrite E1; to_R; lra).
  assert (VM : mises (ent (j_stress r)) = mises E - 3 * G * p) by (rewrite T3; apply Rabs_pos_eq; lra).
  rewrite Rabs_pos_eq in E3 by lra. split; [rewrite VM; lra|]. split; [rewrite VM; exact E2|]. split; [rewrite E1; to_R; lra|].
  split; [rewrite T4, (Rabs_pos_eq p) by exact P0; exact E1|]. split; [rewrite T1; unfold E; rewrite tr_trial; field|].
  exists (1 - 3 * G * p / mises E). split; [|exact T2].
  assert (0 <= 3 * G * p / mises E) by (apply Rmult_le_pos; [nra|left; now apply Rinv_0_lt_compat]).
  assert (3 * G * p / mises E <= 1) by (apply Rmult_le_reg_r with (mises E); [exact HP|]; unfold Rdiv; rewrite Rmult_assoc, Rinv_l by lra; lra). lra.
Qed.
Print Assumptions C60_consistent.

(** The return does end within the 100 iterations allowed if the law does not decrease, its slope is at most [h] and the
    excess of the elastic stress over the yield stress is not astronomic (with h at most 3 G: 2^100 times the tolerance) *)
Theorem C60_returns : forall law slope K G dt (d s : ten) eN h, 0 < G -> concave_law law slope -> 0 <= eN ->
  (forall e, 0 <= e -> slope e <= h) -> (forall e e', 0 <= e <= e' -> law e <= law e') ->
  (mises (elastic_step K G dt (ent d) (ent s)) - law eN) * (h / (3 * G + h)) ^ 100 <= 1 / 10 ^ 16 * K ->
  exists r, radial_return (N:=RN) law slope K G dt d s eN = Ok r.
Proof.
  intros law slope K G dt d s eN h HG HL He Hh Hm HB. set (E := elastic_step K G dt (ent d) (ent s)) in *.
  destruct (Rlt_or_le (mises E) (law eN)) as [C|C]; [eexists; now apply return_elastic|].
  unfold radial_return. cbv zeta. rewrite vm_E. to_R. fold E. rewrite (proj2 (Rltb_false _ _)) by lra.
  destruct (newton_returns law slope G (1 / IZR (Zpos (10 ^ 16)) * K) (mises E) (mdivr (deviator (trial (N:=RN) K G dt d s)) (magnitude (deviator (trial (N:=RN) K G dt d s)))) HG HL h Hh Hm
    max_iterations (mises E - law eN) (trial (N:=RN) K G dt d s) eN 0) as [[[s' ep] p] EN]; [ring|lra|exact He| |].
  - eapply Rle_trans; [exact HB|]. right. f_equal. f_equal. symmetry. symmetry. exact (pow_IZR 10 16).
  - rewrite EN. cbn [bind]. now eexists.
Qed.
Print Assumptions C60_returns.
Theorem C60_returns_soft : forall law slope K G dt (d s : ten) eN, 0 < G -> 0 < K -> concave_law law slope -> 0 <= eN ->
  (forall e, 0 <= e -> slope e <= 3 * G) -> (forall e e', 0 <= e <= e' -> law e <= law e') ->
  mises (elastic_step K G dt (ent d) (ent s)) <= law eN + 10 ^ 14 * K ->
  exists r, radial_return (N:=RN) law slope K G dt d s eN = Ok r.
Proof.
  intros law slope K G dt d s eN HG HK HL He Hh Hm HB. apply (C60_returns law slope K G dt d s eN (3 * G)); auto.
  replace (3 * G / (3 * G + 3 * G)) with (/ 2) by (field; lra).
  apply Rle_trans with (10 ^ 14 * K * (/ 2) ^ 100).
  - apply Rmult_le_compat_r; [apply pow_le; lra|lra].
  - rewrite pow_inv. replace (10 ^ 14 * K * / 2 ^ 100) with (10 ^ 14 / 2 ^ 100 * K) by (field; apply pow_nonzero; lra). apply Rmult_le_compat_r; [lra|].
    apply Rmult_le_reg_r with (2 ^ 100); [apply pow_lt; lra|]. unfold Rdiv. rewrite Rmult_assoc, Rinv_l by (apply pow_nonzero; lra).
    apply Rmult_le_reg_r with (10 ^ 16); [apply pow_lt; lra|]. replace (1 * / 10 ^ 16 * 2 ^ 100 * 10 ^ 16) with (2 ^ 100) by (field; apply pow_nonzero; lra).
    rewrite Rmult_1_r. rewrite !pow_IZR, <- mult_IZR. apply IZR_le. vm_compute. discriminate.
Qed.
Print Assumptions C60_returns_soft.

(** ** The two laws of the code meet the hypotheses *)
Theorem C60_saturation_exponential : forall Y Ysat c lin, 0 <= Y <= Ysat -> 0 <= c -> 0 <= lin ->
  concave_law (satexp_stress (N:=RN) exp Y Ysat c lin) (satexp_slope (N:=RN) exp Y Ysat c lin) /\
  (forall e, 0 <= e -> satexp_slope (N:=RN) exp Y Ysat c lin e <= c * (Ysat - Y) + lin) /\
  (forall e e', 0 <= e <= e' -> satexp_stress (N:=RN) exp Y Ysat c lin e <= satexp_stress (N:=RN) exp Y Ysat c lin e').
Proof. intros Y Ysat c lin [H H']. now apply satexp_concave. Qed.
Print Assumptions C60_saturation_exponential.
Theorem C60_power_law : forall Y eps0 n, 0 <= Y -> 0 < eps0 -> 0 <= n <= 1 ->
  concave_law (power_stress (N:=RN) Rpower Y eps0 n) (power_slope (N:=RN) Rpower Y eps0 n) /\
  (forall e, 0 <= e -> power_slope (N:=RN) Rpower Y eps0 n e <= Y * n / eps0) /\
  (forall e e', 0 <= e <= e' -> power_stress (N:=RN) Rpower Y eps0 n e <= power_stress (N:=RN) Rpower Y eps0 n e').
Proof. exact power_concave. Qed.
Print Assumptions C60_power_law.

(** ** Any number of steps *)
Lemma return_inv : forall law slope K G dt (d s : ten) eN r, 0 < G -> 0 <= K -> concave_law law slope -> (forall e, 0 <= e -> 2 * smallest <= law e) -> 0 <= eN ->
  radial_return (N:=RN) law slope K G dt d s eN = Ok r -> eN <= j_eqps r /\ mises (ent (j_stress r)) <= law (j_eqps r) + 1 / 10 ^ 16 * K /\ j_vm r = mises (ent (j_stress r)).
Proof.
  intros law slope K G dt d s eN r HG HK HL HS He HR. destruct (Rlt_or_le (mises (elastic_step K G dt (ent d) (ent s))) (law eN)) as [C|C].
  - destruct (C60_elastic law slope K G dt d s eN C) as (r' & E & A & B & D). rewrite E in HR. injection HR as <-. rewrite B. split; [apply Rle_refl|]. split; [|exact D].
    rewrite (mises_eq3 _ _ A). assert (0 <= 1 / 10 ^ 16 * K) by (apply Rmult_le_pos; [apply Rmult_le_pos; [lra|left; apply Rinv_0_lt_compat, pow_lt; lra]|exact HK]). to_R. lra.
  - destruct (C60_consistent law slope K G dt d s eN r HG HL He (HS eN He) C HR) as (A & B & D & _). split; [exact D|]. split; [apply A|exact B].
Qed.
Theorem C60_history : forall law slope K G steps (s : ten) e l, 0 < G -> 0 <= K -> concave_law law slope -> (forall e, 0 <= e -> 2 * smallest <= law e) -> 0 <= e ->
  history (N:=RN) (fun dt d s e => radial_return (N:=RN) law slope K G dt d s e) steps s e = Ok l ->
  length l = length steps /\ Forall (fun r => mises (ent (j_stress r)) <= law (j_eqps r) + 1 / 10 ^ 16 * K /\ j_vm r = mises (ent (j_stress r))) l /\ chain Rle e (map j_eqps l).
Proof.
  intros law slope K G steps s e l HG HK HL HS. revert s e l. induction steps as [|[dt d] steps IH]; intros s e l He; cbn [history].
  - intros H. injection H as <-. now repeat split.
  - destruct (radial_return (N:=RN) law slope K G dt d s e) as [r| |] eqn:ER; cbn [bind]; try discriminate.
    destruct (return_inv _ _ _ _ _ _ _ _ _ HG HK HL HS He ER) as (A & B & C).
    match goal with |- context [@history RN ?f ?st ?x ?y] => destruct (@history RN f st x y) as [l'| |] eqn:EH end; cbn [bind]; try discriminate.
    intros H. injection H as <-. destruct (IH (j_stress r) (j_eqps r) l' ltac:(to_R; lra) EH) as (L1 & L2 & L3).
    split; [cbn; now rewrite L1|]. split; [constructor; auto|]. cbn [map chain]. split; [exact A|exact L3].
Qed.
Print Assumptions C60_history.

(** ** In binary64 the return can fail: the iteration reaches a residual of one unit in the last place, larger than
    1e-16 times the bulk modulus, and stays there until MPI_Abort.  Bulk modulus 1, shear modulus 1/2, yield stress 1/2,
    linear hardening 1/4 and a shear strain increment of 1; in exact arithmetic one iteration is enough. *)
Definition lin64 (e : spec_float) : spec_float := satexp_stress (N:=FN) (fun _ => fofZ 1) (lit (n:=FN) 1 2) (lit (n:=FN) 1 2) (fofZ 0) (lit (n:=FN) 1 4) e.
Definition lin64_slope (e : spec_float) : spec_float := satexp_slope (N:=FN) (fun _ => fofZ 1) (lit (n:=FN) 1 2) (lit (n:=FN) 1 2) (fofZ 0) (lit (n:=FN) 1 4) e.
Definition aborts (o : outcome (J2 FN)) : bool := match o with Err => true | _ => false end.
Definition shear64 (g : spec_float) : M3 FN := let z := fofZ 0 in @m3 FN z g z g z z z z z.
Theorem C60_binary64_refuted :
  aborts (radial_return (N:=FN) lin64 lin64_slope (fofZ 1) (lit (n:=FN) 1 2) (fofZ 1) (shear64 (fofZ 1)) mzero (fofZ 0)) = true /\
  exists r, radial_return (N:=RN) (satexp_stress (N:=RN) exp (1/2) (1/2) 0 (1/4)) (satexp_slope (N:=RN) exp (1/2) (1/2) 0 (1/4)) 1 (1/2) 1 (shear 1) mzero 0 = Ok r.
Proof.
  split; [vm_compute; reflexivity|].
  destruct (C60_saturation_exponential (1/2) (1/2) 0 (1/4)) as (A & B & C); try lra.
  apply C60_returns_soft; auto; try lra.
  - intros e He. specialize (B e He). lra.
  - rewrite shear_mises by lra. unfold satexp_stress. to_R. pose proof sqrt3_bounds.
    assert (1 <= 10 ^ 14) by (apply pow_R1_Rle; lra). replace (1 / 2 + (1 / 2 - 1 / 2) * (1 - exp (- 0 * 0)) + 1 / 4 * 0) with (1/2) by ring. lra.
Qed.
Print Assumptions C60_binary64_refuted.

(** ** The hypotheses are met *)
Example C60_consistent_met : exists r, radial_return (N:=RN) (power_stress (N:=RN) Rpower 1 1 (1/2)) (power_slope (N:=RN) Rpower 1 1 (1/2)) 1 1 1 (shear 1) mzero 0 = Ok r /\
  power_stress (N:=RN) Rpower 1 1 (1/2) 0 <= mises (elastic_step 1 1 1 (ent (shear 1)) (ent mzero)) /\ 2 * smallest <= power_stress (N:=RN) Rpower 1 1 (1/2) 0.
Proof.
  destruct (C60_power_law 1 1 (1/2)) as (A & B & C); try lra.
  assert (L0 : power_stress (N:=RN) Rpower 1 1 (1/2) 0 = 1).
  { unfold power_stress, Rpower. to_R. replace (1 + 0 / 1) with 1 by field. rewrite ln_1, Rmult_0_r, exp_0. ring. }
  pose proof sqrt3_bounds. assert (1 <= 10 ^ 14) by (apply pow_R1_Rle; lra).
  destruct (C60_returns_soft (power_stress (N:=RN) Rpower 1 1 (1/2)) (power_slope (N:=RN) Rpower 1 1 (1/2)) 1 1 1 (shear 1) mzero 0) as [r E]; auto; try lra.
  - intros e He. specialize (B e He). lra.
  - rewrite shear_mises by lra. revert L0. to_R. intros ->. lra.
  - exists r. split; [exact E|]. split.
    + rewrite shear_mises by lra. revert L0. to_R. intros ->. lra.
    + revert L0. to_R. intros ->. unfold smallest. assert (1 / 10 ^ 20 <= 1/2); [|lra]. unfold Rdiv. rewrite !Rmult_1_l. apply Rinv_le_contravar; [lra|]. apply Rle_trans with (10 ^ 1); [lra|]. apply Rle_pow; [lra|lia].
Qed.
