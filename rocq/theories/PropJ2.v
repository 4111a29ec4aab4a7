(** * C19: J2 perfect plasticity of the correspondence materials *)
From Coq Require Import Reals Lra Lia SpecFloat.
From Verif Require Import Base Num ModelNeigh ModelForce SpecForce ModelCorr SpecCorr ModelPlastic ModelGlobal ModelJ2 SpecJ2 ProofData ProofForce ProofCorr ProofFrame ProofMaterial ProofCubic ProofCorr2 ProofCorr3 ProofCorr4 ProofCorr5 ProofCorr6
  ProofJ2 ProofJ22 ProofJ24 ProofRot ProofRot2 PropCorr PropRot.
Local Open Scope R_scope.
Local Notation vec := (V3 RN).
Local Notation ten := (M3 RN).

(** ** The elastic material *)

(** Without temperatures the update is Hooke's law for the strain increment rate times time; a temperature
    change takes three times the thermal strain off the volume change *)
Theorem C19_hooke : forall K G alpha dt (d s : ten), eq3 (ent (elastic (N:=RN) K G alpha dt None d s)) (elastic_step K G dt (ent d) (ent s)).
Proof. intros K G alpha dt d s. exact (trial_ent K G dt d s). Qed.
Print Assumptions C19_hooke.
Theorem C19_hooke_thermal : forall K G alpha dt tN tNP1 (d s : ten) i j, (i < 3)%nat -> (j < 3)%nat ->
  ent (elastic (N:=RN) K G alpha dt (Some (tN, tNP1)) d s) i j = elastic_step K G dt (ent d) (ent s) i j - K * 3 * alpha * (tNP1 - tN) * kron i j.
Proof.
  intros K G alpha dt tN tNP1 d s i j Hi Hj. pose proof (trial_ent K G dt d s i j Hi Hj) as H.
  unfold trial in H. unfold elastic, hooke in *. rewrite ent_diag_add in * by auto. rewrite <- H. to_R. ring.
Qed.
Print Assumptions C19_hooke_thermal.
(** a body that expands freely by the thermal strain keeps its stress *)
Theorem C19_free_expansion : forall K G alpha dt tN tNP1 (d s : ten), dt <> 0 ->
  eq3 (ent d) (fun i j => alpha * (tNP1 - tN) / dt * kron i j) -> elastic (N:=RN) K G alpha dt (Some (tN, tNP1)) d s = s.
Proof.
  intros K G alpha dt tN tNP1 d s Hdt Hd. apply M3_ext. intros i j Hi Hj. rewrite C19_hooke_thermal by auto.
  unfold elastic_step, hooke_of, dev_of, scaled. unfold tr3, sum3. rewrite !Hd by (auto; lia). change (kron 0 0) with 1. change (kron 1 1) with 1. change (kron 2 2) with 1. field. exact Hdt.
Qed.
Print Assumptions C19_free_expansion.

(** ** One step of the perfectly plastic material *)

(** The von Mises stress never exceeds the yield stress, whatever the stress before *)
Theorem C19_within_yield : forall K G Y dt (d s : ten) eN, 0 <= Y -> mises (ent (j_stress (perfect (N:=RN) K G Y dt d s eN))) <= Y.
Proof.
  intros K G Y dt d s eN HY. destruct (perfect_cases K G dt d s eN Y) as [[C ->]|[C ->]].
  - rewrite <- stays_vm. exact C.
  - now apply ret_mises.
Qed.
Print Assumptions C19_within_yield.

(** The von Mises stress reported is the one of the stress stored *)
Theorem C19_reported : forall K G Y dt (d s : ten) eN, j_vm (perfect (N:=RN) K G Y dt d s eN) = mises (ent (j_stress (perfect (N:=RN) K G Y dt d s eN))).
Proof.
  intros K G Y dt d s eN. destruct (perfect_cases K G dt d s eN Y) as [[C ->]|[C ->]].
  - rewrite <- stays_vm. reflexivity.
  - apply radial_vm, dev_tr0.
Qed.
Print Assumptions C19_reported.

(** A step whose elastic stress is not beyond the yield surface is that elastic step and adds no plastic strain *)
Theorem C19_elastic : forall K G Y dt (d s : ten) eN, mises (elastic_step K G dt (ent d) (ent s)) <= Y ->
  eq3 (ent (j_stress (perfect (N:=RN) K G Y dt d s eN))) (elastic_step K G dt (ent d) (ent s)) /\ j_eqps (perfect (N:=RN) K G Y dt d s eN) = eN.
Proof.
  intros K G Y dt d s eN H. destruct (perfect_cases K G dt d s eN Y) as [[C ->]|[C ->]]; [|lra]. split; [apply trial_ent|reflexivity].
Qed.
Print Assumptions C19_elastic.

(** Any other step ends on the yield surface, with the deviator of the elastic stress scaled down.
    The elastic deviator has to be at least 1.0e-20 in norm, the least number the code divides by *)
Theorem C19_plastic : forall K G Y dt (d s : ten) eN, 0 <= Y -> Y < mises (elastic_step K G dt (ent d) (ent s)) ->
  smallest <= norm3 (dev_of (elastic_step K G dt (ent d) (ent s))) ->
  mises (ent (j_stress (perfect (N:=RN) K G Y dt d s eN))) = Y /\
  eq3 (dev_of (ent (j_stress (perfect (N:=RN) K G Y dt d s eN)))) (scaled (Y / mises (elastic_step K G dt (ent d) (ent s))) (dev_of (elastic_step K G dt (ent d) (ent s)))).
Proof.
  intros K G Y dt d s eN HY H HF. rewrite smallest_eq in HF. destruct (perfect_cases K G dt d s eN Y) as [[C ->]|[C ->]]; [lra|]. split.
  - now apply ret_surface.
  - eapply eq3_trans; [apply ret_dev|]. intros i j Hi Hj. unfold scaled. f_equal.
    rewrite magnitude_eq, norm_E, Rmax_right by exact HF. rewrite mises_norm. pose proof s23_32. pose proof s23_pos. pose proof s32_pos.
    assert (0 < norm3 (dev_of (elastic_step K G dt (ent d) (ent s)))) by (pose proof f20_pos; lra).
    replace (sqrt (2/3)) with (/ sqrt (3/2)) by (apply Rmult_eq_reg_r with (sqrt (3/2)); [rewrite Rinv_l by lra; lra|lra]). field. split; lra.
Qed.
Print Assumptions C19_plastic.

(** The pressure is the elastic one *)
Theorem C19_pressure : forall K G Y dt (d s : ten) eN,
  tr3 (ent (j_stress (perfect (N:=RN) K G Y dt d s eN))) / 3 = tr3 (ent s) / 3 + K * (dt * tr3 (ent d)).
Proof.
  intros K G Y dt d s eN. destruct (perfect_cases K G dt d s eN Y) as [[C ->]|[C ->]].
  - cbn [stays j_stress]. rewrite (tr3_eq3 _ _ (trial_ent K G dt d s)), tr_trial. field.
  - apply ret_pressure.
Qed.
Print Assumptions C19_pressure.

(** The equivalent plastic strain never decreases, and never grows by more than J2 plasticity makes it grow *)
Theorem C19_plastic_strain : forall K G Y dt (d s : ten) eN, G <> 0 -> 0 <= Y ->
  eN <= j_eqps (perfect (N:=RN) K G Y dt d s eN) <= eN + eqps_inc G dt (ent d) (ent s) (ent (j_stress (perfect (N:=RN) K G Y dt d s eN))).
Proof.
  intros K G Y dt d s eN HG HY. destruct (perfect_cases K G dt d s eN Y) as [[C ->]|[C ->]].
  - cbn [stays j_eqps]. split; [lra|]. unfold eqps_inc. match goal with |- context [norm3 ?a] => pose proof (norm_nonneg a) end. pose proof s23_pos.
    match goal with H : 0 <= norm3 ?a |- _ => assert (0 <= sqrt (2/3) * norm3 a) by (apply Rmult_le_pos; lra) end. to_R. lra.
  - split; [apply radial_eqps|]. pose proof (ret_bound K G dt d s eN Y HG HY C). unfold returned in *. lra.
Qed.
Print Assumptions C19_plastic_strain.

(** A symmetric stress stays symmetric *)
Theorem C19_symmetric : forall K G Y dt (d s : ten) eN, symmetric (ent d) -> symmetric (ent s) -> symmetric (ent (j_stress (perfect (N:=RN) K G Y dt d s eN))).
Proof.
  intros K G Y dt d s eN Hd Hs. destruct (perfect_cases K G dt d s eN Y) as [[C ->]|[C ->]]; [now apply stays_sym|now apply returned_sym].
Qed.
Print Assumptions C19_symmetric.

(** ** Any number of steps, from any stress *)
Theorem C19_history : forall K G Y steps (s : ten) e, 0 <= Y -> exists l,
  history (N:=RN) (fun dt d s e => Ok (perfect (N:=RN) K G Y dt d s e)) steps s e = Ok l /\ length l = length steps /\
  Forall (fun r => mises (ent (j_stress r)) <= Y /\ j_vm r = mises (ent (j_stress r))) l /\ chain Rle e (map j_eqps l).
Proof.
  intros K G Y steps s e HY. apply history_chain. intros dt d s' e'. eexists. split; [reflexivity|]. split.
  - split; [now apply C19_within_yield|apply C19_reported].
  - destruct (perfect_cases K G dt d s' e' Y) as [[C ->]|[C ->]]; [apply Rle_refl|apply radial_eqps].
Qed.
Print Assumptions C19_history.

(** ** With triaxiality and flying points *)
Theorem C19_triaxiality : forall K G Y dt flag (d s : ten) eN stored,
  (flag < 0 -> fst (perfect_tri (N:=RN) K G Y dt flag d s eN stored) = perfect (N:=RN) K G Y dt d s eN /\
    let s' := ent (j_stress (fst (perfect_tri (N:=RN) K G Y dt flag d s eN stored))) in
    snd (perfect_tri (N:=RN) K G Y dt flag d s eN stored) = tr3 s' / (3 * Rmax smallest (mises s'))) /\
  (0 <= flag -> perfect_tri (N:=RN) K G Y dt flag d s eN stored = stored).
Proof.
  intros K G Y dt flag d s eN stored. unfold perfect_tri. to_R. split; intros H.
  - rewrite (proj2 (Rltb_true _ _) H). cbn [fst snd]. split; [reflexivity|]. unfold triaxiality. rewrite nmax_R, C19_reported, trace_ent, smallest_eq. reflexivity.
  - now rewrite (proj2 (Rltb_false _ _) H).
Qed.
Print Assumptions C19_triaxiality.

(** ** In the whole material: no moment *)

(** With the elastic, the perfectly plastic or the hardening update the internal force of a correspondence
    material exerts no moment if the stresses before the step were symmetric *)
Theorem C10_stress_update_moment : forall omega step bulk coef dt n nbrs (x y vel : list vec) (v hs : list R) st sN es dmg f st' s' ps,
  (exists K G alpha, step = fun d s _ => Ok (@j2 RN (elastic (N:=RN) K G alpha dt None d s) 0 0)) \/
  (exists K G Y, step = fun d s e => Ok (perfect (N:=RN) K G Y dt d s e)) \/
  (exists K G Y H, step = fun d s e => Ok (hardening (N:=RN) K G Y H dt d s e)) ->
  corr_inputs n nbrs x y v hs -> length vel = n -> length st = length nbrs -> (forall s, In s sN -> symmetric (ent s)) ->
  correspondence (N:=RN) omega sin cos (fun ds ss => let? rs := each_point (N:=RN) step ds ss es in Ok (map j_stress rs)) bulk coef dt x y vel v hs nbrs st sN dmg = Ok (f, st', s', ps) ->
  moment v y f = vzero /\ forall s, In s s' -> symmetric (ent s).
Proof.
  intros omega step bulk coef dt n nbrs x y vel v hs st sN es dmg f st' s' ps Hstep HI Hv Hst HsN H.
  assert (Hsym : forall s, In s s' -> symmetric (ent s)).
  { pose proof H as H0. unfold correspondence in H0.
    destruct (deformation_ok omega n nbrs x y v hs HI) as (code & geo & ED & LG & _). rewrite ED in H0. cbn [bind] in H0.
    destruct (negb (Z.eqb code 0)); [discriminate|].
    destruct (C18_rate_symmetric omega dt n nbrs x y vel v hs geo st HI Hv LG Hst) as (c & rs & ER & _ & RS). rewrite ER in H0. cbn [bind] in H0.
    destruct (negb (Z.eqb c 0)); [discriminate|].
    destruct (each_point step (map snd rs) sN es) as [js| |] eqn:EJ; cbn [bind] in H0; try discriminate.
    assert (ES : s' = map j_stress js).
    { match type of H0 with context [run_kernel ?a ?b ?c] => destruct (run_kernel a b c) as [[g o]| |]; cbn [bind] in H0; try discriminate end.
      match type of H0 with context [run_kernel ?a ?b ?c] => destruct (run_kernel a b c) as [[g' o']| |]; cbn [bind] in H0; try discriminate end. now injection H0. }
    subst s'. intros t Ht. apply in_map_iff in Ht as (j & <- & Hj).
    assert (F : Forall (fun r => symmetric (ent (j_stress r))) js).
    { apply (each_point_sym step) with (ds := map snd rs) (ss := sN) (es := es); [|exact EJ| |].
      - intros d s e r Hd Hs. destruct Hstep as [(K & G & al & ->)|[(K & G & Y & ->)|(K & G & Y & HH & ->)]]; intros Hr; injection Hr as <-.
        + cbn [j_stress]. exact (stays_sym K G dt d s 0 Hd Hs).
        + now apply C19_symmetric.
        + destruct (hardening_cases K G dt d s e Y HH) as [[_ ->]|(_ & _ & ->)]; [now apply stays_sym|now apply returned_sym].
      - apply Forall_forall. intros d Hd. apply in_map_iff in Hd as (o & <- & Ho). now apply RS.
      - apply Forall_forall. exact HsN. }
    rewrite Forall_forall in F. now apply F. }
  split; [|exact Hsym]. exact (C10_correspondence_moment _ _ _ _ _ _ _ _ _ _ _ _ _ _ _ _ _ _ _ _ _ HI H Hsym).
Qed.
Print Assumptions C10_stress_update_moment.

(** ** The hypotheses are met *)

(** simple shear from zero stress: elastic stress 2 g in the two shear entries *)
Definition shear (g : R) : ten := @m3 RN 0 g 0 g 0 0 0 0 0.
Lemma shear_step : forall K G dt g, eq3 (dev_of (elastic_step K G dt (ent (shear g)) (ent mzero))) (ent (shear (2 * G * dt * g))).
Proof. intros K G dt g i j Hi Hj. unfold elastic_step, hooke_of, dev_of, scaled, tr3, sum3, kron. ij i j Hi Hj; cbn; field. Qed.
Lemma shear_norm : forall g, 0 <= g -> norm3 (ent (shear g)) = sqrt 2 * g.
Proof. intros g Hg. unfold norm3, ddot, sum3. cbn. replace (0 * 0 + g * g + 0 * 0 + (g * g + 0 * 0 + 0 * 0) + (0 * 0 + 0 * 0 + 0 * 0)) with (2 * (g * g)) by ring. rewrite sqrt_mult_alt by lra. now rewrite sqrt_square. Qed.
Lemma shear_mises : forall K G dt g, 0 <= 2 * G * dt * g -> mises (elastic_step K G dt (ent (shear g)) (ent mzero)) = sqrt 3 * (2 * G * dt * g).
Proof.
  intros K G dt g H. rewrite mises_norm, (norm_eq3 _ _ (shear_step K G dt g)), shear_norm by exact H. rewrite <- Rmult_assoc, <- sqrt_mult_alt by lra. f_equal. f_equal. field.
Qed.
Lemma sqrt3_bounds : 17/10 < sqrt 3 < 18/10.
Proof. split; [apply Rsqr_incrst_0; [|lra|apply sqrt_pos]; rewrite Rsqr_sqrt by lra; unfold Rsqr; lra|apply Rsqr_incrst_0; [|apply sqrt_pos|lra]; rewrite Rsqr_sqrt by lra; unfold Rsqr; lra]. Qed.
Lemma shear_large : forall K G dt g, 1 <= 2 * G * dt * g -> smallest <= norm3 (dev_of (elastic_step K G dt (ent (shear g)) (ent mzero))).
Proof.
  intros K G dt g H. rewrite (norm_eq3 _ _ (shear_step K G dt g)), shear_norm by lra. assert (1 <= sqrt 2) by (rewrite <- sqrt_1 at 1; apply sqrt_le_1_alt; lra).
  assert (smallest <= 1). { unfold smallest, Rdiv. rewrite Rmult_1_l, <- Rinv_1. apply Rinv_le_contravar; [lra|]. apply pow_R1_Rle. lra. } nra.
Qed.
Example C19_plastic_met : 0 <= 1 /\ 1 < mises (elastic_step 1 1 1 (ent (shear 1)) (ent mzero)) /\ smallest <= norm3 (dev_of (elastic_step 1 1 1 (ent (shear 1)) (ent mzero))).
Proof. split; [lra|]. split; [rewrite shear_mises by lra; pose proof sqrt3_bounds; lra|]. apply shear_large. lra. Qed.
Example C19_elastic_met : mises (elastic_step 1 1 1 (ent (shear 1)) (ent mzero)) <= 4.
Proof. rewrite shear_mises by lra. pose proof sqrt3_bounds. lra. Qed.
(** the step goes back to 1 in the von Mises stress and adds plastic strain *)
Example C19_plastic_step : j_vm (perfect (N:=RN) 1 1 1 1 (shear 1) mzero 0) = 1 /\ 0 < j_eqps (perfect (N:=RN) 1 1 1 1 (shear 1) mzero 0).
Proof.
  destruct C19_plastic_met as (H0 & H1 & H2). split; [rewrite C19_reported; now apply C19_plastic|].
  destruct (perfect_cases 1 1 1 (shear 1) mzero 0 1) as [[C _]|[C ->]]; [lra|]. rewrite smallest_eq in H2.
  destruct (ret_virgin 1 1 1 (shear 1) mzero 0 1) as [Q1 Q2]; try lra.
  { intros i j Hi Hj. unfold dev_of, tr3, sum3, kron. ij i j Hi Hj; cbn; field. }
  unfold returned. rewrite Q1, Q2. rewrite shear_mises in * by lra. pose proof sqrt3_bounds.
  assert (0 < 1 / (sqrt 3 * (2 * 1 * 1 * 1)) / 2) by (apply Rdiv_lt_0_compat; [apply Rdiv_lt_0_compat; lra|lra]).
  assert (0 < (sqrt 3 * (2 * 1 * 1 * 1) - 1) / (3 * 1)) by (apply Rdiv_lt_0_compat; lra). nra.
Qed.
Example C19_expansion_met : eq3 (ent (@m3 RN 6 0 0 0 6 0 0 0 6)) (fun i j => 3 * (5 - 1) / 2 * kron i j).
Proof. intros i j Hi Hj. ij i j Hi Hj; cbn; field. Qed.
(** the whole material runs on the four points of PropCorr.v *)
Example C10_stress_update_met : forall K G Y bulk coef dt dmg, exists f st' s' ps,
  correspondence (N:=RN) flat_omega sin cos (fun ds ss => let? rs := each_point (N:=RN) (fun d s e => Ok (perfect (N:=RN) K G Y dt d s e)) ds ss [0; 0; 0; 0] in Ok (map j_stress rs))
    bulk coef dt tetra tetra_now tetra_now unit4 unit4 tetra_bonds (unrotated tetra_bonds) [mzero; mzero; mzero; mzero] dmg = Ok (f, st', s', ps).
Proof.
  intros K G Y bulk coef dt dmg. destruct C17_code_zero_met as (geo & E & L).
  apply (correspondence_total flat_omega _ bulk coef dt 4 tetra_bonds tetra tetra_now tetra_now unit4 unit4 _ _ dmg geo); auto.
  - apply C17_inputs_met.
  - intros p g Hg. assert (p < 4)%nat by (rewrite <- L; apply nth_error_Some; congruence).
    destruct (nth_error tetra_bonds p) as [js|] eqn:Ejs; [|exfalso; apply nth_error_None in Ejs; cbn in Ejs; lia].
    destruct (neighbourhood_ok _ _ _ _ _ _ _ _ C17_inputs_met Ejs) as (X & h & nbs & HN).
    destruct (C17_affine_exact flat_omega 4 _ _ _ _ _ geo p js X h nbs _ _ C17_inputs_met E Ejs HN (tetra_affine _)) as (Ki & F & Eg & EF & _).
    rewrite Hg in Eg. injection Eg as ->. cbn [snd]. rewrite (det_eq3 _ _ EF). unfold det3, tetra_map. lra.
  - intros d Hd. destruct d as [|d0 [|d1 [|d2 [|d3 [|d4 d]]]]]; cbn in Hd; try discriminate. eexists. split; reflexivity.
Qed.
