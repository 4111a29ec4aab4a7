(** * Bounds on the hardening surface, symmetry of the new stresses *)
From Coq Require Import Reals Lra Lia.
From Verif Require Import Base Num ModelNeigh ModelForce SpecForce ModelCorr SpecCorr ModelPlastic ModelGlobal ModelJ2 SpecJ2 ProofData ProofForce ProofCorr ProofFrame ProofMaterial ProofCubic ProofJ2 ProofJ22 ProofRot ProofRot2.
Local Open Scope R_scope.
Local Notation vec := (V3 RN).
Local Notation ten := (M3 RN).

(** the multiplier of the code is at least the one of an initially unhardened material *)
Lemma delta_lower : forall K G dt (d s : ten) Y H, 0 < G -> 0 <= H -> f20 <= norm3 (dev_of (elastic_step K G dt (ent d) (ent s))) ->
  (mises (elastic_step K G dt (ent d) (ent s)) - Y) / (H + 3 * G) <=
  sqrt (2/3) * delta_lambda (N:=RN) G H Y (dev_inc (N:=RN) dt d) (deviator (trial (N:=RN) K G dt d s)) (magnitude (deviator (trial (N:=RN) K G dt d s))) s.
Proof.
  intros K G dt d s Y H HG HH HF. unfold delta_lambda. cbv zeta. rewrite !contract_ent.
  rewrite (ddot_eq3 _ _ _ _ (deviator_ent s) (deviator_ent s)). rewrite (ddot_eq3 _ _ _ _ (dev_ent K G dt d s) (dev_inc_ent dt d)).
  pose proof (magnitude_pos (deviator (trial (N:=RN) K G dt d s))) as P.
  assert (EM : magnitude (deviator (trial (N:=RN) K G dt d s)) = norm3 (dev_of (elastic_step K G dt (ent d) (ent s)))) by (rewrite magnitude_eq, norm_E; apply Rmax_right; exact HF).
  rewrite EM in *. to_R. fold (norm3 (dev_of (ent s))). set (E := elastic_step K G dt (ent d) (ent s)) in *.
  set (m := norm3 (dev_of E)) in *. set (q := norm3 (dev_of (ent s))).
  assert (D : ddot (dev_of E) (scaled dt (dev_of (ent d))) = (m * m - ddot (dev_of E) (dev_of (ent s))) / (2 * G)).
  { unfold m. rewrite norm_sq. 
    assert (EE : eq3 (dev_of E) (fun i j => dev_of (ent s) i j + 2 * G * dt * dev_of (ent d) i j)) by apply dev_trial.
    rewrite (ddot_eq3 (dev_of E) (dev_of E) (dev_of E) (fun i j => dev_of (ent s) i j + 2 * G * dt * dev_of (ent d) i j)); [|intros i j Hi Hj; reflexivity|exact EE].
    unfold ddot, scaled, sum3. field. lra. }
  rewrite D. pose proof (ddot_cauchy (dev_of E) (dev_of (ent s))) as C. fold m q in C.
  assert (HB : m - q <= (m * m - ddot (dev_of E) (dev_of (ent s))) / m).
  { apply Rmult_le_reg_r with m; [exact P|]. unfold Rdiv. rewrite (Rmult_assoc _ (/ m)), Rinv_l by lra. nra. }
  rewrite mises_norm. fold m. rewrite s6_23.
  replace (sqrt (3/2)) with (3 / 2 * sqrt (2/3)).
  2:{ apply Rmult_eq_reg_l with (sqrt (2/3)); [|pose proof s23_pos; lra]. replace (sqrt (2/3) * (3/2 * sqrt (2/3))) with (3/2 * (sqrt (2/3) * sqrt (2/3))) by ring. rewrite s23_sq, s23_32. field. }
  set (x := (m * m - ddot (dev_of E) (dev_of (ent s))) / m) in *.
  replace ((m * m - ddot (dev_of E) (dev_of (ent s))) / (2 * G) / m) with (x / (2 * G)) by (unfold x; field; split; lra).
  replace (sqrt (2/3) * ((6 * (x / (2 * G)) * G + 3 * q - 3 * sqrt (2/3) * Y) / (2 * (H + 3 * G)))) with
    ((3 / 2 * sqrt (2/3) * (x + q) - 3 / 2 * (sqrt (2/3) * sqrt (2/3)) * Y) / (H + 3 * G)) by (field; lra).
  rewrite s23_sq. apply Rmult_le_compat_r; [left; apply Rinv_0_lt_compat; lra|]. pose proof s23_pos. nra.
Qed.

Lemma stays_sym : forall K G dt (d s : ten) eN, symmetric (ent d) -> symmetric (ent s) -> symmetric (ent (j_stress (stays K G dt d s eN))).
Proof. intros K G dt d s eN Hd Hs i j Hi Hj. cbn [stays j_stress]. unfold transp. rewrite !trial_ent by auto. now apply (trial_sym K G dt (ent d) (ent s) Hd Hs). Qed.
Lemma returned_sym : forall K G dt (d s : ten) eN Y, symmetric (ent d) -> symmetric (ent s) -> symmetric (ent (j_stress (returned K G dt d s eN Y))).
Proof.
  intros K G dt d s eN Y Hd Hs. unfold returned. apply radial_sym. intros i j Hi Hj. unfold transp. rewrite !dev_ent by auto.
  pose proof (trial_sym K G dt _ _ Hd Hs i j Hi Hj) as Q. unfold transp in Q. unfold dev_of. rewrite Q. unfold kron. rewrite Nat.eqb_sym. reflexivity.
Qed.

Lemma each_point_sym : forall step (Hs : forall (d s : ten) (e : R) r, symmetric (ent d) -> symmetric (ent s) -> step d s e = Ok r -> symmetric (ent (j_stress (N:=RN) r))),
  forall ds ss (es : list R) rs, each_point (N:=RN) step ds ss es = Ok rs -> Forall (fun d => symmetric (ent d)) ds -> Forall (fun s => symmetric (ent s)) ss ->
  Forall (fun r => symmetric (ent (j_stress r))) rs.
Proof.
  intros step Hs. induction ds as [|d ds IH]; intros [|s ss] [|e es] rs; cbn [each_point]; try discriminate.
  - intros H _ _. injection H as <-. constructor.
  - destruct (step d s e) as [r| |] eqn:E; cbn [bind]; try discriminate. destruct (each_point step ds ss es) as [rs'| |] eqn:E'; cbn [bind]; try discriminate.
    intros H Hd Hss. injection H as <-. inversion Hd as [|? ? D1 D2]. inversion Hss as [|? ? S1 S2]. subst. constructor; [exact (Hs _ _ _ _ D1 S1 E)|eapply IH; eassumption].
Qed.
