(** * C18: the rotation tensor of the correspondence materials *)
From Coq Require Import Reals Lra Lia.
From Verif Require Import Base Num ModelNeigh ModelForce ModelCorr SpecDamage SpecForce SpecCorr ProofData ProofDamage ProofForce ProofKernels ProofCorr ProofCorr2 ProofCorr3 ProofCorr4 ProofCorr5 ProofRot ProofRot2 ProofCorr6 PropCorr.
Local Open Scope R_scope.
Local Notation vec := (V3 RN).
Local Notation ten := (M3 RN).

(** ** One step, for every velocity gradient *)

(** For a symmetric stretch whose [tr V I - V] is invertible there is exactly one angular velocity [w] that keeps the stretch
    symmetric; the step turns with it, keeps the stretch symmetric, and returns a symmetric unrotated rate of deformation
    [Q1^T D Q1].  But the new rotation is not orthogonal: across the axis it is too long, by the factor that [excess] gives. *)
Theorem C18_step_characterised : forall dt (L V Q V1 Q1 d : ten), symmetric (ent V) -> det3 (spherical_minus (ent V)) <> 0 -> orthogonal3 (ent Q) ->
  rotation_step (N:=RN) sin cos dt L V Q = (V1, Q1, d) ->
  exists w, (forall w', symmetric (stretch_rate (ent L) (ent V) w') <-> w' = w) /\
    eq3 (ent V1) (fun i j => ent V i j + dt * stretch_rate (ent L) (ent V) w i j) /\ symmetric (ent V1) /\
    symmetric (ent d) /\ eq3 (ent d) (prod (transp (ent Q1)) (prod (sym_part (ent L)) (ent Q1))) /\
    eq3 (prod (ent Q1) (transp (ent Q1))) (fun i j => kron i j + excess dt w * (kron i j - dir2 w i j)) /\
    det3 (ent Q1) = (1 + excess dt w) * det3 (ent Q).
Proof.
  intros dt L V Q V1 Q1 d HV HD HQ E. exists (angular L V). split; [intros w'; now apply angular_unique|].
  assert (E1 : V1 = fst (fst (rotation_step (N:=RN) sin cos dt L V Q))) by now rewrite E.
  assert (E2 : Q1 = snd (fst (rotation_step (N:=RN) sin cos dt L V Q))) by now rewrite E.
  assert (E3 : d = snd (rotation_step (N:=RN) sin cos dt L V Q)) by now rewrite E.
  split; [|split; [|split; [|split; [|split]]]].
  - rewrite E1, step_stretch. intros i j Hi Hj. cbv beta. rewrite <- stretch_rate_ent by auto.
    generalize (msub (mul_nn L V) (mul_nn V (hat (angular L V)))). intros r. ij i j Hi Hj; cbn; rring.
  - rewrite E1. apply stretch_sym; auto. rewrite (det_eq3 _ _ (spherical_ent V)). exact HD.
  - rewrite E3. apply step_rate_sym.
  - rewrite E3, step_rate. cbv zeta. rewrite <- E2. intros i j Hi Hj. rewrite nn_ent by auto. unfold prod, sum3, transp. rewrite !nn_ent by (auto; lia). unfold prod, sum3. rewrite !ent_trans by (auto; lia). rewrite !rate_ent by (auto; lia). reflexivity.
  - intros i j Hi Hj. rewrite E2. exact (step_gram dt L V Q HQ i j Hi Hj).
  - rewrite E2. apply step_det.
Qed.
Print Assumptions C18_step_characterised.

Example C18_step_met : symmetric (ent (m3 (N:=RN) 2 1 0 1 3 0 0 0 1)) /\ det3 (spherical_minus (ent (m3 (N:=RN) 2 1 0 1 3 0 0 0 1))) <> 0 /\ orthogonal3 (ent (m3 (N:=RN) 0 (-1) 0 1 0 0 0 0 1)).
Proof.
  split; [|split].
  - intros i j Hi Hj. unfold transp. ij i j Hi Hj; reflexivity.
  - unfold det3, spherical_minus, tr3, sum3, kron. cbn. intros HZ. change (T RN) with R in *. lra.
  - intros i j Hi Hj. unfold prod, transp, sum3, kron. ij i j Hi Hj; cbn; rring.
Qed.

(** The step keeps an orthogonal tensor orthogonal if and only if there is no spin to speak of or a whole number of turns is made *)
Theorem C18_orthogonal_iff : forall dt (L V Q V1 Q1 d : ten) w, symmetric (ent V) -> det3 (spherical_minus (ent V)) <> 0 -> orthogonal3 (ent Q) ->
  rotation_step (N:=RN) sin cos dt L V Q = (V1, Q1, d) -> symmetric (stretch_rate (ent L) (ent V) w) ->
  (orthogonal3 (ent Q1) <-> vdot w w <= 1 / 10 ^ 30 \/ cos (dt * vlen w) = 1).
Proof.
  intros dt L V Q V1 Q1 d w HV HD HQ E Hw. apply (angular_unique L V w HV HD) in Hw.
  assert (E2 : Q1 = snd (fst (rotation_step (N:=RN) sin cos dt L V Q))) by now rewrite E.
  rewrite E2, (step_orthogonal dt L V Q HQ), <- Hw. unfold excess. destruct (Rle_dec (vdot w w) (1 / 10 ^ 30)) as [H|H]; (split; intros K; [try (left; lra); try (right; lra)|first [lra | destruct K as [K|K]; [contradiction|rewrite K; lra]]]).
Qed.
Print Assumptions C18_orthogonal_iff.

(** How far it is off: at most twice the square of the angle turned in the step *)
Theorem C18_drift_bound : forall dt w, 0 <= excess dt w <= 2 * (dt * dt * vdot w w).
Proof. intros. split; [apply excess_nonneg|apply excess_small]. Qed.
Print Assumptions C18_drift_bound.

(** ** Histories *)

(** Over any run the determinant of the rotation tensor never falls: it starts at 1 and is at least 1 ever after *)
Theorem C18_determinant_grows : forall omega dt n nbrs (x : list vec) (v hs : list R) steps st,
  Forall (fun yv => corr_inputs n nbrs x (fst yv) v hs /\ length (snd yv) = n) steps ->
  rotation_history (N:=RN) omega sin cos dt x v hs nbrs steps (unrotated nbrs) = Ok st ->
  length st = length nbrs /\ forall V Q, In (V, Q) st -> 1 <= det3 (ent Q).
Proof.
  intros omega dt n nbrs x v hs steps st HF H. rewrite history_foldM in H.
  destruct (history_inv omega dt n nbrs x v hs (fun o => 1 <= det3 (ent (snd o))) steps (unrotated nbrs) st HF) as [L P]; auto.
  - intros L V Q HQ. cbn [snd] in *. rewrite step_det. pose proof (excess_nonneg dt (angular L V)). nra.
  - unfold unrotated. apply map_length.
  - unfold unrotated. rewrite Forall_forall. intros o Ho. apply in_map_iff in Ho as (? & <- & _). cbn [snd]. rewrite det_one. lra.
  - split; [exact L|]. intros V Q HI. rewrite Forall_forall in P. exact (P (V, Q) HI).
Qed.
Print Assumptions C18_determinant_grows.

(** A body that spins about a fixed axis (at every step its shape is an affine image of the reference, e.g. rotated, and its
    velocities are those of a rigid rotation with angular velocity [w] plus a translation): every step succeeds, the stretch
    stays the identity, and after [k] steps the determinant of every rotation tensor is [(5 - 4 cos (dt |w|))^k].  So it is
    orthogonal after a step only when the cosine is 1. *)
Theorem C18_spin_refuted : forall omega dt n nbrs (x : list vec) (v hs : list R) (w : vec) steps, 1 / 10 ^ 30 < vdot w w ->
  (forall p X h nbs, neighbourhood x v hs nbrs p X h nbs -> det3 (shape omega h X nbs) <> 0) ->
  Forall (fun yv => corr_inputs n nbrs x (fst yv) v hs /\ exists A b u, det3 A <> 0 /\ affine_body A b x (fst yv) /\ spinning w u (fst yv) (snd yv)) steps ->
  exists st, rotation_history (N:=RN) omega sin cos dt x v hs nbrs steps (unrotated nbrs) = Ok st /\ length st = length nbrs /\
  forall V Q, In (V, Q) st ->
    eq3 (ent V) kron /\ det3 (ent Q) = (5 - 4 * cos (dt * vlen w)) ^ length steps /\
    (steps <> [] -> cos (dt * vlen w) <> 1 -> ~ orthogonal3 (ent Q)).
Proof.
  intros omega dt n nbrs x v hs w steps Hw HS HF.
  destruct (spin_run omega dt n nbrs x v hs w steps HS HF 0 (unrotated nbrs)) as (st & E & L & P).
  - unfold unrotated. apply map_length.
  - unfold unrotated. rewrite Forall_forall. intros o Ho. apply in_map_iff in Ho as (? & <- & _). unfold grown. cbn [fst snd pow]. split; [reflexivity|]. split; [apply det_one|].
    rewrite Rminus_diag_eq by reflexivity. generalize (across w). intros m. mext.
  - exists st. split; [exact E|]. split; [exact L|]. intros V Q HI. rewrite Forall_forall in P. destruct (P (V, Q) HI) as (P1 & P2 & _). cbn [fst snd] in *.
    assert (EX : 1 + excess dt w = 5 - 4 * cos (dt * vlen w)). { unfold excess. destruct (Rle_dec (vdot w w) (1 / 10 ^ 30)) as [H|H]; [change (T RN) with R in *; lra|ring]. }
    rewrite Nat.add_0_r, EX in P2. split; [subst V; apply kron_one|]. split; [exact P2|]. intros Hn Hc HO.
    apply orthogonal3_nn in HO. apply (f_equal (fun m => det3 (ent m))) in HO. rewrite det_nn, det_trans, det_one, P2 in HO.
    assert (HG : 1 < (5 - 4 * cos (dt * vlen w)) ^ length steps). { apply Rlt_pow_R1; [|destruct steps; [contradiction|simpl; lia]]. pose proof (COS_bound (dt * vlen w)). destruct (Req_dec (cos (dt * vlen w)) 1); [contradiction|lra]. }
    nra.
Qed.
Print Assumptions C18_spin_refuted.

(** So a hydrostatic stress does not stay hydrostatic under a rigid spin: along the axis it is as before, across it is larger
    by the same factor, although the unrotated stress has not changed. *)
Theorem C18_spin_stress_refuted : forall omega dt n nbrs (x : list vec) (v hs : list R) (w : vec) steps, 1 / 10 ^ 30 < vdot w w ->
  (forall p X h nbs, neighbourhood x v hs nbrs p X h nbs -> det3 (shape omega h X nbs) <> 0) ->
  Forall (fun yv => corr_inputs n nbrs x (fst yv) v hs /\ exists A b u, det3 A <> 0 /\ affine_body A b x (fst yv) /\ spinning w u (fst yv) (snd yv)) steps ->
  exists st, rotation_history (N:=RN) omega sin cos dt x v hs nbrs steps (unrotated nbrs) = Ok st /\
  forall V Q press, In (V, Q) st ->
    eq3 (ent (rotate_stress Q (m3 (N:=RN) press 0 0 0 press 0 0 0 press)))
        (fun i j => press * (dir2 w i j + (5 - 4 * cos (dt * vlen w)) ^ length steps * (kron i j - dir2 w i j))).
Proof.
  intros omega dt n nbrs x v hs w steps Hw HS HF.
  destruct (spin_run omega dt n nbrs x v hs w steps HS HF 0 (unrotated nbrs)) as (st & E & L & P).
  - unfold unrotated. apply map_length.
  - unfold unrotated. rewrite Forall_forall. intros o Ho. apply in_map_iff in Ho as (? & <- & _). unfold grown. cbn [fst snd pow]. split; [reflexivity|]. split; [apply det_one|].
    rewrite Rminus_diag_eq by reflexivity. generalize (across w). intros m. mext.
  - exists st. split; [exact E|]. intros V Q press HI. rewrite Forall_forall in P. destruct (P (V, Q) HI) as (P1 & _ & P3). cbn [fst snd] in *.
    assert (EX : 1 + excess dt w = 5 - 4 * cos (dt * vlen w)). { unfold excess. destruct (Rle_dec (vdot w w) (1 / 10 ^ 30)) as [H|H]; [change (T RN) with R in *; lra|ring]. }
    rewrite Nat.add_0_r, EX in P3. rewrite rotate_stress_eq.
    assert (Hd : vdot w w <> 0) by (rewrite <- tiny_eq in Hw; pose proof tiny_pos; change (T RN) with R in *; lra).
    intros i j Hi Hj. cbv beta. rewrite <- (across_ent w Hd) by auto.
    transitivity (press * ent (mul_nn Q (mtrans Q)) i j).
    + clear P3. ij i j Hi Hj; cbn; rring.
    + rewrite P3. replace (dir2 w i j) with (kron i j - (kron i j - dir2 w i j)) by ring. rewrite <- (across_ent w Hd) by auto. rewrite <- kron_one by auto.
      generalize (across w) ((5 - 4 * cos (dt * vlen w)) ^ length steps). intros m k. ij i j Hi Hj; cbn; rring.
Qed.
Print Assumptions C18_spin_stress_refuted.

(** the four points of the C17 example, a quarter of a turn about the third axis each step: the claim is contradicted *)
Definition turned : list vec := [v3 (N:=RN) 0 0 0; v3 (N:=RN) 0 1 0; v3 (N:=RN) (-1) 0 0; v3 (N:=RN) 0 0 1].
Definition turned_vel : list vec := [v3 (N:=RN) 0 0 0; v3 (N:=RN) (-1) 0 0; v3 (N:=RN) 0 (-1) 0; v3 (N:=RN) 0 0 0].
Definition quarter : mat := fun i j => match i, j with 0%nat, 1%nat => -1 | 1%nat, 0%nat => 1 | 2%nat, 2%nat => 1 | _, _ => 0 end.
Example C18_spin_met :
  1 / 10 ^ 30 < vdot (v3 (N:=RN) 0 0 1) (v3 (N:=RN) 0 0 1) /\ vlen (v3 (N:=RN) 0 0 1) = 1 /\ cos (PI / 2 * 1) <> 1 /\
  Forall (fun yv => corr_inputs (N:=RN) 4 tetra_bonds tetra (fst yv) unit4 unit4 /\ exists A b u, det3 A <> 0 /\ affine_body A b tetra (fst yv) /\ spinning (v3 (N:=RN) 0 0 1) u (fst yv) (snd yv)) [(turned, turned_vel)].
Proof.
  assert (HD : vdot (v3 (N:=RN) 0 0 1) (v3 (N:=RN) 0 0 1) = 1) by (unfold vdot; cbn; lra).
  split; [rewrite HD; rewrite <- tiny_eq; unfold tiny; lra|]. split; [unfold vlen; rewrite HD; cbn; apply sqrt_1|].
  split; [rewrite Rmult_1_r, cos_PI2; lra|]. constructor; [|constructor]. cbn [fst snd]. split.
  - repeat split; repeat (constructor; try lia).
  - exists quarter, vzero, vzero. split; [unfold det3, quarter; lra|]. split.
    + repeat constructor; intros i Hi; destruct i as [|[|[|i]]]; try lia; unfold image, sum3, quarter; cbn; lra.
    + repeat constructor; apply v3_ext; cbn; rring.
Qed.

(** ** What holds *)

(** The unrotated rate of deformation is symmetric for every input, even if the rotation tensor is not orthogonal *)
Theorem C18_rate_symmetric : forall omega dt n nbrs (x y vel : list vec) (v hs : list R) geo st, corr_inputs n nbrs x y v hs -> length vel = n -> length geo = length nbrs -> length st = length nbrs ->
  exists code rs, rates (N:=RN) omega sin cos dt x vel v hs nbrs geo st = Ok (code, rs) /\ length rs = length nbrs /\ forall o, In o rs -> symmetric (ent (snd o)).
Proof.
  intros omega dt n nbrs x y vel v hs geo st HI Hv Hg Hst. destruct (rates_ok omega dt n nbrs x y vel v hs geo HI Hv Hg) as (c & Ls & L1 & _ & _ & L4).
  exists c, (steps_of dt Ls st). split; [apply L4; exact Hst|]. split; [rewrite steps_len; congruence|].
  intros o Ho. apply In_nth_error in Ho as [p Hp]. destruct (nth_steps _ _ _ _ _ Hp) as (L & V & Q & _ & _ & ->). apply step_rate_sym.
Qed.
Print Assumptions C18_rate_symmetric.

(** The rotated stress is symmetric if the stress is; its invariants are those of the stress if the rotation is orthogonal *)
Theorem C18_stress_symmetric : forall Q s : ten, symmetric (ent s) -> symmetric (ent (rotate_stress Q s)).
Proof. exact rotate_stress_sym. Qed.
Print Assumptions C18_stress_symmetric.
Theorem C18_stress_invariants_partial : forall Q s : ten, orthogonal3 (ent Q) ->
  eq3 (ent (rotate_stress Q s)) (prod (ent Q) (prod (ent s) (transp (ent Q)))) /\
  tr3 (ent (rotate_stress Q s)) = tr3 (ent s) /\ ddot (ent (rotate_stress Q s)) (ent (rotate_stress Q s)) = ddot (ent s) (ent s) /\
  det3 (ent (rotate_stress Q s)) = det3 (ent s).
Proof.
  intros Q s H. apply orthogonal3_nn in H. rewrite rotate_stress_eq. split; [|split; [|split]].
  - intros i j Hi Hj. rewrite nn_ent by auto. unfold prod, sum3, transp. rewrite !nn_ent by (auto; lia). unfold prod, sum3. rewrite !ent_trans by (auto; lia). reflexivity.
  - now apply conj_trace.
  - now apply conj_ddot.
  - rewrite conj_det. apply (f_equal (fun m => det3 (ent m))) in H. rewrite det_nn, det_trans, det_one in H. rewrite H. ring.
Qed.
Print Assumptions C18_stress_invariants_partial.

(** A body that only stretches: with the stretch commuting with a symmetric velocity gradient the rotation does not change *)
Theorem C18_pure_stretch_partial : forall dt (L V Q V1 Q1 d : ten), symmetric (ent L) -> symmetric (ent V) -> det3 (spherical_minus (ent V)) <> 0 ->
  eq3 (prod (ent L) (ent V)) (prod (ent V) (ent L)) -> rotation_step (N:=RN) sin cos dt L V Q = (V1, Q1, d) ->
  Q1 = Q /\ eq3 (ent V1) (fun i j => ent V i j + dt * prod (ent L) (ent V) i j).
Proof.
  intros dt L V Q V1 Q1 d HL HV HD HC E.
  assert (E1 : V1 = fst (fst (rotation_step (N:=RN) sin cos dt L V Q))) by now rewrite E.
  assert (E2 : Q1 = snd (fst (rotation_step (N:=RN) sin cos dt L V Q))) by now rewrite E.
  assert (W : angular L V = vzero).
  { symmetry. apply (angular_unique L V vzero HV HD). intros i j Hi Hj. unfold transp, stretch_rate.
    assert (Z : forall a b, prod (ent V) (cross_of (vzero (N:=RN))) a b = 0).
    { intros a b. unfold prod, sum3. assert (C0 : forall i j, cross_of (vzero (N:=RN)) i j = 0) by (intros [|[|[|?]]] [|[|[|?]]]; cbn; rring). rewrite !C0. ring. }
    rewrite !Z. rewrite (HC i j Hi Hj). unfold prod, sum3. rewrite !(HL j) by (auto; lia). rewrite !(HV i) by (auto; lia). unfold transp. ring. }
  split.
  - rewrite E2, step_rotation, W. rewrite qmatrix_small; [apply nn_one_l|]. unfold tiny, vdot. cbn. lra.
  - rewrite E1, step_stretch, W. intros i j Hi Hj. rewrite <- (nn_ent L V i j Hi Hj). generalize (mul_nn L V). intros m. ij i j Hi Hj; cbn; rring.
Qed.
Print Assumptions C18_pure_stretch_partial.

(** ** Failed inversions *)

(** The return code says exactly whether some deformation gradient is singular: it does not depend on the stretch at all *)
Theorem C18_singular_gradient_reported : forall omega dt n nbrs (x y vel : list vec) (v hs : list R) geo, corr_inputs n nbrs x y v hs -> length vel = n -> length geo = length nbrs ->
  exists code, (code = 0%Z <-> forall p Kinv F, nth_error geo p = Some (Kinv, F) -> det3 (ent F) <> 0) /\
  forall st, length st = length nbrs -> exists rs, rates (N:=RN) omega sin cos dt x vel v hs nbrs geo st = Ok (code, rs).
Proof.
  intros omega dt n nbrs x y vel v hs geo HI Hv Hg. destruct (rates_ok omega dt n nbrs x y vel v hs geo HI Hv Hg) as (c & Ls & L1 & _ & L3 & L4).
  exists c. split.
  - rewrite L3. split; intros H p; [intros Ki F Hp; exact (H p (Ki, F) Hp)|intros [Ki F] Hp; exact (H p Ki F Hp)].
  - intros st Hst. eexists. apply L4; exact Hst.
Qed.
Print Assumptions C18_singular_gradient_reported.

(** So the claim that a failed inversion is reported is false for the other inversion, that of [tr V I - V]: for every body
    with regular deformation gradients the code is 0 whatever the stretch; with one for which the inversion fails, the spin
    of the stretch is silently left out. *)
Theorem C18_singular_stretch_refuted : forall omega dt n nbrs (x y vel : list vec) (v hs : list R) geo, corr_inputs n nbrs x y v hs -> length vel = n -> length geo = length nbrs ->
  (forall p Kinv F, nth_error geo p = Some (Kinv, F) -> det3 (ent F) <> 0) ->
  forall V Q : ten, det3 (spherical_minus (ent V)) = 0 ->
  exists rs, rates (N:=RN) omega sin cos dt x vel v hs nbrs geo (repeat (V, Q) (length nbrs)) = Ok (0%Z, rs).
Proof.
  intros omega dt n nbrs x y vel v hs geo HI Hv Hg HF V Q _.
  destruct (C18_singular_gradient_reported omega dt n nbrs x y vel v hs geo HI Hv Hg) as (c & HC & H).
  rewrite (proj2 HC HF) in H. apply H. apply repeat_length.
Qed.
Print Assumptions C18_singular_stretch_refuted.
(** a stretch that one step of strong compression reaches from the identity *)
Example C18_singular_stretch_met : det3 (spherical_minus (ent (m3 (N:=RN) (-1) 0 0 0 1 0 0 0 1))) = 0 /\
  fst (fst (rotation_step (N:=RN) sin cos 1 (m3 (N:=RN) (-2) 0 0 0 0 0 0 0 0) mone mone)) = m3 (N:=RN) (-1) 0 0 0 1 0 0 0 1.
Proof.
  split; [unfold det3, spherical_minus, tr3, sum3, kron; cbn; lra|].
  destruct (rotation_step (N:=RN) sin cos 1 (m3 (N:=RN) (-2) 0 0 0 0 0 0 0 0) mone mone) as [[V1 Q1] d] eqn:E.
  destruct (C18_pure_stretch_partial 1 (m3 (N:=RN) (-2) 0 0 0 0 0 0 0 0) mone mone V1 Q1 d) as [_ H]; [| | | |exact E|].
  - intros i j Hi Hj. unfold transp. ij i j Hi Hj; reflexivity.
  - intros i j Hi Hj. unfold transp. ij i j Hi Hj; reflexivity.
  - unfold det3, spherical_minus, tr3, sum3, kron. cbn. intros HZ. change (T RN) with R in *. lra.
  - intros i j Hi Hj. unfold prod, sum3. ij i j Hi Hj; cbn; rring.
  - cbn [fst]. apply M3_ext. intros i j Hi Hj. rewrite (H i j Hi Hj). unfold prod, sum3. ij i j Hi Hj; cbn; rring.
Qed.
