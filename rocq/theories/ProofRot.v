(** * The rotation tensor of the correspondence materials *)
From Coq Require Import Reals Lra Lia.
From Verif Require Import Base Num ModelNeigh SpecDamage ModelForce SpecForce ModelCorr SpecCorr ProofData ProofDamage ProofForce ProofKernels ProofCorr ProofCorr2 ProofCorr3 ProofCorr4.
Local Open Scope R_scope.
Local Notation vec := (V3 RN).
Local Notation ten := (M3 RN).

(** ** Q *)
Definition qpoly (a b : R) (w : vec) : ten :=
  madd (madd mone (mscale (N:=RN) a (hat w))) (mscale (N:=RN) b (mul_nn (hat w) (hat w))).
Definition tiny : R := 1 / 1000000000000000000000000000000.
Lemma qmatrix_poly : forall dt (w : vec), tiny < vdot w w ->
  qmatrix (N:=RN) sin cos dt w = qpoly (sin (dt * vlen w) / vlen w) (- (1 - cos (dt * vlen w)) / vdot w w) w.
Proof.
  intros dt w H. unfold qmatrix. cbv zeta. cbn [ltb RN].
  match goal with |- context [Rltb ?a ?b] => rewrite (proj2 (Rltb_true a b)) end.
  - rewrite matmul_nn. unfold qpoly. unfold vlen. change (sqr_root (n:=RN)) with sqrt. unfold vdot. to_R.
    generalize (sin (dt * sqrt (vx w * vx w + vy w * vy w + vz w * vz w)) / sqrt (vx w * vx w + vy w * vy w + vz w * vz w)).
    generalize (- (1 - cos (dt * sqrt (vx w * vx w + vy w * vy w + vz w * vz w))) / (vx w * vx w + vy w * vy w + vz w * vz w)). intros a b. mext.
  - exact H.
Qed.
Lemma qmatrix_small : forall dt (w : vec), vdot w w <= tiny -> qmatrix (N:=RN) sin cos dt w = mone.
Proof.
  intros dt w H. unfold qmatrix. cbv zeta. cbn [ltb RN].
  match goal with |- context [Rltb ?a ?b] => rewrite (proj2 (Rltb_false a b)) end; [reflexivity|exact H].
Qed.
Lemma qpoly_gram : forall a b w, mul_nt (qpoly a b w) (qpoly a b w) = madd mone (mscale (N:=RN) (2*b - b*b*vdot w w - a*a) (mul_nn (hat w) (hat w))).
Proof. intros. unfold qpoly. mext. Qed.
Lemma qpoly_det : forall a b w, det3 (ent (qpoly a b w)) = (1 - b * vdot w w) * (1 - b * vdot w w) + a * a * vdot w w.
Proof. intros. unfold det3, qpoly. cbn. rring. Qed.
Lemma hat_sq : forall w i j, (i < 3)%nat -> (j < 3)%nat -> ent (mul_nn (hat w) (hat w)) i j = comp w i * comp w j - kron i j * vdot w w.
Proof. intros w i j Hi Hj. ij i j Hi Hj; cbn; unfold kron; cbn; rring. Qed.

Lemma vlen_sq' : forall w : vec, vlen w * vlen w = vdot w w.
Proof. intros w. unfold vlen. change (sqr_root (n:=RN)) with sqrt. apply sqrt_sqrt. unfold vdot. to_R. nra. Qed.
Lemma tiny_pos : 0 < tiny.
Proof. unfold tiny. lra. Qed.

Section Angle.
  Variables (dt : R) (w : vec).
  Hypothesis Hw : tiny < vdot w w.
  Let c := 1 - cos (dt * vlen w).
  Lemma vlen_nz : vlen w <> 0.
  Proof. intros E. pose proof (vlen_sq' w) as H. rewrite E in H. pose proof tiny_pos. lra. Qed.
  Lemma trig_sq : sin (dt * vlen w) * sin (dt * vlen w) = c * (2 - c).
  Proof. pose proof (sin2_cos2 (dt * vlen w)) as H. unfold Rsqr in H. unfold c. nra. Qed.
  Lemma q_coef : 2 * (- c / vdot w w) - (- c / vdot w w) * (- c / vdot w w) * vdot w w - (sin (dt * vlen w) / vlen w) * (sin (dt * vlen w) / vlen w) = - (4 * c) / vdot w w.
  Proof.
    pose proof vlen_nz as HN. pose proof trig_sq as HT. rewrite <- vlen_sq'. 
    replace ((sin (dt * vlen w) / vlen w) * (sin (dt * vlen w) / vlen w)) with (c * (2 - c) / (vlen w * vlen w)) by (rewrite <- HT; field; exact HN).
    revert HN. generalize (vlen w). intros l HN. change (T RN) with R in *. field. exact HN.
  Qed.
  Lemma q_gram : forall i j, (i < 3)%nat -> (j < 3)%nat ->
    ent (mul_nt (qmatrix (N:=RN) sin cos dt w) (qmatrix (N:=RN) sin cos dt w)) i j = kron i j + 4 * c * (kron i j - dir2 w i j).
  Proof.
    intros i j Hi Hj. rewrite qmatrix_poly by exact Hw. rewrite qpoly_gram. fold c. rewrite q_coef.
    transitivity (kron i j + - (4 * c) / vdot w w * ent (mul_nn (hat w) (hat w)) i j).
    - rewrite <- (kron_one i j Hi Hj). generalize (mul_nn (hat w) (hat w)). intros m. ij i j Hi Hj; cbn; rring.
    - rewrite hat_sq by auto. unfold dir2. assert (HZ : vdot w w <> 0) by (pose proof tiny_pos; change (T RN) with R in *; lra).
      revert HZ. generalize (vdot w w) (comp w i) (comp w j). intros d ci cj HZ. change (T RN) with R in *. field. exact HZ.
  Qed.
  Lemma q_det : det3 (ent (qmatrix (N:=RN) sin cos dt w)) = 5 - 4 * cos (dt * vlen w).
  Proof.
    rewrite qmatrix_poly by exact Hw. rewrite qpoly_det. fold c. pose proof vlen_nz as HN. pose proof trig_sq as HT. rewrite <- vlen_sq'.
    replace ((sin (dt * vlen w) / vlen w) * (sin (dt * vlen w) / vlen w)) with (c * (2 - c) / (vlen w * vlen w)) by (rewrite <- HT; field; exact HN).
    transitivity (1 + 4 * c); [|unfold c; ring]. clear HT. clearbody c. revert HN. generalize (vlen w). intros l HN. change (T RN) with R in *. field. exact HN.
  Qed.
End Angle.

(** ** one step *)
Lemma step_rotation : forall sinf cosf dt (L V Q : ten), snd (fst (rotation_step (N:=RN) sinf cosf dt L V Q)) = mul_nn (qmatrix (N:=RN) sinf cosf dt (angular L V)) Q.
Proof. intros. unfold rotation_step. cbv zeta. cbn [fst snd]. apply matmul_nn. Qed.
Lemma rate_sym : forall L : ten, mtrans (rate_of_deformation L) = rate_of_deformation L.
Proof. intros. mext. Qed.
Lemma rate_ent : forall L : ten, eq3 (ent (rate_of_deformation L)) (sym_part (ent L)).
Proof. intros L i j Hi Hj. unfold sym_part. ij i j Hi Hj; cbn; unfold half; cbn; to_R; change (T RN) with R in *; apply Rminus_diag_uniq; field. Qed.
Lemma step_rate : forall sinf cosf dt (L V Q : ten),
  snd (rotation_step (N:=RN) sinf cosf dt L V Q) =
  let Q1 := snd (fst (rotation_step (N:=RN) sinf cosf dt L V Q)) in mul_nn (mtrans Q1) (mul_nn (rate_of_deformation L) Q1).
Proof. intros. cbv zeta. rewrite step_rotation. unfold rotation_step. cbv zeta. cbn [fst snd]. rewrite matmul_tn, !matmul_nn, tn_trans. reflexivity. Qed.
Lemma step_rate_sym : forall sinf cosf dt (L V Q : ten), symmetric (ent (snd (rotation_step (N:=RN) sinf cosf dt L V Q))).
Proof.
  intros. apply symmetric_iff. rewrite step_rate. cbv zeta. generalize (snd (fst (rotation_step (N:=RN) sinf cosf dt L V Q))). intros Q1.
  rewrite !trans_nn, trans_trans, rate_sym. apply nn_assoc.
Qed.
Lemma step_stretch : forall sinf cosf dt (L V Q : ten),
  fst (fst (rotation_step (N:=RN) sinf cosf dt L V Q)) = madd V (mscale (N:=RN) dt (msub (mul_nn L V) (mul_nn V (hat (angular L V))))).
Proof. intros. unfold rotation_step. cbv zeta. cbn [fst snd]. rewrite !matmul_nn. reflexivity. Qed.

(** the stretch stays symmetric *)
Lemma angular_solves : forall (L V : ten), mtrans V = V -> det3 (ent (trace_minus V)) <> 0 ->
  let w := angular L V in
  mapply (trace_minus V) (vsub w (wvec (spin_of L))) = zvec V (rate_of_deformation L).
Proof.
  intros L V HV HD. destruct (invert_regular _ HD) as (G & EI & H1 & H2). unfold angular. cbv zeta. rewrite EI.
  transitivity (mapply (mul_nn (trace_minus V) G) (zvec V (rate_of_deformation L))).
  - generalize (trace_minus V) (zvec V (rate_of_deformation L)) (wvec (spin_of L)). intros M z u. apply v3_ext; cbn; rring.
  - rewrite H1. generalize (zvec V (rate_of_deformation L)). intros z. apply v3_ext; cbn; rring.
Qed.
Lemma stretch_sym : forall sinf cosf dt (L V Q : ten), symmetric (ent V) -> det3 (ent (trace_minus V)) <> 0 ->
  symmetric (ent (fst (fst (rotation_step (N:=RN) sinf cosf dt L V Q)))).
Proof.
  intros sinf cosf dt L V Q HV HD. apply symmetric_iff in HV. apply symmetric_iff. rewrite step_stretch.
  pose proof (angular_solves L V HV HD) as HA. cbv zeta in HA. revert HA. generalize (angular L V). intros w HA.
  assert (HR : mtrans (msub (mul_nn L V) (mul_nn V (hat w))) = msub (mul_nn L V) (mul_nn V (hat w))).
  { destruct V as [v0 v1 v2 v3' v4 v5 v6 v7 v8]. injection HV as E1 E2 E3 E4 E5 E6. subst v3' v6 v7.
    destruct L as [l0 l1 l2 l3 l4 l5 l6 l7 l8], w as [w0 w1 w2]. unfold mapply, zvec, wvec, trace_minus, trace, spin_of, rate_of_deformation, half in HA. cbn in HA.
    injection HA as A0 A1 A2. clear HD. cbn. to_R. change (T RN) with R in *.
    apply M3_ext. intros i j Hi Hj. ij i j Hi Hj; cbn; to_R; change (T RN) with R in *; lra. }
  revert HR. generalize (msub (mul_nn L V) (mul_nn V (hat w))). intros r HR.
  transitivity (madd (mtrans V) (mscale (N:=RN) dt (mtrans r))); [mext|]. now rewrite HV, HR.
Qed.

(** ** the step in terms of the specification *)
Lemma tiny_eq : tiny = 1 / 10 ^ 30.
Proof. unfold tiny. f_equal. simpl. ring. Qed.
Lemma q_excess : forall dt (w : vec), (forall i j, (i < 3)%nat -> (j < 3)%nat ->
    ent (mul_nt (qmatrix (N:=RN) sin cos dt w) (qmatrix (N:=RN) sin cos dt w)) i j = kron i j + excess dt w * (kron i j - dir2 w i j)) /\
  det3 (ent (qmatrix (N:=RN) sin cos dt w)) = 1 + excess dt w.
Proof.
  intros dt w. unfold excess. rewrite <- tiny_eq. destruct (Rle_dec (vdot w w) tiny) as [H|H].
  - rewrite (qmatrix_small dt w H). split.
    + intros i j Hi Hj. rewrite Rmult_0_l, Rplus_0_r, <- kron_one by auto. f_equal. mext.
    + unfold det3. cbn. rring.
  - apply Rnot_le_lt in H. split.
    + intros i j Hi Hj. rewrite (q_gram dt w H) by auto. reflexivity.
    + rewrite (q_det dt w H). ring.
Qed.
Lemma excess_nonneg : forall dt w, 0 <= excess dt w.
Proof. intros. unfold excess. destruct (Rle_dec _ _); [lra|]. pose proof (COS_bound (dt * vlen w)). lra. Qed.
Lemma sin_abs : forall a, sin a * sin a <= a * a.
Proof.
  assert (P : forall a, 0 <= a -> sin a * sin a <= a * a).
  { intros a Ha. destruct (Rle_dec a 1) as [H1|H1].
    - destruct (Req_dec a 0) as [->|Hn]; [rewrite sin_0; lra|].
      assert (sin a < a) by (apply sin_lt_x; lra). assert (0 <= sin a) by (apply sin_ge_0; [lra|pose proof PI2_1; lra]). nra.
    - pose proof (SIN_bound a). nra. }
  intros a. destruct (Rle_dec 0 a); [auto|]. specialize (P (- a)). rewrite sin_neg in P. replace (sin a * sin a) with (- sin a * - sin a) by ring. replace (a * a) with (- a * - a) by ring. apply P. lra.
Qed.
Lemma cos_abs : forall a, 2 * (1 - cos a) <= a * a.
Proof.
  intros a. replace (cos a) with (cos (2 * (a / 2))) by (f_equal; field). rewrite cos_2a_sin. pose proof (sin_abs (a / 2)). nra.
Qed.
Lemma excess_small : forall dt w, excess dt w <= 2 * (dt * dt * vdot w w).
Proof.
  intros. unfold excess. destruct (Rle_dec _ _) as [H|H].
  - assert (0 <= vdot w w) by (rewrite <- vlen_sq'; nra). nra.
  - pose proof (cos_abs (dt * vlen w)). rewrite <- vlen_sq'. nra.
Qed.

Lemma hat_cross : forall w : vec, eq3 (ent (hat w)) (cross_of w).
Proof. intros w i j Hi Hj. ij i j Hi Hj; reflexivity. Qed.
Lemma stretch_rate_ent : forall (L V : ten) (w : vec), eq3 (ent (msub (mul_nn L V) (mul_nn V (hat w)))) (stretch_rate (ent L) (ent V) w).
Proof. intros L V w i j Hi Hj. unfold stretch_rate, prod, sum3. ij i j Hi Hj; cbn; rring. Qed.
Lemma spherical_ent : forall V : ten, eq3 (ent (trace_minus V)) (spherical_minus (ent V)).
Proof. intros V i j Hi Hj. unfold spherical_minus, tr3, sum3, kron. ij i j Hi Hj; cbn; unfold trace; rring. Qed.
Lemma det_eq3 : forall a b, eq3 a b -> det3 a = det3 b.
Proof. intros a b H. unfold det3. rewrite !H by lia. reflexivity. Qed.
Lemma mapply_inj : forall M u : ten, det3 (ent M) <> 0 -> forall a b, mapply M a = mapply M b -> a = b.
Proof.
  intros M _ HD a b H. destruct (invert_regular _ HD) as (G & _ & _ & H2).
  assert (P : forall u : vec, mapply G (mapply M u) = u).
  { intros u. transitivity (mapply (mul_nn G M) u); [apply v3_ext; cbn; rring|]. rewrite H2. apply v3_ext; cbn; rring. }
  rewrite <- (P a), <- (P b). now rewrite H.
Qed.
(** the angular velocity is the only one that keeps the stretch symmetric *)
Lemma angular_unique : forall (L V : ten) (w : vec), symmetric (ent V) -> det3 (spherical_minus (ent V)) <> 0 ->
  (symmetric (stretch_rate (ent L) (ent V) w) <-> w = angular L V).
Proof.
  intros L V w HV HD. rewrite <- (det_eq3 _ _ (spherical_ent V)) in HD. apply symmetric_iff in HV.
  pose proof (angular_solves L V HV HD) as HA. cbv zeta in HA.
  assert (I : symmetric (stretch_rate (ent L) (ent V) w) <-> mapply (trace_minus V) (vsub w (wvec (spin_of L))) = zvec V (rate_of_deformation L)).
  { clear HA HD. destruct V as [v0 v1 v2 v3' v4 v5 v6 v7 v8]. injection HV as E1 E2 E3 E4 E5 E6. subst v3' v6 v7.
    destruct L as [l0 l1 l2 l3 l4 l5 l6 l7 l8], w as [w0 w1 w2]. split.
    - intros H. pose proof (H 0%nat 1%nat ltac:(lia) ltac:(lia)) as H01. pose proof (H 0%nat 2%nat ltac:(lia) ltac:(lia)) as H02. pose proof (H 1%nat 2%nat ltac:(lia) ltac:(lia)) as H12.
      unfold transp, stretch_rate, prod, sum3 in *. cbn in H01, H02, H12. change (T RN) with R in *.
      apply v3_ext; cbn; unfold trace, half; cbn; to_R; change (T RN) with R in *; lra.
    - intros HA. unfold mapply, zvec, wvec, trace_minus, trace, spin_of, rate_of_deformation, half in HA. cbn in HA. injection HA as A0 A1 A2.
      intros i j Hi Hj. unfold transp, stretch_rate, prod, sum3. ij i j Hi Hj; cbn; to_R; change (T RN) with R in *; lra. }
  rewrite I. split; [|now intros ->]. intros H. rewrite <- HA in H.
  apply (mapply_inj _ mone HD) in H. apply (f_equal (fun u => vadd u (wvec (spin_of L)))) in H.
  revert H. generalize (wvec (spin_of L)) (angular L V). intros [a0 a1 a2] [b0 b1 b2] H. destruct w as [w0 w1 w2]. injection H as H0 H1 H2. cbn in *. apply v3_ext; cbn; to_R; change (T RN) with R in *; lra.
Qed.
Lemma orthogonal3_nn : forall a : ten, orthogonal3 (ent a) <-> mul_nn (mtrans a) a = mone.
Proof.
  intros a. split.
  - intros H. apply M3_ext. intros i j Hi Hj. rewrite nn_ent by auto. rewrite kron_one by auto. rewrite <- (H i j Hi Hj). unfold prod, sum3, transp. rewrite !ent_trans by lia. reflexivity.
  - intros H i j Hi Hj. rewrite <- kron_one by auto. rewrite <- H. rewrite nn_ent by auto. unfold prod, sum3, transp. rewrite !ent_trans by lia. reflexivity.
Qed.
Lemma orthogonal3_right : forall a : ten, orthogonal3 (ent a) -> mul_nn a (mtrans a) = mone.
Proof.
  intros a H. apply orthogonal3_nn in H.
  assert (HD : det3 (ent a) <> 0). { intros E. assert (X : det3 (ent (mul_nn (mtrans a) a)) = 1) by (rewrite H; apply det_one). rewrite det_nn, E in X. lra. }
  destruct (invert_regular a HD) as (b & _ & B1 & B2). assert (mtrans a = b) as ->; [|exact B1].
  rewrite <- (nn_one_r (mtrans a)), <- B1, <- nn_assoc, H. apply nn_one_l.
Qed.
