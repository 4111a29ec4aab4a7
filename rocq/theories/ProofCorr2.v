(** * The deformation gradient of the correspondence materials *)
From Coq Require Import Reals Lra Lia.
From Verif Require Import Base Num ModelNeigh SpecDamage ModelForce SpecForce ModelCorr SpecCorr ProofData ProofDamage ProofForce ProofKernels ProofCorr.
Local Open Scope R_scope.
Local Notation vec := (V3 RN).
Local Notation ten := (M3 RN).

(** ** kernels of singular matrices *)
Lemma ker_det : forall a00 a01 a02 a10 a11 a12 a20 a21 a22 u0 u1 u2 : R,
  a00*u0 + a01*u1 + a02*u2 = 0 -> a10*u0 + a11*u1 + a12*u2 = 0 -> a20*u0 + a21*u1 + a22*u2 = 0 ->
  ~ (u0 = 0 /\ u1 = 0 /\ u2 = 0) ->
  a00*(a11*a22 - a12*a21) - a01*(a10*a22 - a12*a20) + a02*(a10*a21 - a11*a20) = 0.
Proof.
  intros. set (D := a00*(a11*a22 - a12*a21) - a01*(a10*a22 - a12*a20) + a02*(a10*a21 - a11*a20)).
  assert (D0 : D * u0 = 0).
  { replace (D*u0) with ((a11*a22-a12*a21)*(a00*u0+a01*u1+a02*u2) - (a01*a22-a02*a21)*(a10*u0+a11*u1+a12*u2) + (a01*a12-a02*a11)*(a20*u0+a21*u1+a22*u2)) by (unfold D; ring).
    rewrite H, H0, H1. ring. }
  assert (D1 : D * u1 = 0).
  { replace (D*u1) with (-(a10*a22-a12*a20)*(a00*u0+a01*u1+a02*u2) + (a00*a22-a02*a20)*(a10*u0+a11*u1+a12*u2) - (a00*a12-a02*a10)*(a20*u0+a21*u1+a22*u2)) by (unfold D; ring).
    rewrite H, H0, H1. ring. }
  assert (D2 : D * u2 = 0).
  { replace (D*u2) with ((a10*a21-a11*a20)*(a00*u0+a01*u1+a02*u2) - (a00*a21-a01*a20)*(a10*u0+a11*u1+a12*u2) + (a00*a11-a01*a10)*(a20*u0+a21*u1+a22*u2)) by (unfold D; ring).
    rewrite H, H0, H1. ring. }
  destruct (Req_dec D 0) as [|HD]; auto. exfalso. apply H2.
  repeat split; [apply Rmult_integral in D0|apply Rmult_integral in D1|apply Rmult_integral in D2]; tauto.
Qed.
Lemma det_ker : forall a00 a01 a02 a10 a11 a12 a20 a21 a22 : R,
  a00*(a11*a22 - a12*a21) - a01*(a10*a22 - a12*a20) + a02*(a10*a21 - a11*a20) = 0 ->
  exists u0 u1 u2, ~ (u0 = 0 /\ u1 = 0 /\ u2 = 0) /\
  a00*u0 + a01*u1 + a02*u2 = 0 /\ a10*u0 + a11*u1 + a12*u2 = 0 /\ a20*u0 + a21*u1 + a22*u2 = 0.
Proof.
  intros a00 a01 a02 a10 a11 a12 a20 a21 a22 H.
  set (c00 := a11*a22-a12*a21). set (c01 := -(a10*a22-a12*a20)). set (c02 := a10*a21-a11*a20).
  set (c10 := -(a01*a22-a02*a21)). set (c11 := a00*a22-a02*a20). set (c12 := -(a00*a21-a01*a20)).
  set (c20 := a01*a12-a02*a11). set (c21 := -(a00*a12-a02*a10)). set (c22 := a00*a11-a01*a10).
  assert (Z : forall r : R, r = 0 \/ r <> 0) by (intros; destruct (Req_dec r 0); auto).
  assert (case0 : ~ (c00 = 0 /\ c01 = 0 /\ c02 = 0) \/ (c00 = 0 /\ c01 = 0 /\ c02 = 0)) by (destruct (Z c00), (Z c01), (Z c02); tauto).
  assert (case1 : ~ (c10 = 0 /\ c11 = 0 /\ c12 = 0) \/ (c10 = 0 /\ c11 = 0 /\ c12 = 0)) by (destruct (Z c10), (Z c11), (Z c12); tauto).
  assert (case2 : ~ (c20 = 0 /\ c21 = 0 /\ c22 = 0) \/ (c20 = 0 /\ c21 = 0 /\ c22 = 0)) by (destruct (Z c20), (Z c21), (Z c22); tauto).
  destruct case0 as [N0|(N00 & N01 & N02)].
  { exists c00, c01, c02. split; auto. unfold c00, c01, c02. repeat split; [|ring|ring]. rewrite <- H at 1. ring. }
  destruct case1 as [N1|(N10 & N11 & N12)].
  { exists c10, c11, c12. split; auto. unfold c10, c11, c12. repeat split; [ring| |ring]. rewrite <- H at 1. ring. }
  destruct case2 as [N2|(N20 & N21 & N22)].
  { exists c20, c21, c22. split; auto. unfold c20, c21, c22. repeat split; [ring|ring|]. rewrite <- H at 1. ring. }
  unfold c00, c01, c02, c10, c11, c12, c20, c21, c22 in *.
  (* all minors vanish *)
  destruct (Z a00); [|exists (-a01), a00, 0; split; [lra|repeat split; lra]].
  destruct (Z a01); [|exists (-a01), a00, 0; split; [lra|repeat split; lra]].
  destruct (Z a02); [|exists a02, 0, (-a00); split; [lra|repeat split; lra]].
  destruct (Z a10); [|exists (-a11), a10, 0; split; [lra|repeat split; lra]].
  destruct (Z a11); [|exists (-a11), a10, 0; split; [lra|repeat split; lra]].
  destruct (Z a12); [|exists a12, 0, (-a10); split; [lra|repeat split; lra]].
  destruct (Z a20); [|exists (-a21), a20, 0; split; [lra|repeat split; lra]].
  destruct (Z a21); [|exists (-a21), a20, 0; split; [lra|repeat split; lra]].
  destruct (Z a22); [|exists a22, 0, (-a20); split; [lra|repeat split; lra]].
  exists 1, 0, 0. subst. split; [lra|repeat split; lra].
Qed.

(** ** sums *)
Lemma sum_over_ext : forall A (f g : A -> R) l, (forall a, In a l -> f a = g a) -> sum_over f l = sum_over g l.
Proof. induction l; intros H; simpl; auto. f_equal; [apply H; now left|apply IHl; intros; apply H; now right]. Qed.
Lemma sum_over_plus : forall A (f g : A -> R) l, sum_over (fun a => f a + g a) l = sum_over f l + sum_over g l.
Proof. induction l; simpl; [ring|rewrite IHl; ring]. Qed.
Lemma sum_over_scale : forall A k (f : A -> R) l, sum_over (fun a => k * f a) l = k * sum_over f l.
Proof. induction l; simpl; [ring|rewrite IHl; ring]. Qed.
Lemma sum_over_zero : forall A (f : A -> R) l, (forall a, In a l -> f a = 0) -> sum_over f l = 0.
Proof. induction l; intros H; simpl; auto. rewrite (H a) by now left. rewrite IHl; [ring|intros; apply H; now right]. Qed.
Lemma sum_over_pos : forall A (f : A -> R) l, (forall a, In a l -> 0 <= f a) -> 0 <= sum_over f l /\ (sum_over f l = 0 -> forall a, In a l -> f a = 0).
Proof.
  induction l; intros H; simpl; [split; [lra|tauto]|].
  destruct IHl as [I1 I2]; [intros; apply H; now right|]. pose proof (H a (or_introl eq_refl)). split; [lra|].
  intros E b [<-|Hb]; [lra|apply I2; auto; lra].
Qed.

(** the quadratic form of the shape tensor *)
Lemma shape_image : forall omega h X nbs (a : vec) i,
  image (shape omega h X nbs) a i = sum_over (fun nb => weight omega h X nb * comp (vsub (fst nb) X) i * vdot a (vsub (fst nb) X)) nbs.
Proof.
  intros. unfold image, sum3, shape. rewrite !(Rmult_comm (sum_over _ _)), <- !sum_over_scale, <- !sum_over_plus.
  apply sum_over_ext. intros nb _. unfold vdot. cbn [comp]. rring.
Qed.
Lemma shape_quad : forall omega h X nbs (a : vec),
  sum3 (fun i => comp a i * image (shape omega h X nbs) a i) = sum_over (fun nb => weight omega h X nb * Rsqr (vdot a (vsub (fst nb) X))) nbs.
Proof.
  intros. unfold sum3. rewrite !shape_image, <- !sum_over_scale, <- !sum_over_plus.
  apply sum_over_ext. intros nb _. unfold Rsqr, vdot. cbn [comp]. rring.
Qed.
Lemma vzero_iff : forall a : vec, a <> vzero <-> ~ (vx a = 0 /\ vy a = 0 /\ vz a = 0).
Proof.
  intros [a b c]. split.
  - intros H (H1 & H2 & H3). apply H. cbn in *. subst. reflexivity.
  - intros H E. apply H. injection E as -> -> ->. cbn. auto.
Qed.
Lemma coplanar_singular : forall omega h X nbs, coplanar X nbs -> det3 (shape omega h X nbs) = 0.
Proof.
  intros omega h X nbs (a & Ha & H). apply vzero_iff in Ha.
  assert (K : forall i, image (shape omega h X nbs) a i = 0).
  { intros i. rewrite shape_image. apply sum_over_zero. intros nb Hn. rewrite (H nb Hn). rring. }
  apply (ker_det _ _ _ _ _ _ _ _ _ (vx a) (vy a) (vz a) (K 0%nat) (K 1%nat) (K 2%nat) Ha).
Qed.
Lemma singular_coplanar : forall omega h X nbs, (forall nb, In nb nbs -> 0 < weight omega h X nb) ->
  det3 (shape omega h X nbs) = 0 -> coplanar X nbs.
Proof.
  intros omega h X nbs HW H. apply det_ker in H as (u0 & u1 & u2 & Hu & E0 & E1 & E2).
  set (a := v3 (N:=RN) u0 u1 u2). exists a. split; [now apply vzero_iff|].
  assert (Q : sum_over (fun nb => weight omega h X nb * Rsqr (vdot a (vsub (fst nb) X))) nbs = 0).
  { rewrite <- shape_quad. unfold sum3 at 1.
    change (image (shape omega h X nbs) a 0) with (shape omega h X nbs 0%nat 0%nat * u0 + shape omega h X nbs 0%nat 1%nat * u1 + shape omega h X nbs 0%nat 2%nat * u2).
    change (image (shape omega h X nbs) a 1) with (shape omega h X nbs 1%nat 0%nat * u0 + shape omega h X nbs 1%nat 1%nat * u1 + shape omega h X nbs 1%nat 2%nat * u2).
    change (image (shape omega h X nbs) a 2) with (shape omega h X nbs 2%nat 0%nat * u0 + shape omega h X nbs 2%nat 1%nat * u1 + shape omega h X nbs 2%nat 2%nat * u2).
    rewrite E0, E1, E2. ring. }
  destruct (sum_over_pos _ (fun nb => weight omega h X nb * Rsqr (vdot a (vsub (fst nb) X))) nbs) as [_ P].
  { intros nb Hn. apply Rmult_le_pos; [left; auto|apply Rle_0_sqr]. }
  intros nb Hn. pose proof (P Q nb Hn) as E. cbv beta in E. apply Rmult_integral in E as [E|E].
  - pose proof (HW nb Hn). lra.
  - now apply Rsqr_0_uniq.
Qed.

(** fewer than three bonds always lie in a plane *)
Lemma two_coplanar : forall X nbs, (length nbs < 3)%nat -> coplanar X nbs.
Proof.
  intros X nbs Hl.
  assert (P : forall u w : vec, exists a : vec, a <> vzero /\ vdot a u = 0 /\ vdot a w = 0).
  { intros u w. destruct (det_ker (vx u) (vy u) (vz u) (vx w) (vy w) (vz w) 0 0 0) as (a & b & c & Hn & E1 & E2 & _); [ring|].
    exists (v3 (N:=RN) a b c). split; [now apply vzero_iff|]. unfold vdot. cbn. split.
    - rewrite <- E1. rring.
    - rewrite <- E2. rring. }
  destruct nbs as [|u [|w [|t nbs]]]; [| | |simpl in Hl; lia].
  - destruct (P vzero vzero) as (a & Ha & _). exists a. split; auto. intros ? [].
  - destruct (P (vsub (fst u) X) vzero) as (a & Ha & H1 & _). exists a. split; auto. intros ? [<-|[]]; auto.
  - destruct (P (vsub (fst u) X) (vsub (fst w) X)) as (a & Ha & H1 & H2). exists a. split; auto. intros ? [<-|[<-|[]]]; auto.
Qed.

(** ** the sums of the loop *)
Definition of_mat (A : mat) : ten :=
  @m3 RN (A 0 0)%nat (A 0 1)%nat (A 0 2)%nat (A 1 0)%nat (A 1 1)%nat (A 1 2)%nat (A 2 0)%nat (A 2 1)%nat (A 2 2)%nat.
Lemma of_mat_ent : forall A, eq3 (ent (of_mat A)) A.
Proof. intros A i j Hi Hj. ij i j Hi Hj; reflexivity. Qed.
Lemma affine_bond : forall A b x y pts p j X Y XP YP, affine_at A b x y pts -> In p pts -> In j pts ->
  nth_error x p = Some X -> nth_error y p = Some Y -> nth_error x j = Some XP -> nth_error y j = Some YP ->
  vsub YP Y = mapply (of_mat A) (vsub XP X).
Proof.
  intros A b x y pts p j X Y XP YP H Hp Hj EX EY EXP EYP.
  pose proof (H p X Y Hp EX EY) as H1. pose proof (H j XP YP Hj EXP EYP) as H2.
  destruct X as [X0 X1 X2], Y as [Y0 Y1 Y2], XP as [P0 P1 P2], YP as [Q0 Q1 Q2], b as [b0 b1 b2].
  unfold image, sum3 in H1, H2.
  pose proof (H1 0%nat) as A0. pose proof (H1 1%nat) as A1. pose proof (H1 2%nat) as A2.
  pose proof (H2 0%nat) as B0. pose proof (H2 1%nat) as B1. pose proof (H2 2%nat) as B2. clear H1 H2.
  unfold vsub, mapply, of_mat. cbn in *.
  rewrite A0, A1, A2, B0, B1, B2 by lia. f_equal; rring.
Qed.
Lemma outer_mapply : forall (A : ten) k (u : vec), outer k (mapply A u) u = mul_nn A (outer k u u).
Proof. intros. mext. Qed.
Lemma nn_madd : forall a b c : ten, mul_nn a (madd b c) = madd (mul_nn a b) (mul_nn a c).
Proof. intros. mext. Qed.

Lemma shape_sums_go : forall (omega : R -> R -> R) (x y : list vec) v h X Y js nbs, length y = length x ->
  looks_up x v js nbs -> forall accK accF : ten, exists K F1 : ten,
  foldM (fun acc j =>
      let? vj := at_ub v j in let? XP := at_ub x j in let? YP := at_ub y j in
      let dX := vsub XP X in let dY := vsub YP Y in
      let temp := mul (n:=RN) (mul (n:=RN) (sub (ofZ 1) (ofZ 0)) (omega (vlen dX) h)) vj in
      Ok (madd (fst acc) (outer temp dX dX), madd (snd acc) (outer temp dY dX))) (accK, accF) js = Ok (K, F1) /\
  (forall i j, (i < 3)%nat -> (j < 3)%nat -> ent K i j = ent accK i j + shape omega h X nbs i j) /\
  (forall A : ten, accF = mul_nn A accK ->
     (forall j XP YP, In j js -> nth_error x j = Some XP -> nth_error y j = Some YP -> vsub YP Y = mapply A (vsub XP X)) ->
     F1 = mul_nn A K).
Proof.
  intros omega x y v h X Y js nbs Hl HL. induction HL as [|j [XP vj] js nbs [EX EV] HL IH]; intros accK accF.
  - exists accK, accF. cbn. split; [reflexivity|]. split; [intros; unfold shape; cbn; rring|auto].
  - cbn [fst snd] in EX, EV. cbn [foldM].
    destruct (nth_error y j) as [YP|] eqn:EY.
    2:{ exfalso. apply nth_error_None in EY. assert (j < length x)%nat by (apply nth_error_Some; congruence). lia. }
    unfold at_ub at 1 2 3. rewrite EX, EV, EY. cbn [bind fst snd]. cbv zeta.
    destruct (IH (madd accK (outer (mul (n:=RN) (mul (n:=RN) (sub (ofZ 1) (ofZ 0)) (omega (vlen (vsub XP X)) h)) vj) (vsub XP X) (vsub XP X)))
                 (madd accF (outer (mul (n:=RN) (mul (n:=RN) (sub (ofZ 1) (ofZ 0)) (omega (vlen (vsub XP X)) h)) vj) (vsub YP Y) (vsub XP X)))) as (K & F1 & E & P1 & P2).
    exists K, F1. split; [exact E|]. split.
    + intros i k Hi Hk. rewrite P1 by auto. unfold shape. cbn [sum_over fold_right]. unfold weight. cbn [fst snd].
      generalize (omega (vlen (vsub XP X)) h). intros w. generalize (vsub XP X). intros [d0 d1 d2].
      match goal with |- _ + ?s = _ + (_ + ?s') => change s' with s; generalize s; intros ss end.
      ij i k Hi Hk; cbn; rring.
    + intros A HA HB. apply P2.
      * rewrite nn_madd, <- HA. f_equal. rewrite <- outer_mapply. f_equal. apply (HB j XP YP); auto. now left.
      * intros j' XP' YP' Hj. apply HB. now right.
Qed.
Lemma shape_sums_ok : forall (omega : R -> R -> R) (x y : list vec) v h X Y js nbs, length y = length x -> looks_up x v js nbs ->
  exists K F1, shape_sums (N:=RN) omega x y v h X Y js = Ok (K, F1) /\ eq3 (ent K) (shape omega h X nbs) /\
  (forall A : ten, (forall j XP YP, In j js -> nth_error x j = Some XP -> nth_error y j = Some YP -> vsub YP Y = mapply A (vsub XP X)) ->
     F1 = mul_nn A K).
Proof.
  intros omega x y v h X Y js nbs Hl HL. destruct (shape_sums_go omega x y v h X Y js nbs Hl HL mzero mzero) as (K & F1 & E & P1 & P2).
  exists K, F1. split; [exact E|]. split.
  - intros i j Hi Hj. rewrite P1 by auto. ij i j Hi Hj; cbn; rring.
  - intros A HA. apply P2; auto. mext.
Qed.
Lemma rate_sums_go : forall (omega : R -> R -> R) (x y : list vec) v h X Y js accK accF K F1,
  foldM (fun acc j =>
      let? vj := at_ub v j in let? XP := at_ub x j in let? YP := at_ub y j in
      let dX := vsub XP X in let dY := vsub YP Y in
      let temp := mul (n:=RN) (mul (n:=RN) (sub (ofZ 1) (ofZ 0)) (omega (vlen dX) h)) vj in
      Ok (madd (fst acc) (outer temp dX dX), madd (snd acc) (outer temp dY dX))) (accK, accF) js = Ok (K, F1) ->
  foldM (fun acc j =>
      let? vj := at_ub v j in let? XP := at_ub x j in let? UP := at_ub y j in
      let dX := vsub XP X in let dU := vsub UP Y in
      Ok (madd acc (outer (mul (n:=RN) (mul (n:=RN) (sub (ofZ 1) (ofZ 0)) (omega (vlen dX) h)) vj) dU dX))) accF js = Ok F1.
Proof.
  intros omega x y v h X Y. induction js as [|j js IH]; intros accK accF K F1 H; cbn [foldM] in *.
  - injection H as _ <-. reflexivity.
  - apply bind_Ok in H as [s [E H]]. apply bind_Ok in E as [vj [E1 E]]. apply bind_Ok in E as [XP [E2 E]]. apply bind_Ok in E as [YP [E3 E]].
    injection E as <-. rewrite E1. cbn [bind]. rewrite E2. cbn [bind]. rewrite E3. cbn [bind]. eapply IH. exact H.
Qed.
Lemma rate_sums_ok : forall (omega : R -> R -> R) (x y : list vec) v h X Y js K F1,
  shape_sums (N:=RN) omega x y v h X Y js = Ok (K, F1) -> rate_sums (N:=RN) omega x y v h X Y js = Ok F1.
Proof. intros omega x y v h X Y js K F1 H. eapply rate_sums_go. exact H. Qed.
