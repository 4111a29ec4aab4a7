(** * Bond states, stresses and moments *)
From Coq Require Import Reals Lra Lia.
From Verif Require Import Base Num ModelNeigh SpecDamage ModelForce SpecForce ModelCorr SpecCorr ModelBondAssoc SpecBondAssoc SpecBondForce
  ProofData ProofDamage ProofForce ProofKernels ProofCorr ProofCorr2 ProofCorr3 ProofCorr4 ProofCorr5 ProofTangent ProofBondAssoc ProofBondAssoc2 ProofBondAssoc3 ProofBondAssoc4 ProofBondForce ProofBondForce2 ModelBondAssoc SpecBondAssoc SpecBondForce.
Local Open Scope R_scope.
Local Notation vec := (V3 RN).
Local Notation ten := (M3 RN).

(** ** one bond from both ends *)
Lemma bond_gradient_swap : forall (A B : ten) (xi d : vec), vdot xi xi <> 0 ->
  bond_gradient (mean B A) (vscale (N:=RN) (-1) xi) (vscale (N:=RN) (-1) d) = bond_gradient (mean A B) xi d.
Proof.
  intros A B xi d H. destruct A as [f0 f1 f2 f3 f4 f5 f6 f7 f8], B as [g0 g1 g2 g3 g4 g5 g6 g7 g8], xi as [x y z], d as [d0 d1 d2]. unfold vdot in H. cbn [vx vy vz] in H. to_R. change (T RN) with R in *.
  apply M3_ext. intros i j Hi Hj. ij i j Hi Hj; cbn; to_R; change (T RN) with R; field; repeat split; try exact H; intros E; apply H; rewrite <- E; ring.
Qed.
Section Sc.
Variables sinf cosf : R -> R.
Definition step_of (dt : R) (x y vel : list vec) (Fs Gs : list ten) (om : R) (p j : nat) s :=
  bond_step (N:=RN) sinf cosf dt om (between x p j) (between y p j) (between vel p j) (nth p Fs mzero) (nth j Fs mzero) (nth p Gs mzero) (nth j Gs mzero) s.
Lemma step_swap : forall dt x y vel Fs Gs om p j s, vdot (between x p j) (between x p j) <> 0 -> step_of dt x y vel Fs Gs om j p s = step_of dt x y vel Fs Gs om p j s.
Proof.
  intros dt x y vel Fs Gs om p j s H. unfold step_of, bond_step. rewrite (between_swap x p j), (between_swap y p j), (between_swap vel p j), !bond_gradient_swap by auto. reflexivity.
Qed.
Lemma bond_steps_spec : forall dt (x y vel : list vec) Fs Gs wt st p, forall js k kin,
  bond_steps (N:=RN) sinf cosf dt x y vel Fs Gs wt st (at3 x p) (at3 y p) (at3 vel p) (nth p Fs mzero) (nth p Gs mzero) k js = Ok kin ->
  length kin = length js /\ forall m j, nth_error js m = Some j -> exists w s o, nth_error wt (k + m) = Some w /\ nth_error st (k + m) = Some s /\ nth_error kin m = Some o /\
    step_of dt x y vel Fs Gs (w_om w) p j s = Ok o.
Proof.
  intros dt x y vel Fs Gs wt st p. induction js as [|j js IH]; intros k kin H; cbn [bond_steps] in H.
  - injection H as <-. split; auto. intros [|m] j Hm; discriminate.
  - apply bind_Ok in H as (w & H1 & H). apply bind_Ok in H as (s & H2 & H). apply bind_Ok in H as (o & H3 & H). apply bind_Ok in H as (r & H4 & H). injection H as <-. apply at_ub_Ok in H1, H2.
    destruct (IH _ _ H4) as [L D]. split; [cbn; now rewrite L|]. intros [|m] j' Hm; cbn in Hm.
    + injection Hm as <-. exists w, s, o. rewrite Nat.add_0_r. repeat split; auto. unfold step_of. destruct (ltb (n:=RN) (ofZ 0) (w_om w)) eqn:E.
      * apply bind_Ok in H3 as (XP & A1 & H3). apply bind_Ok in H3 as (YP & A2 & H3). apply bind_Ok in H3 as (UP & A3 & H3). apply bind_Ok in H3 as (FP & A4 & H3). apply bind_Ok in H3 as (GP & A5 & H3). apply at_ub_Ok in A1, A2, A3, A4, A5.
        unfold between. rewrite (at3_nth _ _ _ A1), (at3_nth _ _ _ A2), (at3_nth _ _ _ A3), (nth_error_nth _ _ mzero A4), (nth_error_nth _ _ mzero A5). exact H3.
      * unfold bond_step in *. rewrite E in *. exact H3.
    + destruct (D m j' Hm) as (w' & s' & o' & B1 & B2 & B3 & B4). exists w', s', o'. replace (k + S m)%nat with (1 + k + m)%nat by lia. auto.
Qed.
Lemma kin_from : forall dt (x y vel : list vec) Fs Gs wt st nbrs p k kin, bond_kinematics (N:=RN) sinf cosf dt x y vel Fs Gs wt st p k nbrs = Ok kin ->
  length kin = num_bonds nbrs /\ forall q js m j, nth_error nbrs q = Some js -> nth_error js m = Some j ->
    exists w s o, nth_error wt (k + (offset nbrs q + m)) = Some w /\ nth_error st (k + (offset nbrs q + m)) = Some s /\ nth_error kin (offset nbrs q + m) = Some o /\
    step_of dt x y vel Fs Gs (w_om w) (p + q) j s = Ok o.
Proof.
  intros dt x y vel Fs Gs wt st. induction nbrs as [|js rest IH]; intros p k kin H; cbn [bond_kinematics] in H.
  - injection H as <-. split; auto. intros [|q] js m j Hq; discriminate.
  - apply bind_Ok in H as (X & A1 & H). apply bind_Ok in H as (Y & A2 & H). apply bind_Ok in H as (U & A3 & H). apply bind_Ok in H as (F & A4 & H). apply bind_Ok in H as (G & A5 & H). apply at_ub_Ok in A1, A2, A3, A4, A5.
    apply bind_Ok in H as (l & Hl & H). apply bind_Ok in H as (r & Hr & H). injection H as <-.
    rewrite <- (at3_nth _ _ _ A1), <- (at3_nth _ _ _ A2), <- (at3_nth _ _ _ A3), <- (nth_error_nth _ _ mzero A4), <- (nth_error_nth _ _ mzero A5) in Hl.
    destruct (bond_steps_spec _ _ _ _ _ _ _ _ _ _ _ _ Hl) as [L D]. destruct (IH _ _ _ Hr) as [LR DR]. split; [rewrite app_length, num_bonds_cons; lia|].
    intros [|q] js' m j Hq Hm; cbn in Hq.
    + injection Hq as <-. change (offset (js :: rest) 0) with 0%nat. cbn [Nat.add]. rewrite Nat.add_0_r. destruct (D m j Hm) as (w & s & o & B1 & B2 & B3 & B4). exists w, s, o. repeat split; auto.
      rewrite nth_error_app1; auto. rewrite L. apply nth_error_Some. congruence.
    + rewrite offset_S. destruct (DR q js' m j Hq Hm) as (w & s & o & B1 & B2 & B3 & B4). exists w, s, o. replace (p + S q)%nat with (1 + p + q)%nat by lia.
      replace (k + (length js + offset rest q + m))%nat with (length js + k + (offset rest q + m))%nat by lia. repeat split; auto.
      rewrite nth_error_app2 by lia. replace (length js + offset rest q + m - length l)%nat with (offset rest q + m)%nat by lia. auto.
Qed.
Lemma kin_spec : forall dt (x y vel : list vec) Fs Gs wt st nbrs kin, bond_kinematics (N:=RN) sinf cosf dt x y vel Fs Gs wt st 0 0 nbrs = Ok kin ->
  length kin = num_bonds nbrs /\ forall p k j, bond_at nbrs p k j -> exists w s o, nth_error wt k = Some w /\ nth_error st k = Some s /\ nth_error kin k = Some o /\ step_of dt x y vel Fs Gs (w_om w) p j s = Ok o.
Proof.
  intros * H. apply kin_from in H as [L D]. split; auto. intros p k j (js & m & H1 & H2 & ->). destruct (D p js m j H1 H2) as (w & s & o & B). exists w, s, o. exact B.
Qed.
Lemma kin_two : forall dt (x y vel : list vec) Fs Gs wt st nbrs kin w0, bond_kinematics (N:=RN) sinf cosf dt x y vel Fs Gs wt st 0 0 nbrs = Ok kin -> apart nbrs x w0 ->
  two_sided nbrs (map (w_om (N:=RN)) wt) -> two_sided nbrs st -> two_sided nbrs kin.
Proof.
  intros dt x y vel Fs Gs wt st nbrs kin w0 H AP TW TS p k j k' HB HB'. apply kin_spec in H as [_ D]. destruct (D _ _ _ HB) as (w & s & o & A1 & A2 & A3 & A4), (D _ _ _ HB') as (w' & s' & o' & B1 & B2 & B3 & B4).
  pose proof (TW _ _ _ _ HB HB') as E1. rewrite !nth_error_map, A1, B1 in E1. cbn in E1. injection E1 as E1. pose proof (TS _ _ _ _ HB HB') as E2. rewrite A2, B2 in E2. injection E2 as <-.
  rewrite step_swap in B4 by (apply (AP p k j HB)). change (T RN) with R in *. rewrite <- E1, A4 in B4. rewrite A3, B3. injection B4 as <-. reflexivity.
Qed.
Lemma nth_combine : forall A B (a : list A) (b : list B) k, nth_error (combine a b) k = match nth_error a k, nth_error b k with Some u, Some v => Some (u, v) | _, _ => None end.
Proof. induction a as [|u a IH]; intros b k; [destruct k; reflexivity|]. destruct b as [|v b]; [destruct k; cbn; auto; destruct (nth_error a k); reflexivity|]. destruct k; cbn; auto. Qed.
Lemma two_map : forall A B (g : A -> B) nbrs l, two_sided nbrs l -> two_sided nbrs (map g l).
Proof. intros A B g nbrs l H p k j k' H1 H2. rewrite !nth_error_map. now rewrite (H p k j k' H1 H2). Qed.
Lemma two_combine : forall A B nbrs (a : list A) (b : list B), two_sided nbrs a -> two_sided nbrs b -> two_sided nbrs (combine a b).
Proof. intros A B nbrs a b H K p k j k' H1 H2. rewrite !nth_combine. now rewrite (H p k j k' H1 H2), (K p k j k' H1 H2). Qed.
Lemma two_repeat : forall A (a : A) nbrs, two_sided nbrs (repeat a (num_bonds nbrs)).
Proof.
  intros A a nbrs p k j k' H H'. assert (K : forall q i l, bond_at nbrs q i l -> (i < num_bonds nbrs)%nat).
  { intros q i l HB. eapply bond_at_bound; eauto. }
  rewrite !nth_error_rep by eauto. reflexivity.
Qed.

(** ** symmetric stresses *)
Lemma rate_sym : forall dt L V Q, symmetric (ent (snd (rotation_step (N:=RN) sinf cosf dt L V Q))).
Proof.
  intros dt L V Q. unfold rotation_step. cbv zeta. cbn [snd]. rewrite matmul_tn, !matmul_nn, tn_trans. apply symmetric_iff. rewrite !trans_nn, trans_trans.
  assert (mtrans (rate_of_deformation (N:=RN) L) = rate_of_deformation L) as -> by reflexivity. now rewrite nn_assoc.
Qed.
Lemma zero_sym : symmetric (ent mzero).
Proof. apply symmetric_iff. reflexivity. Qed.
Lemma step_rate_sym : forall dt om xi dY dU F FP G GP s o, bond_step (N:=RN) sinf cosf dt om xi dY dU F FP G GP s = Ok o -> symmetric (ent (snd o)).
Proof.
  intros dt om xi dY dU F FP G GP s o H. unfold bond_step in H. cbv zeta in H. destruct (ltb (n:=RN) (ofZ 0) om).
  - destruct (invert _) as [[rc J] Finv]. destruct (0 <? rc)%Z; [discriminate|]. match type of H with context [rotation_step (N:=RN) sinf cosf dt ?L ?V ?Q] => pose proof (rate_sym dt L V Q) as E; destruct (rotation_step (N:=RN) sinf cosf dt L V Q) as [[V1 R1] d] end. injection H as <-. exact E.
  - injection H as <-. apply zero_sym.
Qed.
(** Jacobian times Cauchy stress *)
Lemma piola_sym : forall dt om xi dY dU F FP G GP s o sigma, bond_step (N:=RN) sinf cosf dt om xi dY dU F FP G GP s = Ok o -> 0 < om -> symmetric (ent sigma) ->
  symmetric (ent (mul_nn (bond_piola (N:=RN) (fst o) sigma) (mtrans (bond_gradient (mean F FP) xi dY)))).
Proof.
  intros dt om xi dY dU F FP G GP s o sigma H Hom HS. unfold bond_step in H. cbv zeta in H. destruct (ltb (n:=RN) (ofZ 0) om) eqn:E; [|cbn in E; unfold Rltb in E; destruct (Rlt_dec 0 om); [discriminate|lra]].
  set (Fb := bond_gradient (mean F FP) xi dY) in *. destruct (Req_dec (det3 (ent Fb)) 0) as [Z|NZ]; [rewrite (invert_singular _ Z) in H; discriminate|].
  destruct (invert_regular _ NZ) as (Fi & EI & I1 & I2). rewrite EI in H. cbn [Z.ltb Z.compare] in H.
  match type of H with context [rotation_step (N:=RN) sinf cosf dt ?L ?V ?Q] => destruct (rotation_step (N:=RN) sinf cosf dt L V Q) as [[V1 R1] d] end. injection H as <-. cbn [fst]. unfold bond_piola. cbn [b_J b_R b_Finv].
  set (J := det3 (ent Fb)). pose proof (rotate_stress_sym R1 sigma HS) as HR. set (sg := rotate_stress R1 sigma) in *.
  assert (EQ : mul_nn (matmul (N:=RN) false true J sg Fi) (mtrans Fb) = mscale (N:=RN) J sg).
  { assert (E1 : matmul (N:=RN) false true J sg Fi = mscale (N:=RN) J (mul_nn sg (mtrans Fi))). { apply M3_ext. intros i j Hi Hj. rewrite matmul_ent by auto. clearbody J sg. clear -Hi Hj. ij i j Hi Hj; unfold prod, transp, sum3; cbn; to_R; change (T RN) with R; ring. }
    assert (E2 : forall a b : ten, mul_nn (mscale (N:=RN) J a) b = mscale (N:=RN) J (mul_nn a b)). { intros a b. apply M3_ext. intros i j Hi Hj. clearbody J. clear -Hi Hj. ij i j Hi Hj; cbn; to_R; match goal with |- @eq _ ?a ?b => change (@eq R a b) end; ring. }
    rewrite E1, E2, nn_assoc, <- trans_nn, I1. assert (mtrans mone = mone (N:=RN)) as -> by reflexivity. now rewrite nn_one_r. }
  rewrite EQ. clear EQ. apply symmetric_iff in HR. apply symmetric_iff. clearbody J sg. rewrite <- HR at 2. reflexivity.
Qed.

(** ** turning *)
Definition turn (e : vec) : ten := m3 (N:=RN) 0 (- vz e) (vy e) (vz e) 0 (- vx e) (- vy e) (vx e) 0.
Lemma turn_ddot : forall e (Pk F : ten), symmetric (ent (mul_nn Pk (mtrans F))) -> ddot (ent Pk) (ent (mul_nn (turn e) F)) = 0.
Proof.
  intros [e1 e2 e3] Pk F H. pose proof (H 0%nat 1%nat ltac:(lia) ltac:(lia)) as A. pose proof (H 0%nat 2%nat ltac:(lia) ltac:(lia)) as B. pose proof (H 1%nat 2%nat ltac:(lia) ltac:(lia)) as C.
  unfold transp in *. destruct Pk as [p0 p1 p2 p3 p4 p5 p6 p7 p8], F as [f0 f1 f2 f3 f4 f5 f6 f7 f8]. cbn in A, B, C. unfold ddot, sum3. cbn. to_R. change (T RN) with R in *. 
  transitivity (e3 * ((p3 * f0 + p4 * f1 + p5 * f2) - (p0 * f3 + p1 * f4 + p2 * f5)) + e2 * ((p0 * f6 + p1 * f7 + p2 * f8) - (p6 * f0 + p7 * f1 + p8 * f2)) + e1 * ((p6 * f3 + p7 * f4 + p8 * f5) - (p3 * f6 + p4 * f7 + p5 * f8))); [ring|].
  rewrite A, B, C. ring.
Qed.
Lemma turn_level : forall e (A B : ten) (xi d : vec) (G : mat), bond_level (average (ent A) (ent B)) xi d G ->
  bond_level (average (ent (mul_nn (turn e) A)) (ent (mul_nn (turn e) B))) xi (vcross e d) (prod (ent (turn e)) G).
Proof.
  intros [e1 e2 e3] A B xi d G [H1 H2]. split.
  - intros i Hi. pose proof (H1 0%nat ltac:(lia)) as K0. pose proof (H1 1%nat ltac:(lia)) as K1. pose proof (H1 2%nat ltac:(lia)) as K2. clear H1 H2. unfold image, prod, sum3 in *. destruct d as [d1 d2 d3], xi as [x y z]. unfold vcross in *.
    i3 i Hi; cbn in *; to_R; change (T RN) with R in *; rewrite <- ?K0, <- ?K1, <- ?K2; ring.
  - intros t Ht i Hi. pose proof (H2 t Ht 0%nat ltac:(lia)) as K0. pose proof (H2 t Ht 1%nat ltac:(lia)) as K1. pose proof (H2 t Ht 2%nat ltac:(lia)) as K2. clear H1 H2.
    destruct t as [x y z]. unfold image, prod, average, sum3 in *.
    i3 i Hi; cbn in *; to_R; change (T RN) with R in *.
    + transitivity (- e3 * (G 1%nat 0%nat * x + G 1%nat 1%nat * y + G 1%nat 2%nat * z) + e2 * (G 2%nat 0%nat * x + G 2%nat 1%nat * y + G 2%nat 2%nat * z)); [ring|]. rewrite K1, K2. field.
    + transitivity (e3 * (G 0%nat 0%nat * x + G 0%nat 1%nat * y + G 0%nat 2%nat * z) - e1 * (G 2%nat 0%nat * x + G 2%nat 1%nat * y + G 2%nat 2%nat * z)); [ring|]. rewrite K0, K2. field.
    + transitivity (- e2 * (G 0%nat 0%nat * x + G 0%nat 1%nat * y + G 0%nat 2%nat * z) + e1 * (G 1%nat 0%nat * x + G 1%nat 1%nat * y + G 1%nat 2%nat * z)); [ring|]. rewrite K0, K1. field.
Qed.
Lemma map_at3 : forall (g : vec -> vec) l p, (p < length l)%nat -> at3 (map g l) p = g (at3 l p).
Proof. intros g l p H. unfold at3. rewrite (nth_indep _ vzero (g vzero)) by (rewrite map_length; auto). apply map_nth. Qed.
Lemma turned_gradient : forall e (x y u : list vec) (v : list R) wt nbrs Fs Ws, reproduces nbrs x v wt -> mutual nbrs ->
  (length nbrs <= length y)%nat ->
  (forall p, (p < length nbrs)%nat -> at3 y p = vadd (at3 x p) (at3 u p)) ->
  deformation_gradients (N:=RN) v u wt nbrs = Ok Fs -> velocity_gradients (N:=RN) v (map (vcross e) y) wt nbrs = Ok Ws ->
  forall p, (p < length nbrs)%nat -> nth p Ws mzero = mul_nn (turn e) (nth p Fs mzero).
Proof.
  intros e x y u v wt nbrs Fs Ws RP (_ & FB & _) Ly HY HF HW p Hp. apply gradients_spec in HF as [_ HF]. apply gradients_spec in HW as [_ HW].
  assert (Hn : nth_error nbrs p = Some (nth p nbrs [])) by now apply nth_error_nth'. pose proof (RP p Hp) as MOM. set (js := nth p nbrs []) in *.
  assert (FJ : forall m, (m < length js)%nat -> (nth m js 0%nat < length nbrs)%nat). { intros m Hm. rewrite Forall_forall in FB. specialize (FB js (nth_error_In _ _ Hn)). rewrite Forall_forall in FB. apply FB. now apply nth_In. }
  destruct (HF p js Hn) as (U & F & HU & HFp & HG). destruct (HW p js Hn) as (U' & W & HU' & HWp & HG'). cbn [Nat.add] in *. rewrite (nth_error_nth _ _ mzero HFp), (nth_error_nth _ _ mzero HWp).
  assert (EY : forall l c, (l < 3)%nat -> (c < 3)%nat -> sum_to (length js) (fun m => comp (between y p (nth m js 0%nat)) l * comp (phi_of wt (offset nbrs p + m)) c * nth (nth m js 0%nat) v 0) = ent F l c).
  { intros l c Hl Hc. rewrite (grad_sum_nth v u wt U l c Hl Hc js _ _ _ HG), (kron_one l c Hl Hc), <- (MOM l c Hl Hc). unfold sum_to. rewrite <- so_add. apply sum_to_ext. intros m Hm. unfold between. rewrite (HY p Hp), (HY _ (FJ m Hm)), (at3_nth _ _ _ HU).
    destruct (at3 x p) as [a1 a2 a3], (at3 x (nth m js 0%nat)) as [b1 b2 b3], (at3 u (nth m js 0%nat)) as [c1 c2 c3], U as [u1 u2 u3]. clear -Hl. i3 l Hl; cbn; to_R; change (T RN) with R; ring. }
  apply M3_ext. intros i c Hi Hc. rewrite (grad_sum_nth v (map (vcross e) y) wt U' i c Hi Hc js _ _ _ HG'), (nn_ent (turn e) F i c Hi Hc).
  replace (ent mzero i c) with 0 by (clear -Hi Hc; ij i c Hi Hc; reflexivity). rewrite Rplus_0_l. unfold prod, sum3. rewrite <- !EY by lia.
  unfold sum_to. rewrite <- !so_mul, <- !so_add. apply sum_to_ext. intros m Hm. rewrite <- (at3_nth _ _ _ HU'). rewrite !map_at3 by (specialize (FJ m Hm); lia). unfold between.
  destruct e as [e1 e2 e3], (at3 y p) as [a1 a2 a3], (at3 y (nth m js 0%nat)) as [b1 b2 b3]. clear -Hi. i3 i Hi; cbn; to_R; change (T RN) with R; ring.
Qed.
End Sc.
