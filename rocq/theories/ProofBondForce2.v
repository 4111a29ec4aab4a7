(** * The power of the forces *)
From Coq Require Import Reals Lra Lia.
From Verif Require Import Base Num ModelNeigh SpecDamage ModelForce SpecForce ModelCorr SpecCorr ModelBondAssoc SpecBondAssoc SpecBondForce
  ProofData ProofDamage ProofForce ProofKernels ProofCorr ProofCorr2 ProofCorr3 ProofCorr4 ProofTangent ProofBondAssoc ProofBondAssoc2 ProofBondAssoc3 ProofBondAssoc4 ProofBondForce.
Local Open Scope R_scope.
Local Notation vec := (V3 RN).
Local Notation ten := (M3 RN).

Lemma at3_nth : forall (l : list vec) p a, nth_error l p = Some a -> at3 l p = a.
Proof. intros. unfold at3. now apply nth_error_nth. Qed.
Lemma phi_nth : forall wt k (b : bw (N:=RN)), nth_error wt k = Some b -> phi_of wt k = w_phi b.
Proof. intros wt k b H. unfold phi_of. now rewrite (nth_error_nth _ _ _ H). Qed.
Lemma om_nth : forall wt k (b : bw (N:=RN)), nth_error wt k = Some b -> om_of wt k = w_om b.
Proof. intros wt k b H. unfold om_of. now rewrite (nth_error_nth _ _ _ H). Qed.
Lemma real_nth : forall (l : list R) k a, nth_error l k = Some a -> nth k l 0 = a.
Proof. intros. now apply nth_error_nth. Qed.

Lemma sum_to_S : forall n f, sum_to (S n) f = f 0%nat + sum_to n (fun m => f (S m)).
Proof. intros. unfold sum_to. cbn [seq]. rewrite so_cons, <- seq_shift, so_map. reflexivity. Qed.
Lemma sum_to_ext : forall n f g, (forall m, (m < n)%nat -> f m = g m) -> sum_to n f = sum_to n g.
Proof. intros. apply so_ext. intros m Hm. apply in_seq in Hm. apply H. lia. Qed.
Lemma sum_to_mul : forall n c f, sum_to n (fun m => c * f m) = c * sum_to n f.
Proof. intros. apply so_mul. Qed.

Lemma grad_sum_nth : forall (v : list R) (u : list vec) wt U i c, (i < 3)%nat -> (c < 3)%nat -> forall js k acc F, grad_sum (N:=RN) v u wt U k js acc = Ok F ->
  ent F i c = ent acc i c + sum_to (length js) (fun m => comp (vsub (at3 u (nth m js 0%nat)) U) i * comp (phi_of wt (k + m)) c * nth (nth m js 0%nat) v 0).
Proof.
  intros v u wt U i c Hi Hc. induction js as [|j js IH]; intros k acc F H; cbn [grad_sum] in H.
  - injection H as <-. unfold sum_to. cbn [length seq]. rewrite so_nil. ring.
  - apply bind_Ok in H as (vj & H1 & H). apply bind_Ok in H as (UP & H2 & H). apply bind_Ok in H as (w & H3 & H). apply at_ub_Ok in H1, H2, H3.
    rewrite (IH _ _ _ H). cbn [length]. rewrite sum_to_S. cbn [nth]. rewrite Nat.add_0_r, (at3_nth _ _ _ H2), (phi_nth _ _ _ H3), (real_nth v _ _ H1). rewrite <- Rplus_assoc. f_equal.
    + destruct UP as [a1 a2 a3], U as [b1 b2 b3]. destruct w as [om [p1 p2 p3]]. clear -Hi Hc. ij i c Hi Hc; cbn; to_R; reflexivity.
    + apply sum_to_ext. intros m _. now rewrite Nat.add_succ_r.
Qed.
Lemma proper_nth : forall wt k (b : bw (N:=RN)), proper_weights wt -> nth_error wt k = Some b -> 0 <= w_om b /\ (w_om b = 0 -> w_phi b = vzero).
Proof. intros wt k b H Hk. unfold proper_weights in H. rewrite Forall_forall in H. apply H. now apply nth_error_In in Hk. Qed.
Lemma ltb_pos : forall r : R, 0 <= r -> ltb (n:=RN) (ofZ 0) r = false -> r = 0.
Proof. intros r H E. cbn in E. unfold Rltb in E. destruct (Rlt_dec 0 r); [discriminate|lra]. Qed.
Lemma integral_sum_nth : forall (x : list vec) (v w0 : list R) wt P X (w : R) i c, proper_weights wt -> (i < 3)%nat -> (c < 3)%nat -> forall js k acc F, integral_sum (N:=RN) x v w0 wt P X w k js acc = Ok F ->
  ent F i c = ent acc i c + sum_to (length js) (fun m => om_of wt (k + m) * (1 / 2 / w + 1 / 2 / nth (nth m js 0%nat) w0 0) * nth (nth m js 0%nat) v 0 *
     ent (mul_nn (nth (k + m) P mzero) (off_axis (vsub (at3 x (nth m js 0%nat)) X))) i c).
Proof.
  intros x v w0 wt P X w i c PW Hi Hc. induction js as [|j js IH]; intros k acc F H; cbn [integral_sum] in H.
  - injection H as <-. unfold sum_to. cbn [length seq]. rewrite so_nil. ring.
  - apply bind_Ok in H as (b & H1 & H). apply at_ub_Ok in H1. destruct (proper_nth _ _ _ PW H1) as [O1 _]. apply bind_Ok in H as (acc' & H2 & H).
    rewrite (IH _ _ _ H). cbn [length]. rewrite sum_to_S. cbn [nth]. rewrite Nat.add_0_r, (om_nth _ _ _ H1). rewrite <- Rplus_assoc. f_equal.
    + destruct (ltb (n:=RN) (ofZ 0) (w_om b)) eqn:E.
      * apply bind_Ok in H2 as (vj & A1 & H2). apply bind_Ok in H2 as (XP & A2 & H2). apply bind_Ok in H2 as (wj & A3 & H2). apply bind_Ok in H2 as (s & A4 & H2). apply at_ub_Ok in A1, A2, A3, A4.
        injection H2 as <-. rewrite (real_nth v _ _ A1), (real_nth w0 _ _ A3), (at3_nth _ _ _ A2), (nth_error_nth _ _ _ A4), matmul_nn.
        generalize (mul_nn s (off_axis (vsub XP X))). intros Z. clear -Hi Hc. destruct b as [om ph]. cbn [w_om]. ij i c Hi Hc; cbn; to_R; reflexivity.
      * injection H2 as <-. rewrite (ltb_pos _ O1 E). ring.
    + apply sum_to_ext. intros m _. now rewrite Nat.add_succ_r.
Qed.
Lemma integrals_spec : forall (x : list vec) (v w0 : list R) wt P nbrs p k Is, integrals (N:=RN) x v w0 wt P p k nbrs = Ok Is ->
  length Is = length nbrs /\ forall q js, nth_error nbrs q = Some js -> exists X w s, nth_error x (p + q) = Some X /\ nth_error w0 (p + q) = Some w /\ nth_error Is q = Some s /\
    integral_sum (N:=RN) x v w0 wt P X w (k + offset nbrs q) js mzero = Ok s.
Proof.
  intros x v w0 wt P. induction nbrs as [|js rest IH]; intros p k Is H; cbn [integrals] in H.
  - injection H as <-. split; auto. intros [|q] js Hq; discriminate.
  - apply bind_Ok in H as (X & HX & H). apply bind_Ok in H as (w & Hw & H). apply bind_Ok in H as (s & Hs & H). apply bind_Ok in H as (r & Hr & H). injection H as <-. apply at_ub_Ok in HX, Hw.
    destruct (IH _ _ _ Hr) as [L D]. split; [cbn; now rewrite L|]. intros [|q] js' Hq; cbn in Hq.
    + injection Hq as <-. exists X, w, s. change (offset (js :: rest) 0) with 0%nat. rewrite !Nat.add_0_r. auto.
    + destruct (D q js' Hq) as (X' & w' & s' & A1 & A2 & A3 & A4). exists X', w', s'. rewrite offset_S. replace (p + S q)%nat with (1 + p + q)%nat by lia. repeat split; auto.
      replace (k + (length js + offset rest q))%nat with (length js + k + offset rest q)%nat by lia. auto.
Qed.

Lemma ddot_sum : forall n (A : mat) (B : nat -> mat), sum_to n (fun m => ddot A (B m)) = ddot A (fun i c => sum_to n (fun m => B m i c)).
Proof. intros. unfold ddot, sum3, sum_to. rewrite !so_add, !so_mul. reflexivity. Qed.
Lemma ddot_comm : forall A B : mat, ddot A B = ddot B A.
Proof. intros. unfold ddot, sum3. ring. Qed.
Lemma ddot_ext : forall A A' B B' : mat, eq3 A A' -> eq3 B B' -> ddot A B = ddot A' B'.
Proof. intros A A' B B' H K. unfold ddot, sum3. rewrite !(H _ _), !(K _ _) by lia. reflexivity. Qed.
Lemma ddot_scale : forall k (A B : mat), ddot (fun i c => k * A i c) B = k * ddot A B.
Proof. intros. unfold ddot, sum3. ring. Qed.
Lemma dyad : forall (a b : vec) (S : ten) k, vdot a (mapply S b) * k = ddot (ent S) (fun i c => comp a i * comp b c * k).
Proof. intros [a1 a2 a3] [b1 b2 b3] S k. unfold ddot, sum3, vdot. cbn. to_R. change (T RN) with R. ring. Qed.

(** ** the two sums *)
Definition h_axial (nbrs : list (list nat)) (x w : list vec) (v w0 : list R) wt (P : list ten) (p k j : nat) : R :=
  nth p v 0 * nth j v 0 * (om_of wt k / nth p w0 0) * (vdot (between w p j) (mapply (nth k P mzero) (between x p j)) / vdot (between x p j) (between x p j)).
Definition h_weight (w : list vec) (v : list R) wt (Is : list ten) (p k j : nat) : R :=
  nth p v 0 * nth j v 0 * vdot (between w p j) (mapply (nth p Is mzero) (phi_of wt k)).
Definition h_off (x : list vec) (v w0 : list R) wt (P : list ten) (Ws : list ten) (p k j : nat) : R :=
  share v w0 wt p k j * ddot (ent (mul_nn (nth k P mzero) (off_axis (between x p j)))) (ten_of Ws p).

Lemma weight_off : forall (x w : list vec) (v w0 : list R) wt P Is Ws nbrs, proper_weights wt ->
  integrals (N:=RN) x v w0 wt P 0 0 nbrs = Ok Is -> velocity_gradients (N:=RN) v w wt nbrs = Ok Ws ->
  total nbrs (h_weight w v wt Is) = total nbrs (h_off x v w0 wt P Ws).
Proof.
  intros x w v w0 wt P Is Ws nbrs PW HI HW. apply integrals_spec in HI as [LI HI]. apply gradients_spec in HW as [LW HW]. unfold total. apply sum_to_ext. intros p Hp.
  assert (Hn : nth_error nbrs p = Some (nth p nbrs [])) by now apply nth_error_nth'. set (js := nth p nbrs []) in *.
  destruct (HI p js Hn) as (X & w0p & Sp & HX & Hw0 & HSp & HS). destruct (HW p js Hn) as (U & Wp & HU & HWp & HG). cbn [Nat.add] in *.
  transitivity (nth p v 0 * ddot (ent Sp) (ent Wp)).
  - transitivity (nth p v 0 * sum_to (length js) (fun m => ddot (ent Sp) (fun i c => comp (vsub (at3 w (nth m js 0%nat)) U) i * comp (phi_of wt (offset nbrs p + m)) c * nth (nth m js 0%nat) v 0))).
    + rewrite <- sum_to_mul. apply sum_to_ext. intros m _. unfold h_weight. rewrite (nth_error_nth _ _ mzero HSp), <- dyad. unfold between. rewrite (at3_nth _ _ _ HU). ring.
    + rewrite ddot_sum. f_equal. apply ddot_ext; [intros i c _ _; reflexivity|]. intros i c Hi Hc. rewrite (grad_sum_nth v w wt U i c Hi Hc js _ _ _ HG).
      replace (ent mzero i c) with 0 by (clear -Hi Hc; ij i c Hi Hc; reflexivity). ring.
  - symmetry. transitivity (nth p v 0 * sum_to (length js) (fun m => ddot (ent Wp) (fun i c => om_of wt (offset nbrs p + m) * (1 / 2 / w0p + 1 / 2 / nth (nth m js 0%nat) w0 0) * nth (nth m js 0%nat) v 0 *
       ent (mul_nn (nth (offset nbrs p + m) P mzero) (off_axis (vsub (at3 x (nth m js 0%nat)) X))) i c))).
    + rewrite <- sum_to_mul. apply sum_to_ext. intros m _. rewrite (ddot_comm (ent Wp)), ddot_scale. unfold h_off, share, between, ten_of. rewrite (nth_error_nth _ _ mzero HWp), (at3_nth _ _ _ HX), (real_nth w0 _ _ Hw0). ring.
    + rewrite ddot_sum, ddot_comm. f_equal. apply ddot_ext; [|intros i c _ _; reflexivity]. intros i c Hi Hc. rewrite (integral_sum_nth x v w0 wt P X w0p i c PW Hi Hc js _ _ _ HS).
      replace (ent mzero i c) with 0 by (clear -Hi Hc; ij i c Hi Hc; reflexivity). ring.
Qed.

(** ** force to power *)
Lemma additive_power : forall (v : list R) (w : list vec) i, additive (fun a => nth i v 0 * vdot (at3 w i) a).
Proof.
  intros v w i. unfold additive. repeat split; intros; unfold vdot; cbn; to_R; change (T RN) with R; ring.
Qed.
Lemma power_gsum : forall (v : list R) (w f : list vec), power v w f = gsum (fun i a => nth i v 0 * vdot (at3 w i) a) 0 f.
Proof. intros. rewrite gsum_sum. reflexivity. Qed.
Lemma gsum_zero : forall g n i, (forall m, g m vzero = 0) -> gsum g i (repeat vzero n) = 0.
Proof. intros g n. induction n as [|n IH]; intros i H; cbn [repeat gsum]; [reflexivity|]. rewrite H, IH by auto. ring. Qed.

Lemma force_power : forall n (x w : list vec) (v w0 : list R) wt P Is nbrs f out, proper_weights wt -> apart nbrs x w0 -> (length nbrs <= length x)%nat -> (length nbrs <= length w)%nat ->
  run_kernel (ba_force (N:=RN) x v w0 wt P Is) nbrs (repeat vzero n) = Ok (f, out) ->
  power v w f = - (total nbrs (h_axial nbrs x w v w0 wt P) + total nbrs (h_weight w v wt Is)).
Proof.
  intros n x w v w0 wt P Is nbrs f out PW AP Lx Lw HR. rewrite power_gsum.
  pose proof (run_sum (ba_force (N:=RN) x v w0 wt P Is) (fun i a => nth i v 0 * vdot (at3 w i) a) (fun p k j => -1 * (h_axial nbrs x w v w0 wt P p k j + h_weight w v wt Is p k j)) (additive_power v w) nbrs) as RS.
  rewrite (fun H => RS H _ _ _ HR).
  - rewrite gsum_zero, total_mul, total_add; [ring|]. intros m. unfold vdot. cbn. to_R. ring.
  - intros p js d Hn Hd k j fb s vn vs HB Hf Hv. cbn [pre bond vols ba_force] in *. unfold cell_volumes in Hv. apply bind_Ok in Hv as (va & V1 & Hv). apply bind_Ok in Hv as (vb & V2 & Hv). injection Hv as <- <-.
    apply at_ub_Ok in V1, V2. apply bind_Ok in Hd as (X & D1 & Hd). apply bind_Ok in Hd as (wp & D2 & Hd). apply bind_Ok in Hd as (Sp & D3 & Hd). injection Hd as <-. apply at_ub_Ok in D1, D2, D3.
    apply bind_Ok in Hf as (b & B1 & Hf). apply at_ub_Ok in B1. destruct (proper_nth _ _ _ PW B1) as [O1 O2]. unfold h_axial, h_weight.
    rewrite (om_nth _ _ _ B1), (phi_nth _ _ _ B1), (real_nth w0 _ _ D2), (nth_error_nth _ _ mzero D3), (real_nth v _ _ V1), (real_nth v _ _ V2).
    destruct (ltb (n:=RN) (ofZ 0) (w_om b)) eqn:E.
    + apply bind_Ok in Hf as (XP & F1 & Hf). apply bind_Ok in Hf as (s0 & F2 & Hf). injection Hf as <- _. apply at_ub_Ok in F1, F2.
      destruct (AP p k j HB) as (NZ & _). unfold between in *. rewrite (at3_nth _ _ _ F1), (at3_nth _ _ _ D1), (nth_error_nth _ _ mzero F2) in *.
      destruct XP as [X1 X2 X3], X as [Y1 Y2 Y3]. destruct (at3 w p) as [p1 p2 p3], (at3 w j) as [q1 q2 q3], (w_phi b) as [f1 f2 f3]. unfold vdot in NZ |- *. cbn in NZ |- *. to_R. change (T RN) with R in *. unfold Rdiv. ring.
    + injection Hf as <- _. pose proof (ltb_pos _ O1 E) as Z. rewrite (O2 Z), Z.
      destruct (at3 w p) as [p1 p2 p3], (at3 w j) as [q1 q2 q3]. unfold vdot. cbn. to_R. change (T RN) with R in *. unfold Rdiv. ring.
Qed.

(** ** the bond level gradient *)
Lemma level_split : forall (Pk : ten) (xi d : vec) (A B : ten) (G : mat), vdot xi xi <> 0 -> bond_level (average (ent A) (ent B)) xi d G ->
  ddot (ent Pk) G = vdot d (mapply Pk xi) / vdot xi xi + 1 / 2 * (ddot (ent (mul_nn Pk (off_axis xi))) (ent A) + ddot (ent (mul_nn Pk (off_axis xi))) (ent B)).
Proof.
  intros Pk xi d A B G H HG. pose proof (bond_gradient_level (mean A B) xi d H) as HL. eapply bond_level_ext in HL; [|apply mean_average].
  rewrite (ddot_ext (ent Pk) (ent Pk) G (ent (bond_gradient (mean A B) xi d))); [|intros i c _ _; reflexivity|eapply bond_level_unique; eauto].
  clear HL HG. destruct xi as [x y z], d as [d1 d2 d3], Pk as [p0 p1 p2 p3 p4 p5 p6 p7 p8], A as [a0 a1 a2 a3 a4 a5 a6 a7 a8], B as [b0 b1 b2 b3 b4 b5 b6 b7 b8]. unfold vdot in *. cbn [vx vy vz] in *. to_R. change (T RN) with R in *.
  unfold ddot, sum3. cbn. to_R. change (T RN) with R. field. exact H.
Qed.
Lemma two_sided_nth : forall A nbrs (l : list A) d p k j k', two_sided nbrs l -> bond_at nbrs p k j -> bond_at nbrs j k' p -> nth k l d = nth k' l d.
Proof.
  intros A nbrs l d p k j k' H H1 H2. specialize (H p k j k' H1 H2). destruct (nth_error l k) as [a|] eqn:E.
  - symmetry in H. now rewrite (nth_error_nth _ _ _ E), (nth_error_nth _ _ _ H).
  - symmetry in H. apply nth_error_None in E, H. now rewrite !nth_overflow.
Qed.
Lemma om_two : forall nbrs wt p k j k', two_sided nbrs (map (w_om (N:=RN)) wt) -> bond_at nbrs p k j -> bond_at nbrs j k' p -> om_of wt k = om_of wt k'.
Proof.
  intros nbrs wt p k j k' H H1 H2. unfold om_of. pose proof (two_sided_nth _ _ _ (w_om (Bw (N:=RN) 0 vzero)) _ _ _ _ H H1 H2) as E. rewrite !map_nth in E. exact E.
Qed.
Lemma between_swap : forall l p j, between l j p = vscale (N:=RN) (-1) (between l p j).
Proof. intros. unfold between. destruct (at3 l p) as [a b c], (at3 l j) as [d e f]. cbn. to_R. unfold vscale, vsub. cbn. to_R. f_equal; change (T RN) with R; ring. Qed.
Lemma off_axis_swap : forall xi : vec, vdot xi xi <> 0 -> off_axis (N:=RN) (vscale (N:=RN) (-1) xi) = off_axis xi.
Proof.
  intros [x y z] H. unfold vdot in H. cbn [vx vy vz] in H. to_R. change (T RN) with R in *. apply M3_ext. intros i j Hi Hj. ij i j Hi Hj; cbn; to_R; change (T RN) with R; field; repeat split; try exact H; intros E; apply H; rewrite <- E; ring.
Qed.

Theorem bond_power : forall n nbrs (x w : list vec) (v w0 : list R) wt P Is f out Ws G,
  mutual nbrs -> apart nbrs x w0 -> proper_weights wt -> two_sided nbrs (map (w_om (N:=RN)) wt) -> two_sided nbrs P ->
  (length nbrs <= length x)%nat -> (length nbrs <= length w)%nat ->
  integrals (N:=RN) x v w0 wt P 0 0 nbrs = Ok Is -> run_kernel (ba_force (N:=RN) x v w0 wt P Is) nbrs (repeat vzero n) = Ok (f, out) ->
  velocity_gradients (N:=RN) v w wt nbrs = Ok Ws ->
  (forall p k j, bond_at nbrs p k j -> bond_level (average (ten_of Ws p) (ten_of Ws j)) (between x p j) (between w p j) (G p k j)) ->
  power v w f = - total nbrs (fun p k j => share v w0 wt p k j * ddot (ten_of P k) (G p k j)).
Proof.
  intros n nbrs x w v w0 wt P Is f out Ws G MU AP PW TW TP Lx Lw HI HR HW HG.
  rewrite (force_power _ _ _ _ _ _ _ _ _ _ _ PW AP Lx Lw HR), (weight_off _ _ _ _ _ _ _ _ _ PW HI HW). f_equal.
  rewrite <- total_add, total_half by auto. apply total_ext. intros p k j HB. destruct (mate_bond _ _ _ _ MU HB) as [HB' _]. set (k' := mate nbrs j p) in *. destruct (AP p k j HB) as (NZ & W1 & W2).
  unfold h_axial, h_off, share, ten_of. rewrite <- (om_two nbrs wt p k j k' TW HB HB'), <- (two_sided_nth _ _ P mzero p k j k' TP HB HB'), (between_swap x p j), (between_swap w p j), off_axis_swap by auto.
  rewrite (level_split (nth k P mzero) (between x p j) (between w p j) (nth p Ws mzero) (nth j Ws mzero) (G p k j) NZ (HG p k j HB)).
  set (o := mul_nn (nth k P mzero) (off_axis (between x p j))). 
  assert (E1 : vdot (vscale (N:=RN) (-1) (between w p j)) (mapply (nth k P mzero) (vscale (N:=RN) (-1) (between x p j))) = vdot (between w p j) (mapply (nth k P mzero) (between x p j))).
  { destruct (between w p j) as [a b c], (between x p j) as [d e g]. unfold vdot. cbn. to_R. change (T RN) with R. ring. }
  assert (E2 : vdot (vscale (N:=RN) (-1) (between x p j)) (vscale (N:=RN) (-1) (between x p j)) = vdot (between x p j) (between x p j)).
  { destruct (between x p j) as [d e g]. unfold vdot. cbn. to_R. change (T RN) with R. ring. }
  rewrite E1, E2. generalize (ddot (ent o) (ent (nth p Ws mzero))), (ddot (ent o) (ent (nth j Ws mzero))), (vdot (between w p j) (mapply (nth k P mzero) (between x p j))). clearbody o. intros a b c.
  generalize (om_of wt k). intros om. change (T RN) with R in *. field. auto.
Qed.
