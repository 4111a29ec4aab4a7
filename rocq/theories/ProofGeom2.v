(** * Proofs about element volumes and centroids (continued) *)
From Coq Require Import Reals Lra Psatz.
From Coquelicot Require Import Coquelicot.
From Verif Require Import Base Num ModelGeom SpecGeom ProofGlobal ProofGeom.
Local Open Scope R_scope.

(** *** Parallelepipeds *)
Lemma total_const f l (k : R) : Forall (fun t : point * point * point => f t = k) l -> total (map f l) = INR (length l) * k.
Proof.
  induction 1 as [|t l P F IH]; cbn [map total length]; [cbn; symmetry; apply Rmult_0_l|]. rewrite IH, P, S_INR. ring.
Qed.
Lemma block_shift (o u v w : point) : block o u v w = shift_hex (block (v3 (N:=RN) 0 0 0) u v w) o.
Proof. unfold block, shift_hex. cbn [h0 h1 h2 h3 h4 h5 h6 h7]. f_equal; vring. Qed.
Section Block.
  Variables u v w : point.
  Definition at3 (a b c : R) : point := vadd (vadd (vscale (N:=RN) a u) (vscale (N:=RN) b v)) (vscale (N:=RN) c w).
  Lemma at3_volume a0 b0 c0 a1 b1 c1 a2 b2 c2 a3 b3 c3 : oriented_volume (at3 a0 b0 c0) (at3 a1 b1 c1) (at3 a2 b2 c2) (at3 a3 b3 c3) =
    det3 (v3 (N:=RN) (a1 - a0) (b1 - b0) (c1 - c0)) (v3 (N:=RN) (a2 - a0) (b2 - b0) (c2 - c0)) (v3 (N:=RN) (a3 - a0) (b3 - b0) (c3 - c0)) * det3 u v w / 6.
  Proof. unfold oriented_volume, at3. destruct u, v, w. coords. field. Qed.
  Lemma at3_add a b c a' b' c' : vadd (at3 a b c) (at3 a' b' c') = at3 (a + a') (b + b') (c + c').
  Proof. unfold at3. vring. Qed.
  Lemma at3_centre a0 b0 c0 a1 b1 c1 a2 b2 c2 a3 b3 c3 : face_centre (at3 a0 b0 c0) (at3 a1 b1 c1) (at3 a2 b2 c2) (at3 a3 b3 c3) =
    at3 ((a0 + a1 + a2 + a3) / 4) ((b0 + b1 + b2 + b3) / 4) ((c0 + c1 + c2 + c3) / 4).
  Proof. unfold at3, face_centre. vfield. Qed.
  Lemma at3_mid a b c a' b' c' : v3 (N:=RN) (1 / 2 * (vx (at3 a b c) + vx (at3 a' b' c'))) (1 / 2 * (vy (at3 a b c) + vy (at3 a' b' c'))) (1 / 2 * (vz (at3 a b c) + vz (at3 a' b' c')))
    = at3 ((a + a') / 2) ((b + b') / 2) ((c + c') / 2).
  Proof. unfold at3. vfield. Qed.
  Lemma at3_block : block (v3 (N:=RN) 0 0 0) u v w =
    hex (at3 0 0 0) (at3 1 0 0) (at3 1 1 0) (at3 0 1 0) (at3 0 0 1) (at3 1 0 1) (at3 1 1 1) (at3 0 1 1).
  Proof. unfold block, at3. f_equal; vring. Qed.
  Lemma block_parts0 : let o := v3 (N:=RN) 0 0 0 in Forall (fun t => part (hex_centre (block o u v w)) t = det3 u v w / 24) (hex_triangles (block o u v w)).
  Proof.
    cbv zeta. rewrite at3_block. unfold hex_triangles, hex_centre, f0, f1, f2, f3, f4, f5. cbn [h0 h1 h2 h3 h4 h5 h6 h7]. rewrite !at3_centre.
    change (lit (n:=RN) 1 2) with (1 / 2). to_R. rewrite at3_mid.
    repeat (constructor; [unfold part; rewrite at3_volume; unfold det3 at 1; cbn; field|]). constructor.
  Qed.
End Block.
Lemma block_parts (o u v w : point) : Forall (fun t => part (hex_centre (block o u v w)) t = det3 u v w / 24) (hex_triangles (block o u v w)).
Proof.
  rewrite block_shift, triangles_shift, centre_shift. apply Forall_map. eapply Forall_impl; [|apply block_parts0]. cbv beta. intros t H. rewrite part_shift. exact H.
Qed.
Lemma block_volume (o u v w : point) : 0 <= det3 u v w -> hex_volume (block o u v w) = Ok (det3 u v w).
Proof.
  intros P. apply hex_ok. split.
  - eapply Forall_impl; [|apply block_parts]. cbv beta. intros t ->. apply Rmult_le_pos; [exact P|]. lra.
  - etransitivity; [|symmetry; apply (total_const _ _ _ (block_parts o u v w))]. change (det3 u v w = INR 24 * (det3 u v w / 24)). rewrite INR_IZR_INZ. cbn [Z.of_nat Pos.of_succ_nat Pos.succ]. field.
Qed.
Lemma block_inverted (o u v w : point) : det3 u v w < 0 -> hex_volume (block o u v w) = Err.
Proof.
  intros P. apply hex_err. intros F. pose proof (block_parts o u v w) as B.
  unfold hex_triangles in *. apply Forall_inv in F. apply Forall_inv in B. rewrite B in F. lra.
Qed.
Lemma block_moment (o u v w : point) : vtotal (map (moment (hex_centre (block o u v w))) (hex_triangles (block o u v w))) =
  vscale (N:=RN) (det3 u v w) (vadd o (vscale (N:=RN) (/ 2) (vadd (vadd u v) w))).
Proof.
  assert (E : vtotal (map (moment (hex_centre (block o u v w))) (hex_triangles (block o u v w))) =
    vscale (N:=RN) (det3 u v w / 24) (vtotal (map (fun t => let '(p, q, r) := t in tet_centroid (tet p q r (hex_centre (block o u v w)))) (hex_triangles (block o u v w))))).
  { generalize (block_parts o u v w). generalize (hex_triangles (block o u v w)) (hex_centre (block o u v w)). intros l c F.
    induction F as [|[[p q] r] l P F IH]; cbn [map vtotal]; [vring|]. rewrite IH. unfold moment at 1. rewrite P. vring. }
  rewrite E. generalize (det3 u v w). intros k. unfold hex_triangles, hex_centre, f0, f1, f2, f3, f4, f5, face_centre, tet_centroid, block.
  cbn [h0 h1 h2 h3 h4 h5 h6 h7 map vtotal t0 t1 t2 t3]. vfield.
Qed.
Lemma block_centroid (o u v w : point) : 0 < det3 u v w ->
  hex_centroid_and_volume (block o u v w) = Ok (vadd o (vscale (N:=RN) (/ 2) (vadd (vadd u v) w)), det3 u v w).
Proof.
  intros P. rewrite hex_both, block_volume by (apply Rlt_le; exact P). cbn [bind]. cbv zeta. rewrite block_moment.
  set (k := det3 u v w) in *. clearbody k. do 2 f_equal. vfield; intros Z; rewrite Z in P; exact (Rlt_irrefl _ P).
Qed.

(** *** The centroid lies in the hull of the nodes *)
Lemma hull_convex l x y s : 0 <= s <= 1 -> hull l x -> hull l y -> hull l (mix2 (1 - s) s x y).
Proof. intros; now apply hull_mix. Qed.
Lemma hull_weighted l (x y : point) (a b : R) : 0 <= a -> 0 <= b -> 0 < a + b -> hull l x -> hull l y ->
  hull l (vscale (N:=RN) (/ (a + b)) (vadd (vscale (N:=RN) a x) (vscale (N:=RN) b y))).
Proof.
  intros A B S X Y. replace (vscale (N:=RN) _ _) with (mix2 (1 - b / (a + b)) (b / (a + b)) x y).
  - apply hull_mix; auto. assert (0 < / (a + b)) by now apply Rinv_0_lt_compat. split; [apply Rmult_le_pos; lra|].
    apply Rmult_le_reg_r with (a + b); [lra|]. unfold Rdiv. rewrite Rmult_assoc, Rinv_l; lra.
  - unfold mix2. vfield; lra.
Qed.
Lemma hull_total l c ts : Forall (fun t => 0 <= part c t) ts -> Forall (fun t : point * point * point => let '(p, q, r) := t in hull l p /\ hull l q /\ hull l r) ts -> hull l c ->
  total (map (part c) ts) = 0 /\ vtotal (map (moment c) ts) = v3 (N:=RN) 0 0 0 \/
  0 < total (map (part c) ts) /\ hull l (vscale (N:=RN) (/ total (map (part c) ts)) (vtotal (map (moment c) ts))).
Proof.
  intros F G C. induction F as [|[[p q] r] ts P F IH]; [left; auto|]. pose proof (Forall_inv G) as (Hp & Hq & Hr). specialize (IH (Forall_inv_tail G)).
  cbn [map total vtotal]. set (x := part c (p, q, r)) in *. set (m := tet_centroid (tet p q r c)).
  assert (M : hull l m).
  { replace m with (mix2 (1 - / 2) (/ 2) (mix2 (1 - / 2) (/ 2) p q) (mix2 (1 - / 2) (/ 2) r c)).
    - repeat apply hull_mix; auto; lra.
    - unfold m, tet_centroid, mix2. cbn [t0 t1 t2 t3]. vfield. }
  replace (moment c (p, q, r)) with (vscale (N:=RN) x m) by reflexivity. clearbody x m.
  destruct (Rle_lt_or_eq_dec 0 x P) as [Px|<-].
  - right. destruct IH as [(E & Z)|(E & H)].
    + rewrite E, Z. split; [lra|]. replace (vscale (N:=RN) _ _) with m; [exact M|]. vfield; lra.
    + set (t := total _) in *. set (w := vtotal _) in *. split; [lra|].
      replace (vscale (N:=RN) (/ (x + t)) (vadd (vscale (N:=RN) x m) w)) with (vscale (N:=RN) (/ (x + t)) (vadd (vscale (N:=RN) x m) (vscale (N:=RN) t (vscale (N:=RN) (/ t) w)))).
      * apply hull_weighted; auto; lra.
      * f_equal. f_equal. vfield; lra.
  - destruct IH as [(E & Z)|(E & H)]; [left|right].
    + rewrite E, Z. split; [lra|]. vring.
    + rewrite Rplus_0_l. split; [exact E|]. replace (vadd _ _) with (vtotal (map (moment c) ts)); [exact H|]. vring.
Qed.
Lemma hull_mean l (a b c d : point) : hull l a -> hull l b -> hull l c -> hull l d -> hull l (face_centre a b c d).
Proof.
  intros A B C D. replace (face_centre a b c d) with (mix2 (1 - / 2) (/ 2) (mix2 (1 - / 2) (/ 2) a b) (mix2 (1 - / 2) (/ 2) c d)).
  - repeat apply hull_mix; auto; lra.
  - unfold face_centre, mix2. vfield.
Qed.
Lemma hex_hull h : hull (hex_nodes h) (hex_centre h) /\ Forall (fun t : point * point * point => let '(p, q, r) := t in hull (hex_nodes h) p /\ hull (hex_nodes h) q /\ hull (hex_nodes h) r) (hex_triangles h).
Proof.
  assert (H0 : forall p, In p (hex_nodes h) -> hull (hex_nodes h) p) by (intros; now constructor).
  assert (N0 : hull (hex_nodes h) (h0 h)) by (apply H0; cbn; tauto). assert (N1 : hull (hex_nodes h) (h1 h)) by (apply H0; cbn; tauto).
  assert (N2 : hull (hex_nodes h) (h2 h)) by (apply H0; cbn; tauto). assert (N3 : hull (hex_nodes h) (h3 h)) by (apply H0; cbn; tauto).
  assert (N4 : hull (hex_nodes h) (h4 h)) by (apply H0; cbn; tauto). assert (N5 : hull (hex_nodes h) (h5 h)) by (apply H0; cbn; tauto).
  assert (N6 : hull (hex_nodes h) (h6 h)) by (apply H0; cbn; tauto). assert (N7 : hull (hex_nodes h) (h7 h)) by (apply H0; cbn; tauto).
  assert (F0 : hull (hex_nodes h) (f0 h)) by now apply hull_mean. assert (F1 : hull (hex_nodes h) (f1 h)) by now apply hull_mean.
  assert (F2 : hull (hex_nodes h) (f2 h)) by now apply hull_mean. assert (F3 : hull (hex_nodes h) (f3 h)) by now apply hull_mean.
  assert (F4 : hull (hex_nodes h) (f4 h)) by now apply hull_mean. assert (F5 : hull (hex_nodes h) (f5 h)) by now apply hull_mean.
  split.
  - replace (hex_centre h) with (mix2 (1 - / 2) (/ 2) (f4 h) (f5 h)); [apply hull_mix; auto; lra|].
    unfold hex_centre. generalize (f4 h) (f5 h). intros. unfold mix2. vfield.
  - unfold hex_triangles. repeat (constructor; [repeat split; assumption|]). constructor.
Qed.
Lemma hex_centroid_hull (h : hexa RN) (m : point) (v : R) : hex_centroid_and_volume h = Ok (m, v) -> 0 < v -> hull (hex_nodes h) m.
Proof.
  intros H V. rewrite hex_both in H. destruct (hex_volume h) as [x| |] eqn:E; [|discriminate|discriminate]. cbn [bind] in H. cbv zeta in H.
  apply hex_ok in E as (F & Ex). destruct (hex_hull h) as (C & G).
  destruct (hull_total (hex_nodes h) _ _ F G C) as [(E & _)|(_ & H0)].
  - exfalso. rewrite E in Ex. injection H as _ H. rewrite <- H, Ex in V. exact (Rlt_irrefl _ V).
  - rewrite <- Ex in H0. remember (vtotal (map (moment (hex_centre h)) (hex_triangles h))) as m0 eqn:Em. injection H as <- <-.
    replace (v3 _ _ _) with (vscale (N:=RN) (/ x) m0); [exact H0|]. apply vext; cbn; apply Rmult_comm.
Qed.
