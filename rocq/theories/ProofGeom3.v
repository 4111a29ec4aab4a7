(** * Proofs about cutting elements and about heights *)
From Coq Require Import Reals Lra Psatz Permutation.
From Coquelicot Require Import Coquelicot.
From Verif Require Import Base Num ModelGeom SpecGeom ProofGlobal ProofGeom ProofGeom2.
Local Open Scope R_scope.

(** ** Tetrahedra *)
Definition normal (p q r : point) : point := vcross (vsub q p) (vsub r p).
Lemma det_normal p q r s : det3 (vsub q p) (vsub r p) (vsub s p) = vdot (normal p q r) (vsub s p).
Proof. destruct p, q, r, s. unfold normal. coords. ring. Qed.
Lemma normal_flat p q r s v w : vdot (normal p q r) (vsub s p) = vdot (normal p q r) (vsub s (mix3 (1 - v - w) v w p q r)).
Proof. destruct p, q, r, s. unfold normal. coords. ring. Qed.
Lemma lagrange (a b : point) : vdot (vcross a b) (vcross a b) = vdot a a * vdot b b - vdot a b * vdot a b.
Proof. destruct a, b. coords. ring. Qed.
Lemma vdot_zero (a : point) : vdot a a = 0 -> a = v3 (N:=RN) 0 0 0.
Proof.
  destruct a as [x y z]. coords. intros H.
  assert (0 <= x * x) by apply Rle_0_sqr. assert (0 <= y * y) by apply Rle_0_sqr. assert (0 <= z * z) by apply Rle_0_sqr.
  apply vext; cbn; apply Rsqr_0_uniq; unfold Rsqr; lra.
Qed.
Lemma vdot_pos (a : point) : a <> v3 (N:=RN) 0 0 0 -> 0 < vdot a a.
Proof. intros H. destruct (vdot_nonneg a) as [P|E]; [exact P|]. exfalso. apply H, vdot_zero. symmetry. exact E. Qed.

(** Every point has a nearest point in the plane of a proper triangle. *)
Lemma foot p q r s : proper_triangle p q r -> exists v w,
  vsub s (mix3 (1 - v - w) v w p q r) = vscale (N:=RN) (vdot (normal p q r) (vsub s p) / vdot (normal p q r) (normal p q r)) (normal p q r).
Proof.
  intros H. unfold proper_triangle in H. fold (normal p q r) in H. pose proof (vdot_pos _ H) as P. unfold normal in *.
  set (b := vsub q p) in *. set (c := vsub r p) in *. set (d := vsub s p). pose proof (lagrange b c) as L.
  set (e := vdot (vcross b c) (vcross b c)) in *.
  exists ((vdot c c * vdot b d - vdot b c * vdot c d) / e), ((vdot b b * vdot c d - vdot b c * vdot b d) / e).
  assert (E : forall v w, vsub s (mix3 (1 - v - w) v w p q r) = vsub d (vadd (vscale (N:=RN) v b) (vscale (N:=RN) w c))) by (intros; unfold b, c, d, mix3, mix2; vring).
  rewrite E. clear E. clearbody b c d.
  assert (E : forall x y : R, x * e = y * e -> x = y) by (intros; eapply Rmult_eq_reg_r; [eassumption|]; to_R; lra).
  apply vext; apply E; unfold vsub, vadd, vscale; cbn [vx vy vz]; to_R; field_simplify; try (to_R; lra); unfold e; destruct b, c, d; coords; ring.
Qed.
Lemma vlen_scale (k : R) (a : point) : vlen (vscale (N:=RN) k a) = Rabs k * vlen a.
Proof.
  unfold vlen. cbn. rewrite <- sqrt_Rsqr_abs, <- sqrt_mult_alt by apply Rle_0_sqr. f_equal. unfold Rsqr, vdot, vscale. cbn. ring.
Qed.
Lemma vlen_pos (a : point) : a <> v3 (N:=RN) 0 0 0 -> 0 < vlen a.
Proof. intros H. unfold vlen. cbn. apply sqrt_lt_R0. now apply vdot_pos. Qed.
Lemma Rabs_dot (a b : point) : Rabs (vdot a b) <= vlen a * vlen b.
Proof.
  apply Rabs_le. split; [|apply cauchy].
  assert (E : - vdot a b = vdot (vscale (N:=RN) (-1) a) b) by (destruct a, b; coords; ring).
  pose proof (cauchy (vscale (N:=RN) (-1) a) b) as C. rewrite <- E, vlen_scale in C. rewrite Rabs_left in C by lra. lra.
Qed.
Lemma height_exists p q r s : proper_triangle p q r -> height p q r s (Rabs (vdot (normal p q r) (vsub s p)) / vlen (normal p q r)).
Proof.
  intros H. assert (L := vlen_pos _ H). fold (normal p q r) in L. split.
  - destruct (foot p q r s H) as (v & w & E). exists v, w. unfold distance. rewrite E, vlen_scale.
    rewrite <- (vlen_sq (normal p q r)). unfold Rdiv at 1. rewrite Rabs_mult, (Rabs_pos_eq (/ _)).
    + to_R. field. lra.
    + apply Rlt_le, Rinv_0_lt_compat. apply Rmult_lt_0_compat; exact L.
  - intros v w. rewrite (normal_flat p q r s v w). unfold distance.
    apply Rmult_le_reg_r with (vlen (normal p q r)); [exact L|]. unfold Rdiv. rewrite Rmult_assoc, Rinv_l by (to_R; lra).
    rewrite Rmult_1_r. eapply Rle_trans; [apply Rabs_dot|]. apply Req_le, Rmult_comm.
Qed.
Lemma height_unique p q r s h k : height p q r s h -> height p q r s k -> h = k.
Proof.
  intros ((v & w & <-) & A) ((v' & w' & <-) & B). apply Rle_antisym; [apply A|apply B].
Qed.
Lemma base_height e v h : tet_volume e = Ok v -> height (t0 e) (t1 e) (t2 e) (t3 e) h -> v = area (t0 e) (t1 e) (t2 e) * h / 3.
Proof.
  intros E H. apply tet_ok in E as (E & P). unfold oriented_volume in E. rewrite det_normal in E. unfold area. fold (normal (t0 e) (t1 e) (t2 e)).
  destruct (Req_dec (vdot (normal (t0 e) (t1 e) (t2 e)) (normal (t0 e) (t1 e) (t2 e))) 0) as [Z|Z].
  - assert (Zl : vlen (normal (t0 e) (t1 e) (t2 e)) = 0) by (etransitivity; [exact (f_equal sqrt Z)|apply sqrt_0]).
    rewrite Zl. apply vdot_zero in Z. rewrite E, Z. coords. field.
  - assert (Pt : proper_triangle (t0 e) (t1 e) (t2 e)) by (intros F; apply Z; unfold normal; rewrite F; coords; ring).
    rewrite (height_unique _ _ _ _ _ _ H (height_exists _ _ _ _ Pt)). assert (L := vlen_pos _ Pt). fold (normal (t0 e) (t1 e) (t2 e)) in L.
    rewrite Rabs_pos_eq by (rewrite E in P; to_R; lra). rewrite E. to_R. field. lra.
Qed.

Lemma tet_cut (p q r t : point) (s : R) : let m := mix2 (1 - s) s r t in
  oriented_volume p q r m = s * oriented_volume p q r t /\ oriented_volume p q m t = (1 - s) * oriented_volume p q r t.
Proof. cbv zeta. unfold oriented_volume. destruct p, q, r, t. coords. split; field. Qed.

(** ** Hexahedra *)
Section Cut.
  Variables (a0 a1 a2 a3 a4 a5 a6 a7 : point) (s : R).
  Let S v := vscale (N:=RN) s v.
  Let C v := vscale (N:=RN) (1 - s) v.
  Lemma cut_lower_modes : cut_lower s (modes a0 a1 a2 a3 a4 a5 a6 a7) = modes a0 a1 a2 (S a3) a4 (S a5) (S a6) (S a7).
  Proof. unfold cut_lower, modes, S, C, mix2. cbn [h0 h1 h2 h3 h4 h5 h6 h7]. f_equal; vring. Qed.
  Lemma cut_upper_modes : cut_upper s (modes a0 a1 a2 a3 a4 a5 a6 a7) = modes (vadd a0 (S a3)) (vadd a1 (S a6)) (vadd a2 (S a5)) (C a3) (vadd a4 (S a7)) (C a5) (C a6) (C a7).
  Proof. unfold cut_upper, modes, S, C, mix2. cbn [h0 h1 h2 h3 h4 h5 h6 h7]. f_equal; vring. Qed.
  Lemma cut_mode_volume :
    mode_volume a1 a2 (S a3) a4 (S a5) (S a6) (S a7) + mode_volume (vadd a1 (S a6)) (vadd a2 (S a5)) (C a3) (vadd a4 (S a7)) (C a5) (C a6) (C a7)
    = mode_volume a1 a2 a3 a4 a5 a6 a7.
  Proof. unfold mode_volume, S, C. destruct a1, a2, a3, a4, a5, a6, a7. coords. field. Qed.
  Lemma renumber_modes : renumber (modes a0 a1 a2 a3 a4 a5 a6 a7) = modes a0 a2 a3 a1 a5 a6 a4 a7.
  Proof. unfold renumber, modes. cbn [h0 h1 h2 h3 h4 h5 h6 h7]. f_equal; vring. Qed.
  Lemma renumber_mode_volume : mode_volume a2 a3 a1 a5 a6 a4 a7 = mode_volume a1 a2 a3 a4 a5 a6 a7.
  Proof. unfold mode_volume. destruct a1, a2, a3, a4, a5, a6, a7. coords. field. Qed.
End Cut.
Lemma cut_volume h s : trilinear_volume (cut_lower s h) + trilinear_volume (cut_upper s h) = trilinear_volume h.
Proof.
  destruct (modes_exist h) as (a0 & a1 & a2 & a3 & a4 & a5 & a6 & a7 & ->). rewrite cut_lower_modes, cut_upper_modes.
  etransitivity; [apply f_equal2; apply volume_modes|]. etransitivity; [|symmetry; apply volume_modes]. apply cut_mode_volume.
Qed.
Lemma renumber_volume h : trilinear_volume (renumber h) = trilinear_volume h.
Proof.
  destruct (modes_exist h) as (a0 & a1 & a2 & a3 & a4 & a5 & a6 & a7 & ->). rewrite renumber_modes.
  etransitivity; [apply volume_modes|]. etransitivity; [|symmetry; apply volume_modes]. apply renumber_mode_volume.
Qed.

(** ** Meshes *)
Lemma flux_turn f : flux4 (turn f) = flux4 f.
Proof. destruct f as [[[p q] r] s]. cbn [turn]. rewrite !flux4_dets. destruct p, q, r, s. coords. field. Qed.
Lemma flux_reverse f : flux4 (reverse f) = - flux4 f.
Proof. destruct f as [[[p q] r] s]. cbn [reverse]. rewrite !flux4_dets. destruct p, q, r, s. coords. field. Qed.
Lemma total_app l m : total (l ++ m) = total l + total m.
Proof. induction l as [|a l IH]; cbn [app total]; [symmetry; apply Rplus_0_l|]. rewrite IH. ring. Qed.
Lemma total_perm l m : Permutation l m -> total l = total m.
Proof. induction 1; cbn [total]; lra. Qed.
