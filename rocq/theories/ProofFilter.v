(** * Proofs about bond filters *)
From Coq Require Import Reals Lra Psatz.
From Verif Require Import Base Num ModelGeom ModelFilter SpecGeom SpecFilter ProofGlobal ProofGeom ProofGeom2 ProofGeom3 ProofSphere ProofSphere2.
Local Open Scope R_scope.

Lemma dbl_max_big : 1 < dbl_max (N:=RN).
Proof. apply IZR_lt. reflexivity. Qed.
Global Opaque dbl_max.
Lemma absolute_R (x : R) : absolute (N:=RN) x = Rabs x.
Proof.
  unfold absolute. to_R. destruct (Rltb x 0) eqn:E; [apply Rltb_true in E; now rewrite Rabs_left|apply Rltb_false in E; rewrite Rabs_right; [reflexivity|now apply Rle_ge]].
Qed.
Lemma along_R (n p q : point) : along n p q = vdot (vsub q p) n.
Proof. reflexivity. Qed.
Lemma cross_R (u v : point) : cross u v = vcross u v.
Proof. destruct u, v. unfold cross, vcross. cbn. f_equal; ring. Qed.
Lemma point_at_R (t : R) (p q : point) : point_at (N:=RN) t p q = mix2 (1 - t) t p q.
Proof. unfold point_at, mix2. vring. Qed.

(** ** The parameter of the intersection *)
Lemma rejected (t : R) : ((Rltb t 0) || (Rltb 1 t))%bool = negb (Rleb 0 t && Rleb t 1)%bool.
Proof.
  destruct (Rltb t 0) eqn:A; destruct (Rltb 1 t) eqn:B; destruct (Rleb 0 t) eqn:C; destruct (Rleb t 1) eqn:D; try reflexivity; exfalso;
  try apply Rltb_true in A; try apply Rltb_false in A; try apply Rltb_true in B; try apply Rltb_false in B;
  try apply Rleb_true in C; try apply Rleb_false in C; try apply Rleb_true in D; try apply Rleb_false in D; lra.
Qed.
Lemma parameter_spec (tol : R) (n r p0 p1 : point) (P : point -> bool) : 0 < tol ->
  let t := parameter (N:=RN) tol n r p0 p1 in
  (Rleb 0 t && Rleb t 1 && P (point_at (N:=RN) t p0 p1))%bool = true <->
  tol <= extent n p0 p1 /\ exists y, segment p0 p1 y /\ vdot (vsub y r) n = 0 /\ P y = true.
Proof.
  intros T0 t. unfold t, parameter. rewrite !along_R, absolute_R. fold (extent n p0 p1). to_R.
  set (num := vdot (vsub r p0) n). set (den := vdot (vsub p1 p0) n).
  destruct (Rltb (extent n p0 p1) tol) eqn:E; [apply Rltb_true in E|apply Rltb_false in E].
  - split; [|intros (H & _); exfalso; lra]. intros H. apply Bool.andb_true_iff in H as (H & _). apply Bool.andb_true_iff in H as (_ & H).
    apply Rleb_true in H. exfalso. apply (Rlt_irrefl 1). eapply Rlt_le_trans; [apply dbl_max_big|exact H].
  - assert (D : den <> 0) by (intros H; unfold extent in E; fold den in E; rewrite H, Rabs_R0 in E; lra).
    assert (On : forall s, vdot (vsub (mix2 (1 - s) s p0 p1) r) n = s * den - num).
    { intros s. unfold den, num, mix2. destruct p0, p1, r, n. coords. ring. }
    split.
    + intros H. apply Bool.andb_true_iff in H as (H & HP). apply Bool.andb_true_iff in H as (H0 & H1). apply Rleb_true in H0. apply Rleb_true in H1.
      split; [exact E|]. rewrite point_at_R in HP. exists (mix2 (1 - num / den) (num / den) p0 p1). split; [exists (num / den); auto|]. split; [|exact HP].
      rewrite On. field. exact D.
    + intros (_ & y & (s & S & ->) & Z & HP). rewrite On in Z. assert (S' : num / den = s).
      { apply Rmult_eq_reg_r with den; [|exact D]. unfold Rdiv. rewrite Rmult_assoc, Rinv_l by exact D. lra. }
      rewrite point_at_R, S', HP. assert (A : Rleb 0 s = true) by (apply Rleb_true; lra). assert (B : Rleb s 1 = true) by (apply Rleb_true; lra).
      now rewrite A, B.
Qed.
Lemma segment_sym (p q y : point) : segment p q y <-> segment q p y.
Proof.
  assert (H : forall p q y : point, segment p q y -> segment q p y).
  { intros a b z (t & T & ->). exists (1 - t). split; [lra|]. unfold mix2. vring. }
  split; apply H.
Qed.
Lemma extent_sym (n p q : point) : extent n p q = extent n q p.
Proof. unfold extent. rewrite <- Rabs_Ropp. f_equal. destruct n, p, q. coords. ring. Qed.

(** The decomposition of a vector along b, n and b x n. *)
Lemma gram (b n v : point) :
  vscale (N:=RN) (dot b b * dot n n - dot b n * dot b n) v =
  vadd (vscale (N:=RN) (dot v (vcross b n)) (vcross b n))
       (vadd (vscale (N:=RN) (dot n n * dot v b - dot b n * dot v n) b) (vscale (N:=RN) (dot b b * dot v n - dot b n * dot v b) n)).
Proof. destruct b, n, v. coords. f_equal; ring. Qed.
Lemma cross_dot (b n : point) : dot (vcross b n) (vcross b n) = dot b b * dot n n - dot b n * dot b n.
Proof. destruct b, n. coords. ring. Qed.
Lemma cross_orth (b n : point) : dot (vcross b n) b = 0 /\ dot (vcross b n) n = 0.
Proof. destruct b, n. coords. split; ring. Qed.

(** ** Rectangles *)
Lemma in_plane_spec (n corner b : point) (lb la e : R) (y : point) :
  dot n n = 1 -> dot b b = 1 -> dot b n = 0 -> 0 < la -> 0 < lb -> dot (vsub y corner) n = 0 ->
  (in_plane (N:=RN) (finite_plane n corner b lb la) y e = true <-> rectangle_grown e n corner b lb la y).
Proof.
  intros Hn Hb Hbn La Lb Z. unfold in_plane, finite_plane. cbn [pl_n pl_r0 pl_ub pl_ua pl_a pl_b]. rewrite cross_R. to_R.
  set (v := vsub y corner) in *. set (s := dot v (vcross b n)). set (t := dot v b).
  assert (Y : y = vadd corner (vadd (vscale (N:=RN) s (vcross b n)) (vscale (N:=RN) t b))).
  { pose proof (gram b n v) as G. rewrite Hn, Hb, Hbn, Z in G. fold s t in G.
    assert (V : v = vadd (vscale (N:=RN) s (vcross b n)) (vscale (N:=RN) t b)).
    { transitivity (vscale (N:=RN) (1 * 1 - 0 * 0) v); [vring|]. rewrite G. vring. }
    rewrite <- V. unfold v. vring. }
  rewrite !Bool.andb_true_iff, !Rltb_true.
  assert (Q : forall x l, 0 < l -> (x / l < 1 + e <-> x < l * (1 + e))).
  { intros x l L. split; intros H.
    - apply Rmult_lt_compat_l with (r := l) in H; [|exact L]. replace (l * (x / l)) with x in H by (field; lra). exact H.
    - apply Rmult_lt_reg_l with l; [exact L|]. replace (l * (x / l)) with x by (field; lra). exact H. }
  rewrite (Q s la La), (Q t lb Lb). split.
  - intros (((A & B) & C) & D). exists s, t. auto.
  - intros (s' & t' & A & B & Y').
    assert (V : v = vadd (vscale (N:=RN) s' (vcross b n)) (vscale (N:=RN) t' b)) by (unfold v; rewrite Y'; vring).
    assert (S' : s = s').
    { unfold s. rewrite V. transitivity (s' * dot (vcross b n) (vcross b n) + t' * dot (vcross b n) b); [destruct b, n; coords; ring|].
      rewrite cross_dot, (proj1 (cross_orth b n)), Hn, Hb, Hbn. to_R. lra. }
    assert (T' : t = t').
    { unfold t. rewrite V. transitivity (s' * dot (vcross b n) b + t' * dot b b); [destruct b, n; coords; ring|].
      rewrite (proj1 (cross_orth b n)), Hb. to_R. lra. }
    rewrite S', T'. tauto.
Qed.
Lemma rect_orth n corner b lb la e y : dot b n = 0 -> rectangle_grown e n corner b lb la y -> dot (vsub y corner) n = 0.
Proof.
  intros Hbn (s & t & _ & _ & ->). transitivity (s * dot (vcross b n) n + t * dot b n); [destruct b, n, corner; coords; ring|].
  rewrite (proj2 (cross_orth b n)), Hbn. to_R. lra.
Qed.
Lemma tol14 : 0 < lit (n:=RN) 1 100000000000000. Proof. cbn. lra. Qed.
Lemma tol15 : 0 < lit (n:=RN) 1 1000000000000000. Proof. cbn. lra. Qed.
Lemma plane_spec (n corner b : point) (lb la : R) (p0 p1 : point) :
  dot n n = 1 -> dot b b = 1 -> dot b n = 0 -> 0 < la -> 0 < lb ->
  (plane_cuts (N:=RN) (finite_plane n corner b lb la) p0 p1 = true <->
   / 10 ^ 14 <= extent n p0 p1 /\ exists y, segment p0 p1 y /\ rectangle_grown (/ 10 ^ 15) n corner b lb la y).
Proof.
  intros Hn Hb Hbn La Lb. unfold plane_cuts, intersects_infinite. cbn [fst snd].
  pose proof (parameter_spec (lit (n:=RN) 1 100000000000000) (pl_n (finite_plane n corner b lb la)) (pl_r0 (finite_plane n corner b lb la)) p0 p1
    (fun x => in_plane (N:=RN) (finite_plane n corner b lb la) x (lit (n:=RN) 1 1000000000000000)) tol14) as Q.
  cbv zeta in Q. to_R. etransitivity; [exact Q|]. clear Q. cbn [pl_n pl_r0 finite_plane].
  assert (E14 : 1 / 100000000000000 = / 10 ^ 14) by lra. assert (E15 : 1 / 1000000000000000 = / 10 ^ 15) by lra. rewrite E14, E15.
  split; intros (A & y & S & H); split; auto; exists y; split; auto.
  - destruct H as (Z & H). now apply in_plane_spec in H.
  - assert (Z := rect_orth _ _ _ _ _ _ _ Hbn H). split; [exact Z|]. now apply in_plane_spec.
Qed.

(** ** Disks *)
Lemma disk_spec (c n : point) (r : R) (p0 p1 : point) : 0 <= r ->
  (disk_cuts (N:=RN) c n r p0 p1 = true <-> / 10 ^ 15 <= extent n p0 p1 /\ exists y, segment p0 p1 y /\ disk c n r y).
Proof.
  intros R0. unfold disk_cuts. cbv zeta.
  pose proof (parameter_spec (lit (n:=RN) 1 1000000000000000) n c p0 p1
    (fun x : point => Rltb ((vx x - vx c) * (vx x - vx c) + (vy x - vy c) * (vy x - vy c) + (vz x - vz c) * (vz x - vz c)) (r * r)) tol15) as Q.
  cbv zeta in Q. to_R. set (t := parameter (N:=RN) _ _ _ _ _) in *. rewrite rejected.
  assert (E15 : 1 / 1000000000000000 = / 10 ^ 15) by lra. rewrite E15 in Q.
  transitivity ((Rleb 0 t && Rleb t 1 && Rltb ((vx (point_at (N:=RN) t p0 p1) - vx c) * (vx (point_at (N:=RN) t p0 p1) - vx c) + (vy (point_at (N:=RN) t p0 p1) - vy c) * (vy (point_at (N:=RN) t p0 p1) - vy c) + (vz (point_at (N:=RN) t p0 p1) - vz c) * (vz (point_at (N:=RN) t p0 p1) - vz c)) (r * r))%bool = true).
  { destruct (Rleb 0 t && Rleb t 1)%bool; cbn [negb andb]; [reflexivity|split; [intros H; exact H|intros H; exact H]]. }
  etransitivity; [exact Q|].
  assert (K : forall y : point, Rltb ((vx y - vx c) * (vx y - vx c) + (vy y - vy c) * (vy y - vy c) + (vz y - vz c) * (vz y - vz c)) (r * r) = true <-> distance y c < r).
  { intros y. rewrite Rltb_true. apply (dist_lt y c r R0). }
  split; intros (A & y & S & Z & H); split; auto; exists y; split; auto; split; auto; now apply K.
Qed.

(** ** Triangles *)
Lemma in_triangle_spec (e : R) (p q r y : point) : proper_triangle p q r -> dot (vsub y p) (vcross (vsub q p) (vsub r p)) = 0 ->
  (inside_triangle (N:=RN) e p q r y = true <-> triangle_grown e p q r y).
Proof.
  intros P Z. unfold inside_triangle. to_R. set (a := vsub r p) in *. set (b := vsub q p) in *. set (c := vsub y p) in *.
  set (D := dot a a * dot b b - dot a b * dot a b).
  assert (D0 : D <> 0).
  { unfold D. rewrite <- cross_dot. intros H. apply P. fold a b. replace (vcross b a) with (vscale (N:=RN) (-1) (vcross a b)) by (destruct a, b; unfold vcross; vring).
    assert (V0 : vcross a b = v3 (N:=RN) 0 0 0) by (apply vdot_zero; exact H). rewrite V0. vring. }
  set (al := (dot b b * dot a c - dot a b * dot b c) / D). set (be := (dot a a * dot b c - dot a b * dot a c) / D).
  assert (Y : y = vadd p (vadd (vscale (N:=RN) al a) (vscale (N:=RN) be b))).
  { pose proof (gram a b c) as G. fold D in G.
    assert (Z' : dot c (vcross a b) = 0) by (transitivity (- dot c (vcross b a)); [destruct a, b, c; coords; ring|rewrite Z; lra]).
    rewrite Z' in G. rewrite (dot_comm c a), (dot_comm c b) in G.
    assert (C : c = vadd (vscale (N:=RN) al a) (vscale (N:=RN) be b)).
    { transitivity (vscale (N:=RN) (/ D) (vscale (N:=RN) D c)); [apply vext; cbn; rfield; exact D0|]. rewrite G. unfold al, be. apply vext; cbn; unfold Rdiv; rring. }
    rewrite <- C. unfold c. vring. }
  rewrite !Bool.andb_true_iff, !Rltb_true. split.
  - intros ((A & B) & C). exists al, be. auto.
  - intros (a' & b' & A & B & C & Y').
    assert (V : c = vadd (vscale (N:=RN) a' a) (vscale (N:=RN) b' b)) by (unfold c; rewrite Y'; unfold a, b; vring).
    assert (A' : al = a').
    { unfold al. apply Rmult_eq_reg_r with D; [|exact D0]. unfold Rdiv. rewrite Rmult_assoc, Rinv_l by exact D0. rewrite V. unfold D. clear. destruct a, b. coords. ring. }
    assert (B' : be = b').
    { unfold be. apply Rmult_eq_reg_r with D; [|exact D0]. unfold Rdiv. rewrite Rmult_assoc, Rinv_l by exact D0. rewrite V. unfold D. clear. destruct a, b. coords. ring. }
    rewrite A', B'. tauto.
Qed.
Lemma unit_normal_R (a b : point) : unit_normal a b = vscale (N:=RN) (/ vlen (vcross a b)) (vcross a b).
Proof.
  unfold unit_normal. cbv zeta. match goal with |- context [sqr_root ?x] => change (sqr_root x) with (vlen (vcross a b)) end.
  set (l := vlen (vcross a b)). unfold vscale, vcross. to_R. f_equal; unfold Rdiv; apply Rmult_comm.
Qed.
Lemma grown_orth e p q r y : triangle_grown e p q r y -> dot (vsub y p) (vcross (vsub q p) (vsub r p)) = 0.
Proof. intros (a & b & _ & _ & _ & ->). destruct p, q, r. coords. ring. Qed.
Lemma normal_zero (n v : point) : n <> v3 (N:=RN) 0 0 0 -> (dot v (vscale (N:=RN) (/ vlen n) n) = 0 <-> dot v n = 0).
Proof.
  intros H. assert (L : 0 < vlen n) by now apply vlen_pos. assert (E : dot v (vscale (N:=RN) (/ vlen n) n) = / vlen n * dot v n).
  { set (k := / vlen n). destruct v, n. coords. ring. }
  rewrite E. split; intros Z; [|rewrite Z; apply Rmult_0_r]. apply Rmult_integral in Z as [Z|Z]; [|exact Z].
  exfalso. apply Rinv_neq_0_compat in Z; [exact Z|]. apply Rgt_not_eq. exact L.
Qed.
Lemma triangle_filter_spec (p q r p0 p1 : point) : proper_triangle p q r ->
  (triangle_cuts (N:=RN) p q r p0 p1 = true <->
   / 10 ^ 14 <= extent (normal_of p q r) p0 p1 /\ exists y, segment p0 p1 y /\ triangle_grown (/ 10 ^ 14) p q r y).
Proof.
  intros P. unfold triangle_cuts. cbv zeta. rewrite unit_normal_R. fold (normal_of p q r).
  pose proof (parameter_spec (lit (n:=RN) 1 100000000000000) (normal_of p q r) p p0 p1 (fun x => inside_triangle (N:=RN) (lit (n:=RN) 1 100000000000000) p q r x) tol14) as Q.
  cbv zeta in Q. to_R. set (t := parameter (N:=RN) _ _ _ _ _) in *. rewrite rejected.
  assert (E14 : 1 / 100000000000000 = / 10 ^ 14) by lra. rewrite E14 in *.
  transitivity ((Rleb 0 t && Rleb t 1 && inside_triangle (N:=RN) (/ 10 ^ 14) p q r (point_at (N:=RN) t p0 p1))%bool = true).
  { destruct (Rleb 0 t && Rleb t 1)%bool; cbn [negb andb]; [reflexivity|split; [intros H; exact H|intros H; exact H]]. }
  etransitivity; [exact Q|]. clear Q.
  split; intros (A & y & S & H); split; auto; exists y; split; auto.
  - destruct H as (Z & H). apply (proj1 (normal_zero _ (vsub y p) P)) in Z. now apply in_triangle_spec in H.
  - assert (Z := grown_orth _ _ _ _ _ H). split; [exact (proj2 (normal_zero _ (vsub y p) P) Z)|]. now apply in_triangle_spec.
Qed.
Lemma triangle_in_grown e p q r y : 0 < e -> in_triangle p q r y -> triangle_grown e p q r y.
Proof.
  intros E (u & v & w & U & V & W & S & ->). exists w, v. repeat split; try lra. replace u with (1 - v - w) by lra. unfold mix3, mix2. vring.
Qed.
(** Quadrilaterals: corners in one plane *)
Lemma quad_filter_spec (p q r s p0 p1 : point) : proper_triangle p q r -> proper_triangle p s r -> proper_triangle p q s -> dot (vsub r p) (vcross (vsub q p) (vsub s p)) = 0 ->
  (quad_cuts (N:=RN) p q r s p0 p1 = true <->
   / 10 ^ 14 <= extent (normal_of p q s) p0 p1 /\ exists y, segment p0 p1 y /\ (triangle_grown (/ 10 ^ 14) p q r y \/ triangle_grown (/ 10 ^ 14) p s r y)).
Proof.
  intros P1 P2 P3 F. unfold quad_cuts. cbv zeta. rewrite unit_normal_R. fold (normal_of p q s).
  pose proof (parameter_spec (lit (n:=RN) 1 100000000000000) (normal_of p q s) p p0 p1
    (fun x => (inside_triangle (N:=RN) (lit (n:=RN) 1 100000000000000) p q r x || inside_triangle (N:=RN) (lit (n:=RN) 1 100000000000000) p s r x)%bool) tol14) as Q.
  cbv zeta in Q. to_R. set (t := parameter (N:=RN) _ _ _ _ _) in *. rewrite rejected.
  assert (E14 : 1 / 100000000000000 = / 10 ^ 14) by lra. rewrite E14 in *.
  transitivity ((Rleb 0 t && Rleb t 1 && (inside_triangle (N:=RN) (/ 10 ^ 14) p q r (point_at (N:=RN) t p0 p1) || inside_triangle (N:=RN) (/ 10 ^ 14) p s r (point_at (N:=RN) t p0 p1)))%bool = true).
  { destruct (Rleb 0 t && Rleb t 1)%bool; cbn [negb andb]; [reflexivity|split; [intros H; exact H|intros H; exact H]]. }
  etransitivity; [exact Q|]. clear Q.
  (* the corner r lies in the plane of p, q, s *)
  set (a := vsub q p) in *. set (b := vsub s p) in *. set (d := vsub r p) in *.
  assert (D0 : dot (vcross a b) (vcross a b) <> 0) by (intros H; apply P3; apply vdot_zero; exact H).
  assert (E : exists x y, d = vadd (vscale (N:=RN) x a) (vscale (N:=RN) y b)).
  { pose proof (gram a b d) as G. rewrite F in G. rewrite <- cross_dot in G. set (D := dot (vcross a b) (vcross a b)) in *.
    exists ((dot b b * dot d a - dot a b * dot d b) / D), ((dot a a * dot d b - dot a b * dot d a) / D).
    transitivity (vscale (N:=RN) (/ D) (vscale (N:=RN) D d)); [apply vext; cbn; rfield; exact D0|]. rewrite G. apply vext; cbn; unfold Rdiv; rring. }
  destruct E as (x & y & E).
  assert (C1 : forall z, dot z (vcross a d) = y * dot z (vcross a b)) by (intros z; rewrite E; clear; destruct z, a, b; coords; ring).
  assert (C2 : forall z, dot z (vcross b d) = - x * dot z (vcross a b)) by (intros z; rewrite E; clear; destruct z, a, b; coords; ring).
  assert (Y0 : y <> 0).
  { intros H. apply P1. fold a d. apply vdot_zero. rewrite C1, H. apply Rmult_0_l. }
  assert (X0 : x <> 0).
  { intros H. apply P2. fold b d. apply vdot_zero. rewrite C2, H. rewrite Ropp_0. apply Rmult_0_l. }
  assert (N : forall z, dot z (normal_of p q s) = 0 <-> dot z (vcross a b) = 0) by (intros z; apply normal_zero; exact P3).
  split; intros (A & z & S & H); split; auto; exists z; split; auto.
  - destruct H as (Z & H). apply N in Z. apply Bool.orb_true_iff in H as [H|H]; [left|right]; apply in_triangle_spec in H; auto; fold a b d.
    + rewrite C1, Z. apply Rmult_0_r.
    + rewrite C2, Z. apply Rmult_0_r.
  - destruct H as [H|H]; pose proof (grown_orth _ _ _ _ _ H) as Z; fold a b d in Z.
    + rewrite C1 in Z. apply Rmult_integral in Z as [Z|Z]; [contradiction|]. split; [now apply N|]. apply Bool.orb_true_iff. left. apply in_triangle_spec; auto.
      fold a b d. rewrite C1, Z. apply Rmult_0_r.
    + rewrite C2 in Z. apply Rmult_integral in Z as [Z|Z]; [exfalso; apply X0; lra|]. split; [now apply N|]. apply Bool.orb_true_iff. right. apply in_triangle_spec; auto.
      fold a b d. rewrite C2, Z. apply Rmult_0_r.
Qed.
