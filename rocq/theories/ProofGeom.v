(** * Proofs about element volumes and centroids *)
From Coq Require Import Reals Lra Psatz.
From Coquelicot Require Import Coquelicot.
From Verif Require Import Base Num ModelGeom SpecGeom ProofGlobal.
Local Open Scope R_scope.

(** Unfold points to their coordinates. *)
Ltac coords := unfold mix4, mix3, mix2, det3, triple, dist2, distance, vlen, vadd, vsub, vscale, vdot, vcross in *; cbn in *.

(** Equality of points, by coordinates. *)
Ltac rring := first [ring | symmetry; ring].
Ltac rfield := first [field | symmetry; field].
Ltac vfield := apply vext; cbn; rfield.
Ltac vring := apply vext; cbn; rring.

Lemma triple_det (a b c : point) : triple a b c = det3 a b c.
Proof. unfold triple, det3, vdot, vcross. cbn. reflexivity. Qed.

Lemma tet_volume_eq e : tet_volume e =
  if Rltb (oriented_volume (t0 e) (t1 e) (t2 e) (t3 e)) 0 then Err else Ok (oriented_volume (t0 e) (t1 e) (t2 e) (t3 e)).
Proof. reflexivity. Qed.

Lemma tet_ok e v : tet_volume e = Ok v <-> v = oriented_volume (t0 e) (t1 e) (t2 e) (t3 e) /\ 0 <= v.
Proof.
  rewrite tet_volume_eq. destruct (Rltb _ 0) eqn:L.
  - apply Rltb_true in L. split; [discriminate|]. intros (-> & H). exfalso. apply (Rlt_irrefl 0). eapply Rle_lt_trans; [exact H|exact L].
  - apply Rltb_false in L. split; [intros H; injection H as <-; auto|]. intros (-> & _). reflexivity.
Qed.
Lemma tet_err e : tet_volume e = Err <-> oriented_volume (t0 e) (t1 e) (t2 e) (t3 e) < 0.
Proof.
  rewrite tet_volume_eq. destruct (Rltb _ 0) eqn:L; [apply Rltb_true in L; tauto|].
  apply Rltb_false in L. split; [discriminate|]. intros H. exfalso. apply (Rlt_irrefl 0). eapply Rle_lt_trans; [exact L|exact H].
Qed.
Lemma tet_shift e d : tet_volume (shift_tet e d) = tet_volume e.
Proof.
  rewrite !tet_volume_eq. replace (oriented_volume (t0 (shift_tet e d)) _ _ _) with (oriented_volume (t0 e) (t1 e) (t2 e) (t3 e)); [reflexivity|].
  unfold oriented_volume, shift_tet. coords. f_equal. ring.
Qed.

(** Sum of the volumes of the 24 tetrahedra. *)
Definition part (c : point) (t : point * point * point) : R := let '(p, q, r) := t in oriented_volume p q r c.
Definition moment (c : point) (t : point * point * point) : point :=
  let '(p, q, r) := t in vscale (N:=RN) (part c t) (tet_centroid (tet p q r c)).

Lemma hex_fold c l : forall acc v,
  foldM (fun volume t => let '(p, q, r) := t in let? v := tet_volume (tet p q r c) in Ok (add (n:=RN) volume v)) acc l = Ok v <->
  Forall (fun t => 0 <= part c t) l /\ v = acc + total (map (part c) l).
Proof.
  induction l as [|[[p q] r] l IH]; intros acc v; cbn [foldM map total].
  - split; [intros H; injection H as <-; split; [constructor|symmetry; apply Rplus_0_r]|]. intros (_ & ->). f_equal. symmetry; apply Rplus_0_r.
  - destruct (tet_volume (tet p q r c)) as [x| |] eqn:E.
    + apply tet_ok in E as (E & P). cbn [bind]. rewrite IH. cbn [t0 t1 t2 t3] in E. split.
      * intros (F & ->). split; [constructor; [cbn [part]; rewrite <- E; exact P|exact F]|]. cbn [part] in *. rewrite <- E. to_R. ring.
      * intros (F & ->). inversion F; subst. split; [assumption|]. cbn [part] in *. to_R. ring.
    + apply tet_err in E. cbn [bind t0 t1 t2 t3] in *. split; [discriminate|]. intros (F & _). inversion F as [|? ? P]; subst. cbn [part] in P. exfalso.
      apply (Rlt_irrefl 0). eapply Rle_lt_trans; [exact P|exact E].
    + exfalso. rewrite tet_volume_eq in E. destruct (Rltb _ _) in E; discriminate.
Qed.
Lemma hex_fold_cases c l : forall acc,
  (exists v, foldM (fun volume t => let '(p, q, r) := t in let? v := tet_volume (tet p q r c) in Ok (add (n:=RN) volume v)) acc l = Ok v) \/
  foldM (fun volume t => let '(p, q, r) := t in let? v := tet_volume (tet p q r c) in Ok (add (n:=RN) volume v)) acc l = Err.
Proof.
  induction l as [|[[p q] r] l IH]; intros acc; cbn [foldM]; [left; eexists; reflexivity|].
  rewrite tet_volume_eq. destruct (Rltb _ 0); cbn [bind]; [now right|apply IH].
Qed.

Lemma hex_ok h v : hex_volume h = Ok v <-> Forall (fun t => 0 <= part (hex_centre h) t) (hex_triangles h) /\ v = total (map (part (hex_centre h)) (hex_triangles h)).
Proof.
  unfold hex_volume. rewrite hex_fold. split; intros (F & ->); (split; [exact F|]); to_R; ring.
Qed.
Lemma hex_err h : hex_volume h = Err <-> ~ Forall (fun t => 0 <= part (hex_centre h) t) (hex_triangles h).
Proof.
  destruct (hex_fold_cases (hex_centre h) (hex_triangles h) (0 : T RN)) as [(v & E)|E]; fold (hex_volume h) in E.
  - split; [intros H; change (hex_volume h = Ok v) in E; congruence|]. intros H. exfalso. apply H. now apply hex_ok in E.
  - split; [|intros _; exact E]. intros _ F. assert (E' : hex_volume h = Ok (total (map (part (hex_centre h)) (hex_triangles h)))) by (apply hex_ok; auto).
    change (hex_volume h = Err) in E. congruence.
Qed.

(** ** The integral of the Jacobian *)
Definition quadratic (f : R -> R) : Prop := exists a b c, forall x, f x = a + b * x + c * (x * x).
Lemma simpson f : quadratic f -> is_RInt f 0 1 ((f 0 + 4 * f (/ 2) + f 1) / 6).
Proof.
  intros (a & b & c & H).
  apply is_RInt_ext with (f := fun x => a + b * x + c * (x * x)); [intros; symmetry; apply H|].
  replace ((f 0 + 4 * f (/ 2) + f 1) / 6) with (minus ((fun x => a * x + b * (x * x) / 2 + c * (x * x * x) / 3) 1) ((fun x => a * x + b * (x * x) / 2 + c * (x * x * x) / 3) 0)).
  - apply (is_RInt_derive (fun x => a * x + b * (x * x) / 2 + c * (x * x * x) / 3) (fun x => a + b * x + c * (x * x))).
    + intros x _. auto_derive; [auto|]. field.
    + intros x _. apply continuity_pt_filterlim. reg.
  - rewrite !H. unfold minus, plus, opp. cbn. field.
Qed.
Lemma quadratic_lin3 f g h k l m : quadratic f -> quadratic g -> quadratic h -> quadratic (fun x => k * f x + l * g x + m * h x).
Proof.
  intros (a & b & c & F) (a' & b' & c' & G) (a'' & b'' & c'' & H).
  exists (k * a + l * a' + m * a''), (k * b + l * b' + m * b''), (k * c + l * c' + m * c''). intros x. rewrite F, G, H. ring.
Qed.
Lemma quadratic_simpson f g h : quadratic f -> quadratic g -> quadratic h -> quadratic (fun x => (f x + 4 * g x + h x) / 6).
Proof.
  intros F G H. destruct (quadratic_lin3 f g h (/ 6) (4 / 6) (/ 6) F G H) as (a & b & c & E). exists a, b, c. intros x. rewrite <- E. field.
Qed.
Lemma cubature (g : R -> R -> R -> R) :
  (forall x y, quadratic (fun z => g x y z)) -> (forall x z, quadratic (fun y => g x y z)) -> (forall y z, quadratic (fun x => g x y z)) ->
  let s f := (f 0 + 4 * f (/ 2) + f 1) / 6 in
  RInt (fun x => RInt (fun y => RInt (fun z => g x y z) 0 1) 0 1) 0 1 = s (fun x => s (fun y => s (fun z => g x y z))).
Proof.
  intros Z Y X s.
  assert (E1 : forall x y, RInt (fun z => g x y z) 0 1 = s (fun z => g x y z)) by (intros; apply is_RInt_unique, simpson, Z).
  assert (E2 : forall x, RInt (fun y => RInt (fun z => g x y z) 0 1) 0 1 = s (fun y => s (fun z => g x y z))).
  { intros x. apply is_RInt_unique. apply is_RInt_ext with (f := fun y => s (fun z => g x y z)); [intros; symmetry; apply E1|].
    apply (simpson (fun y => s (fun z => g x y z))). apply quadratic_simpson; apply Y. }
  apply is_RInt_unique. apply is_RInt_ext with (f := fun x => s (fun y => s (fun z => g x y z))); [intros; symmetry; apply E2|].
  apply (simpson (fun x => s (fun y => s (fun z => g x y z)))). apply quadratic_simpson; apply quadratic_simpson; apply X.
Qed.

(** det3 of vectors that are affine in a parameter *)
Definition affine (f : R -> point) : Prop := exists a b, forall x, f x = vadd a (vscale (N:=RN) x b).
Lemma det_affine12 f g r : affine f -> affine g -> quadratic (fun x => det3 (f x) (g x) r).
Proof.
  intros (a & b & F) (c & d & G). exists (det3 a c r), (det3 a d r + det3 b c r), (det3 b d r). intros x. rewrite F, G.
  destruct a, b, c, d, r. coords. ring.
Qed.
Lemma det_turn a b c : det3 a b c = det3 b c a.
Proof. destruct a, b, c. coords. ring. Qed.
Ltac affine_tac h := destruct h as [[? ? ?] [? ? ?] [? ? ?] [? ? ?] [? ? ?] [? ? ?] [? ? ?] [? ? ?]];
  match goal with |- affine ?f => exists (f 0), (vsub (f 1) (f 0)) end; intros ?; apply vext; cbn; ring.
Lemma affine_xy h z : affine (fun y => trilinear_x h y z). Proof. affine_tac h. Qed.
Lemma affine_xz h y : affine (fun z => trilinear_x h y z). Proof. affine_tac h. Qed.
Lemma affine_yx h z : affine (fun x => trilinear_y h x z). Proof. affine_tac h. Qed.
Lemma affine_yz h x : affine (fun z => trilinear_y h x z). Proof. affine_tac h. Qed.
Lemma affine_zx h y : affine (fun x => trilinear_z h x y). Proof. affine_tac h. Qed.
Lemma affine_zy h x : affine (fun y => trilinear_z h x y). Proof. affine_tac h. Qed.
Lemma quadratic_ext f g : (forall x, f x = g x) -> quadratic f -> quadratic g.
Proof. intros E (a & b & c & H). exists a, b, c. intros x. now rewrite <- E. Qed.

Lemma jacobian_cubature h : let s f := (f 0 + 4 * f (/ 2) + f 1) / 6 in
  trilinear_volume h = s (fun x => s (fun y => s (fun z => jacobian h x y z))).
Proof.
  unfold trilinear_volume. apply (cubature (fun x y z => jacobian h x y z)).
  - intros x y. apply (det_affine12 (fun z => trilinear_x h y z) (fun z => trilinear_y h x z) (trilinear_z h x y)); [apply affine_xz|apply affine_yz].
  - intros x z. eapply quadratic_ext; [|apply (det_affine12 (fun y => trilinear_z h x y) (fun y => trilinear_x h y z) (trilinear_y h x z)); [apply affine_zy|apply affine_xy]].
    intros y. cbv beta. rewrite det_turn. reflexivity.
  - intros y z. eapply quadratic_ext; [|apply (det_affine12 (fun x => trilinear_y h x z) (fun x => trilinear_z h x y) (trilinear_x h y z)); [apply affine_yx|apply affine_zx]].
    intros x. cbv beta. rewrite <- det_turn. reflexivity.
Qed.

(** A hexahedron by its modes: a0 + x a1 + y a2 + z a3 + xy a4 + yz a5 + zx a6 + xyz a7. *)
Definition modes (a0 a1 a2 a3 a4 a5 a6 a7 : point) : hexa RN :=
  hex a0 (vadd a0 a1) (vadd (vadd a0 a1) (vadd a2 a4)) (vadd a0 a2)
    (vadd a0 a3) (vadd (vadd a0 a1) (vadd a3 a6)) (vadd (vadd (vadd a0 a1) (vadd a2 a4)) (vadd (vadd a3 a5) (vadd a6 a7))) (vadd (vadd a0 a2) (vadd a3 a5)).
Lemma modes_exist h : exists a0 a1 a2 a3 a4 a5 a6 a7, h = modes a0 a1 a2 a3 a4 a5 a6 a7.
Proof.
  destruct h as [n0 n1 n2 n3 n4 n5 n6 n7].
  exists n0, (vsub n1 n0), (vsub n3 n0), (vsub n4 n0), (vadd (vsub n2 n1) (vsub n0 n3)), (vadd (vsub n7 n3) (vsub n0 n4)), (vadd (vsub n5 n1) (vsub n0 n4)).
  exists (vadd (vadd (vsub n6 n2) (vsub n1 n5)) (vadd (vsub n3 n7) (vsub n4 n0))).
  unfold modes. f_equal; vring.
Qed.

(** The volume from the faces. *)
Lemma part_dets c p q r : part c (p, q, r) = (det3 q r c - det3 p r c + det3 p q c + det3 q p r) / 6.
Proof. unfold part, oriented_volume. destruct c, p, q, r. coords. field. Qed.
Lemma det_swap a b c : det3 a b c = - det3 b a c.
Proof. destruct a, b, c. coords. ring. Qed.
Lemma flux4_dets p q r s : flux4 (p, q, r, s) = (det3 p q r + det3 p q s + det3 q r s + det3 p r s) / 12.
Proof. unfold flux4, flux3, mean4. destruct p, q, r, s. coords. field. Qed.
Lemma centre_mean p q r s : face_centre p q r s = mean4 p q r s.
Proof. unfold mean4, face_centre. destruct p, q, r, s. apply vext; coords; field. Qed.
Lemma mean_swap p q r s : mean4 p q r s = mean4 p q s r.
Proof. unfold mean4. destruct p, q, r, s. apply vext; coords; ring. Qed.
Lemma mean_swap' p q r s : mean4 p q r s = mean4 q p r s.
Proof. unfold mean4. destruct p, q, r, s. apply vext; coords; ring. Qed.
Lemma mean_turn p q r s : mean4 p q r s = mean4 q r s p.
Proof. unfold mean4. destruct p, q, r, s. apply vext; coords; ring. Qed.

Definition face_sum (h : hexa RN) : R := total (map flux4 (faces h)).
Lemma parts_faces h : total (map (part (hex_centre h)) (hex_triangles h)) = face_sum h.
Proof.
  destruct h as [n0 n1 n2 n3 n4 n5 n6 n7]. unfold face_sum. set (c := hex_centre _). clearbody c.
  unfold hex_triangles, faces, f0, f1, f2, f3, f4, f5, flux4, flux3. cbn [map total h0 h1 h2 h3 h4 h5 h6 h7].
  rewrite !part_dets, !centre_mean.
  rewrite (mean_swap n0 n1 n4 n5), (mean_swap n1 n2 n5 n6), (mean_swap n2 n3 n6 n7), (mean_swap' n0 n3 n4 n7).
  replace (mean4 n0 n3 n2 n1) with (mean4 n0 n1 n2 n3) by (rewrite (mean_turn n0 n1), (mean_turn n1 n2), (mean_swap n2 n3), (mean_swap' n2 n3), (mean_turn n3 n2), (mean_turn n2 n1), (mean_turn n1 n0), (mean_swap n0 n3), (mean_turn n0 n3), (mean_turn n3 n1), (mean_turn n1 n2), (mean_turn n2 n0); destruct n0, n1, n2, n3; unfold mean4; apply vext; coords; ring).
  generalize (mean4 n0 n1 n5 n4) (mean4 n1 n2 n6 n5) (mean4 n2 n3 n7 n6) (mean4 n3 n0 n4 n7) (mean4 n0 n1 n2 n3) (mean4 n4 n5 n6 n7).
  intros m0 m1 m2 m3 m4 m5.
  rewrite (det_swap n1 n0 c), (det_swap n2 n1 c), (det_swap n3 n2 c), (det_swap n0 n3 c), (det_swap n5 n1 c), (det_swap n6 n2 c), (det_swap n7 n3 c), (det_swap n4 n0 c).
  rewrite (det_swap n5 n4 c), (det_swap n6 n5 c), (det_swap n7 n6 c), (det_swap n4 n7 c). field.
Qed.

Section Modes.
  Variables a0 a1 a2 a3 a4 a5 a6 a7 : point.
  Lemma jacobian_modes x y z : jacobian (modes a0 a1 a2 a3 a4 a5 a6 a7) x y z =
    ((1) * (1)) * det3 a1 a2 a3 + ((1) * (y)) * det3 a1 a2 a5 + ((1) * (x)) * det3 a1 a2 a6 + ((1) * (x * y)) * det3 a1 a2 a7 + ((-1) * (x)) * det3 a1 a3 a4 + ((-1) * (z)) * det3 a1 a3 a5 + ((-1) * (x * z)) * det3 a1 a3 a7 + ((1) * (x * y)) * det3 a1 a4 a5 + ((1) * (x * x)) * det3 a1 a4 a6 + ((1) * (x * x * y)) * det3 a1 a4 a7 + ((1) * (x * z)) * det3 a1 a5 a6 + (0) * det3 a1 a5 a7 + ((-1) * (x * x * z)) * det3 a1 a6 a7 + ((1) * (y)) * det3 a2 a3 a4 + ((1) * (z)) * det3 a2 a3 a6 + ((1) * (y * z)) * det3 a2 a3 a7 + ((-1) * (y * y)) * det3 a2 a4 a5 + ((-1) * (x * y)) * det3 a2 a4 a6 + ((-1) * (x * y * y)) * det3 a2 a4 a7 + ((1) * (y * z)) * det3 a2 a5 a6 + ((1) * (y * y * z)) * det3 a2 a5 a7 + (0) * det3 a2 a6 a7 + ((1) * (y * z)) * det3 a3 a4 a5 + ((-1) * (x * z)) * det3 a3 a4 a6 + (0) * det3 a3 a4 a7 + ((-1) * (z * z)) * det3 a3 a5 a6 + ((-1) * (y * z * z)) * det3 a3 a5 a7 + ((1) * (x * z * z)) * det3 a3 a6 a7 + ((2) * (x * y * z)) * det3 a4 a5 a6 + ((1) * (x * y * y * z)) * det3 a4 a5 a7 + ((-1) * (x * x * y * z)) * det3 a4 a6 a7 + ((1) * (x * y * z * z)) * det3 a5 a6 a7.
  Proof.
    unfold jacobian.
    replace (trilinear_x (modes a0 a1 a2 a3 a4 a5 a6 a7) y z) with (vadd (vadd a1 (vscale (N:=RN) y a4)) (vadd (vscale (N:=RN) z a6) (vscale (N:=RN) (y * z) a7)))
      by (destruct a0, a1, a2, a3, a4, a5, a6, a7; apply vext; cbn; ring).
    replace (trilinear_y (modes a0 a1 a2 a3 a4 a5 a6 a7) x z) with (vadd (vadd a2 (vscale (N:=RN) x a4)) (vadd (vscale (N:=RN) z a5) (vscale (N:=RN) (x * z) a7)))
      by (destruct a0, a1, a2, a3, a4, a5, a6, a7; apply vext; cbn; ring).
    replace (trilinear_z (modes a0 a1 a2 a3 a4 a5 a6 a7) x y) with (vadd (vadd a3 (vscale (N:=RN) y a5)) (vadd (vscale (N:=RN) x a6) (vscale (N:=RN) (x * y) a7)))
      by (destruct a0, a1, a2, a3, a4, a5, a6, a7; apply vext; cbn; ring).
    destruct a1, a2, a3, a4, a5, a6, a7. coords. ring.
  Qed.
  Definition mode_volume : R :=
    (1) * det3 a1 a2 a3 + (1/2) * det3 a1 a2 a5 + (1/2) * det3 a1 a2 a6 + (1/4) * det3 a1 a2 a7 + (-1/2) * det3 a1 a3 a4 + (-1/2) * det3 a1 a3 a5 + (-1/4) * det3 a1 a3 a7 + (1/4) * det3 a1 a4 a5 + (1/3) * det3 a1 a4 a6 + (1/6) * det3 a1 a4 a7 + (1/4) * det3 a1 a5 a6 + (-1/6) * det3 a1 a6 a7 + (1/2) * det3 a2 a3 a4 + (1/2) * det3 a2 a3 a6 + (1/4) * det3 a2 a3 a7 + (-1/3) * det3 a2 a4 a5 + (-1/4) * det3 a2 a4 a6 + (-1/6) * det3 a2 a4 a7 + (1/4) * det3 a2 a5 a6 + (1/6) * det3 a2 a5 a7 + (1/4) * det3 a3 a4 a5 + (-1/4) * det3 a3 a4 a6 + (-1/3) * det3 a3 a5 a6 + (-1/6) * det3 a3 a5 a7 + (1/6) * det3 a3 a6 a7 + (1/4) * det3 a4 a5 a6 + (1/12) * det3 a4 a5 a7 + (-1/12) * det3 a4 a6 a7 + (1/12) * det3 a5 a6 a7.
  Lemma volume_modes : trilinear_volume (modes a0 a1 a2 a3 a4 a5 a6 a7) = mode_volume.
  Proof.
    eapply eq_trans; [exact (jacobian_cubature _)|]. cbv beta zeta.
    rewrite !jacobian_modes. unfold mode_volume.
    repeat match goal with |- context [det3 ?a ?b ?c] => generalize (det3 a b c); intros ? end.
    field_simplify_eq.
    ring.
  Qed.
  Lemma faces_modes : face_sum (modes a0 a1 a2 a3 a4 a5 a6 a7) = mode_volume.
  Proof.
    unfold face_sum, faces. cbn [map total]. rewrite !flux4_dets. unfold mode_volume, modes. cbn [h0 h1 h2 h3 h4 h5 h6 h7].
    destruct a0, a1, a2, a3, a4, a5, a6, a7. coords. field.
  Qed.
End Modes.

Lemma face_sum_volume h : face_sum h = trilinear_volume h.
Proof.
  destruct (modes_exist h) as (a0 & a1 & a2 & a3 & a4 & a5 & a6 & a7 & ->).
  exact (eq_trans (faces_modes a0 a1 a2 a3 a4 a5 a6 a7) (eq_sym (volume_modes a0 a1 a2 a3 a4 a5 a6 a7))).
Qed.
Lemma hex_volume_ok h v : hex_volume h = Ok v -> v = trilinear_volume h /\ 0 <= v.
Proof.
  intros H. apply hex_ok in H as (F & ->). split.
  - rewrite parts_faces. apply face_sum_volume.
  - induction F as [|t l P F IH]; cbn [map total]; [apply Rle_refl|]. apply Rplus_le_le_0_compat; [exact P|exact IH].
Qed.

(** ** Centroids *)
Fixpoint vtotal (l : list point) : point := match l with [] => v3 (N:=RN) 0 0 0 | a :: l' => vadd a (vtotal l') end.
Lemma hex_add_fold c l : forall acc,
  foldM (hex_add c) acc l = (let? v := foldM (fun volume t => let '(p, q, r) := t in let? v := tet_volume (tet p q r c) in Ok (add (n:=RN) volume v)) (snd acc) l in
  Ok (vadd (fst acc) (vtotal (map (moment c) l)), v)).
Proof.
  induction l as [|[[p q] r] l IH]; intros [m v]; cbn [foldM map vtotal fst snd].
  - cbn [bind]. do 2 f_equal. destruct m. vring.
  - unfold hex_add at 1. destruct (tet_volume (tet p q r c)) as [x| |] eqn:E; cbn [bind]; [|reflexivity|reflexivity].
    apply tet_ok in E as (E & _). cbn [t0 t1 t2 t3] in E. rewrite IH. cbn [fst snd].
    match goal with |- (let? v := ?a in _) = _ => destruct a as [y| |]; cbn [bind]; try reflexivity end.
    do 2 f_equal. unfold moment at 2. cbn [part]. rewrite <- E. vring.
Qed.
Lemma hex_both h : hex_centroid_and_volume h = (let? v := hex_volume h in
  let m := vtotal (map (moment (hex_centre h)) (hex_triangles h)) in Ok (v3 (N:=RN) (vx m / v) (vy m / v) (vz m / v), v)).
Proof.
  unfold hex_centroid_and_volume. rewrite hex_add_fold. cbn [fst snd]. fold (hex_volume h).
  change (foldM _ _ (hex_triangles h)) with (hex_volume h). destruct (hex_volume h) as [v| |]; cbn [bind]; [|reflexivity|reflexivity].
  do 3 f_equal; cbn; rewrite Rplus_0_l; reflexivity.
Qed.

(** *** Translation *)
Lemma centre_shift (h : hexa RN) (d : point) : hex_centre (shift_hex h d) = vadd (hex_centre h) d.
Proof. unfold hex_centre, f4, f5, face_centre, shift_hex. apply vext; cbn; field. Qed.
Definition shift3 (d : point) (t : point * point * point) := let '(p, q, r) := t in (vadd p d, vadd q d, vadd r d).
Lemma face_shift (a b c e d : point) : face_centre (vadd a d) (vadd b d) (vadd c d) (vadd e d) = vadd (face_centre a b c e) d.
Proof. apply vext; cbn; field. Qed.
Lemma triangles_shift (h : hexa RN) (d : point) : hex_triangles (shift_hex h d) = map (shift3 d) (hex_triangles h).
Proof.
  unfold hex_triangles, f0, f1, f2, f3, f4, f5. cbn [map shift3]. unfold shift_hex. cbn [h0 h1 h2 h3 h4 h5 h6 h7]. rewrite !face_shift. reflexivity.
Qed.
Lemma part_shift c d t : part (vadd c d) (shift3 d t) = part c t.
Proof. destruct t as [[p q] r]. cbn [shift3]. unfold part, oriented_volume. coords. f_equal. ring. Qed.
Lemma moment_shift c d t : moment (vadd c d) (shift3 d t) = vadd (moment c t) (vscale (N:=RN) (part c t) d).
Proof.
  assert (E := part_shift c d t). destruct t as [[p q] r]. unfold moment. cbn [shift3] in *. rewrite E. generalize (part c (p, q, r)). intros x.
  unfold tet_centroid. cbn [t0 t1 t2 t3]. apply vext; cbn; field.
Qed.
Lemma hex_volume_shift (h : hexa RN) (d : point) : hex_volume (shift_hex h d) = hex_volume h.
Proof.
  assert (E : forall c l acc, foldM (fun volume t => let '(p, q, r) := t in let? v := tet_volume (tet p q r (vadd c d)) in Ok (add (n:=RN) volume v)) acc (map (shift3 d) l)
    = foldM (fun volume t => let '(p, q, r) := t in let? v := tet_volume (tet p q r c) in Ok (add (n:=RN) volume v)) acc l).
  { intros c l. induction l as [|[[p q] r] l IH]; intros acc; [reflexivity|]. cbn [map shift3 foldM].
    change (tet (vadd p d) (vadd q d) (vadd r d) (vadd c d)) with (shift_tet (tet p q r c) d). rewrite tet_shift.
    destruct (tet_volume (tet p q r c)); cbn [bind]; auto. }
  unfold hex_volume. rewrite centre_shift, triangles_shift. apply E.
Qed.
Lemma vtotal_shift (c d : point) l : vtotal (map (fun t => vadd (moment c t) (vscale (N:=RN) (part c t) d)) l) = vadd (vtotal (map (moment c) l)) (vscale (N:=RN) (total (map (part c) l)) d).
Proof.
  induction l as [|t l IH]; cbn [map vtotal total]; [vring|]. rewrite IH. generalize (vtotal (map (moment c) l)) (total (map (part c) l)) (moment c t) (part c t).
  intros. vring.
Qed.
Lemma hex_centroid_shift (h : hexa RN) (d m : point) (v : R) : hex_centroid_and_volume h = Ok (m, v) -> 0 < v -> hex_centroid_and_volume (shift_hex h d) = Ok (vadd m d, v).
Proof.
  intros H V. rewrite hex_both in *. rewrite hex_volume_shift. destruct (hex_volume h) as [x| |] eqn:E; [|discriminate|discriminate].
  cbn [bind] in *. cbv zeta in *. apply hex_ok in E as (_ & E).
  remember (vtotal (map (moment (hex_centre h)) (hex_triangles h))) as m0 eqn:Em. injection H as <- <-.
  rewrite triangles_shift, centre_shift, map_map.
  rewrite (map_ext _ (fun t => vadd (moment (hex_centre h) t) (vscale (N:=RN) (part (hex_centre h) t) d))) by (intros; apply moment_shift).
  rewrite vtotal_shift, <- E, <- Em. clear Em.
  do 2 f_equal. apply vext; cbn; to_R; field; intros Z; rewrite Z in V; exact (Rlt_irrefl _ V).
Qed.

