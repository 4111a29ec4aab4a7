(** * Proofs about triangles and spheres *)
From Coq Require Import Reals Lra Psatz.
From Coquelicot Require Import Coquelicot.
From Verif Require Import Base Num ModelGeom SpecGeom ProofGlobal ProofGeom ProofGeom2 ProofGeom3.
Local Open Scope R_scope.

Notation dot := (vdot (N:=RN)).
Lemma dot_nonneg (a : point) : 0 <= dot a a. Proof. apply vdot_nonneg. Qed.
Lemma cauchy_sq (a b : point) : dot a b * dot a b <= dot a a * dot b b.
Proof. assert (L := lagrange a b). assert (P := dot_nonneg (vcross a b)). to_R. lra. Qed.
Lemma dot_comm (a b : point) : dot a b = dot b a.
Proof. destruct a, b. coords. ring. Qed.
Lemma dot_mix3 (u v w : R) (a b c x : point) : dot x (mix3 u v w a b c) = u * dot x a + v * dot x b + w * dot x c.
Proof. destruct a, b, c, x. coords. ring. Qed.
Lemma dot_mix3' (u v w : R) (a b c x : point) : dot (mix3 u v w a b c) x = u * dot a x + v * dot b x + w * dot c x.
Proof. destruct a, b, c, x. coords. ring. Qed.

(** Jensen *)
Lemma mix_inside (u v w : R) (a b c : point) (m : R) : 0 <= u -> 0 <= v -> 0 <= w -> u + v + w = 1 -> dot a a < m -> dot b b < m -> dot c c < m ->
  dot (mix3 u v w a b c) (mix3 u v w a b c) < m.
Proof.
  intros U V W S A B C. assert (E : w = 1 - u - v) by lra.
  assert (J : u * dot a a + v * dot b b + w * dot c c - dot (mix3 u v w a b c) (mix3 u v w a b c)
    = u * v * dot (vsub a b) (vsub a b) + v * w * dot (vsub b c) (vsub b c) + u * w * dot (vsub a c) (vsub a c)).
  { subst w. destruct a, b, c. coords. ring. }
  assert (N1 := dot_nonneg (vsub a b)). assert (N2 := dot_nonneg (vsub b c)). assert (N3 := dot_nonneg (vsub a c)).
  assert (0 <= u * v * dot (vsub a b) (vsub a b)) by (repeat apply Rmult_le_pos; auto).
  assert (0 <= v * w * dot (vsub b c) (vsub b c)) by (repeat apply Rmult_le_pos; auto).
  assert (0 <= u * w * dot (vsub a c) (vsub a c)) by (repeat apply Rmult_le_pos; auto).
  assert (u * dot a a + v * dot b b + w * dot c c < m).
  { assert (G : m - (u * dot a a + v * dot b b + w * dot c c) = u * (m - dot a a) + v * (m - dot b b) + w * (m - dot c c)) by (rewrite E; ring).
    assert (0 <= u * (m - dot a a)) by (apply Rmult_le_pos; to_R; lra). assert (0 <= v * (m - dot b b)) by (apply Rmult_le_pos; to_R; lra).
    assert (0 <= w * (m - dot c c)) by (apply Rmult_le_pos; to_R; lra).
    destruct (Rle_lt_or_eq_dec 0 u U) as [Pu|Zu]; [assert (0 < u * (m - dot a a)) by (apply Rmult_lt_0_compat; to_R; lra); to_R; lra|].
    destruct (Rle_lt_or_eq_dec 0 v V) as [Pv|Zv]; [assert (0 < v * (m - dot b b)) by (apply Rmult_lt_0_compat; to_R; lra); to_R; lra|].
    assert (0 < w * (m - dot c c)) by (apply Rmult_lt_0_compat; to_R; lra). to_R. lra. }
  to_R. lra.
Qed.

(** Separation by a direction: if x.y >= k >= 0 with x.x <= k' ... *)
Lemma separated (x y : point) (k m : R) : 0 <= k -> k <= dot x y -> m * dot x x <= k * k -> 0 < dot x x -> m <= dot y y.
Proof.
  intros K H M P. assert (C := cauchy_sq x y). assert (k * k <= dot x y * dot x y) by (apply Rmult_le_compat; auto).
  apply Rmult_le_reg_r with (dot x x); [exact P|]. to_R. lra.
Qed.

(** ** The nearest point of a triangle *)
Definition clamp (q h : R) : R := Rmax 0 (Rmin q h).
Lemma clamp_range q h : 0 <= h -> 0 <= clamp q h <= h.
Proof. intros H. unfold clamp. split; [apply Rmax_l|]. apply Rmax_lub; [exact H|apply Rmin_r]. Qed.
Lemma clamp_best k b h t : 0 < k -> 0 <= h -> 0 <= t <= h -> k * (clamp (- b / k) h * clamp (- b / k) h) + 2 * b * clamp (- b / k) h <= k * (t * t) + 2 * b * t.
Proof.
  intros K H T. set (c := clamp (- b / k) h).
  assert (E : k * (t * t) + 2 * b * t - (k * (c * c) + 2 * b * c) = k * ((t - c) * (t - c)) + 2 * ((t - c) * (k * c + b))) by ring.
  assert (0 <= k * ((t - c) * (t - c))) by (apply Rmult_le_pos; [lra|apply Rle_0_sqr]).
  assert (Q : k * (- b / k) = - b) by (field; lra).
  assert (0 <= (t - c) * (k * c + b)).
  { unfold c, clamp. unfold Rmin. destruct (Rle_dec (- b / k) h) as [L|L].
    - unfold Rmax. destruct (Rle_dec 0 (- b / k)) as [M|M].
      + rewrite Q. replace (- b + b) with 0 by ring. lra.
      + apply Rnot_le_lt in M. apply Rmult_lt_compat_l with (r := k) in M; [|exact K]. rewrite Q in M. apply Rmult_le_pos; lra.
    - apply Rnot_le_lt in L. apply Rmult_lt_compat_l with (r := k) in L; [|exact K]. rewrite Q in L. rewrite Rmax_right by exact H.
      replace ((t - h) * (k * h + b)) with ((h - t) * (- (k * h + b))) by ring. apply Rmult_le_pos; lra. }
  lra.
Qed.
Lemma max_formula a b : Rmax a b = (a + b + Rabs (a - b)) / 2.
Proof. unfold Rmax. destruct (Rle_dec a b); [rewrite Rabs_left1 by lra|rewrite Rabs_pos_eq by lra]; field. Qed.
Lemma min_formula a b : Rmin a b = (a + b - Rabs (a - b)) / 2.
Proof. unfold Rmin. destruct (Rle_dec a b); [rewrite Rabs_left1 by lra|rewrite Rabs_pos_eq by lra]; field. Qed.
Lemma cont_abs (f : R -> R) x : continuity_pt f x -> continuity_pt (fun y => Rabs (f y)) x.
Proof. intros H. apply (continuity_pt_comp f Rabs); [exact H|]. apply Rcontinuity_abs. Qed.
Lemma cont_ext (f g : R -> R) x : (forall y, f y = g y) -> continuity_pt f x -> continuity_pt g x.
Proof. intros E H eps P. destruct (H eps P) as (a & A & Q). exists a. split; [exact A|]. intros y Y. rewrite <- !E. auto. Qed.
Lemma cont_clamp (f g : R -> R) x : continuity_pt f x -> continuity_pt g x -> continuity_pt (fun y => clamp (f y) (g y)) x.
Proof.
  intros F G.
  assert (D : continuity_pt (fun y => (f y - g y)) x) by (apply (continuity_pt_minus f g); assumption). apply cont_abs in D.
  assert (M : continuity_pt (fun y => Rmin (f y) (g y)) x).
  { apply cont_ext with (f := fun y => (f y + g y - Rabs (f y - g y)) * / 2); [intros; now rewrite min_formula|].
    apply (continuity_pt_mult (fun y => f y + g y - Rabs (f y - g y)) (fun _ => / 2)); [|apply continuity_pt_const; intros ? ?; reflexivity].
    apply (continuity_pt_minus (fun y => f y + g y) (fun y => Rabs (f y - g y))); [|exact D]. apply (continuity_pt_plus f g); assumption. }
  assert (D' : continuity_pt (fun y => Rabs (0 - Rmin (f y) (g y))) x).
  { apply cont_abs. apply (continuity_pt_minus (fun _ => 0) (fun y => Rmin (f y) (g y))); [apply continuity_pt_const; intros ? ?; reflexivity|exact M]. }
  apply cont_ext with (f := fun y => (0 + Rmin (f y) (g y) + Rabs (0 - Rmin (f y) (g y))) * / 2); [intros; unfold clamp; now rewrite max_formula|].
  apply (continuity_pt_mult (fun y => 0 + Rmin (f y) (g y) + Rabs (0 - Rmin (f y) (g y))) (fun _ => / 2)); [|apply continuity_pt_const; intros ? ?; reflexivity].
  apply (continuity_pt_plus (fun y => 0 + Rmin (f y) (g y)) (fun y => Rabs (0 - Rmin (f y) (g y)))); [|exact D'].
  apply (continuity_pt_plus (fun _ => 0) (fun y => Rmin (f y) (g y))); [apply continuity_pt_const; intros ? ?; reflexivity|exact M].
Qed.

Lemma nearest_point (a b c : point) : 0 < dot (vsub c a) (vsub c a) -> exists u v w, 0 <= u /\ 0 <= v /\ 0 <= w /\ u + v + w = 1 /\
  forall u' v' w', 0 <= u' -> 0 <= v' -> 0 <= w' -> u' + v' + w' = 1 ->
    dot (mix3 u v w a b c) (mix3 u v w a b c) <= dot (mix3 u' v' w' a b c) (mix3 u' v' w' a b c).
Proof.
  intros K. set (e := vsub b a) in *. set (f := vsub c a) in *.
  set (k := dot f f) in *. set (p := fun s => dot a a + 2 * s * dot a e + s * s * dot e e). set (q := fun s => dot a f + s * dot e f).
  assert (E : forall u v w, u + v + w = 1 -> dot (mix3 u v w a b c) (mix3 u v w a b c) = p v + (k * (w * w) + 2 * q v * w)).
  { intros u v w S. assert (Eu : u = 1 - v - w) by lra. subst u. unfold p, q, k, e, f. destruct a, b, c. coords. ring. }
  set (t := fun s => clamp (- q s / k) (1 - s)).
  assert (Kz : k <> 0) by (intros Z; rewrite Z in K; exact (Rlt_irrefl _ K)).
  destruct (continuity_ab_min (fun s => p s + (k * (t s * t s) + 2 * q s * t s)) 0 1) as (s & M & S).
  { apply Rle_0_1. }
  { intros s _.
    assert (Cq : continuity_pt q s) by (unfold q; reg). assert (Cp : continuity_pt p s) by (unfold p; reg).
    assert (Ct : continuity_pt t s).
    { unfold t. apply (cont_clamp (fun s => - q s / k) (fun s => 1 - s)); [|reg]. 
      apply cont_ext with (f := fun s => q s * (- / k)); [intros; field; exact Kz|].
      apply (continuity_pt_mult q (fun _ => - / k)); [exact Cq|apply continuity_pt_const; intros ? ?; reflexivity]. }
    apply (continuity_pt_plus p (fun s => k * (t s * t s) + 2 * q s * t s)); [exact Cp|].
    apply (continuity_pt_plus (fun s => k * (t s * t s)) (fun s => 2 * q s * t s)).
    - apply (continuity_pt_mult (fun _ => k) (fun s => t s * t s)); [apply continuity_pt_const; intros ? ?; reflexivity|]. apply (continuity_pt_mult t t); exact Ct.
    - apply (continuity_pt_mult (fun s => 2 * q s) t); [|exact Ct]. apply (continuity_pt_mult (fun _ => 2) q); [apply continuity_pt_const; intros ? ?; reflexivity|exact Cq]. }
  assert (Hs : 0 <= 1 - s) by lra. destruct (clamp_range (- q s / k) (1 - s) Hs) as (T0 & T1). fold (t s) in T0, T1.
  exists (1 - s - t s), s, (t s). split; [lra|]. split; [lra|]. split; [exact T0|]. split; [ring|].
  intros u' v' w' U V W S'. rewrite !E by lra.
  eapply Rle_trans; [apply (M v'); lra|]. cbv beta. apply Rplus_le_compat_l. unfold t.
  apply (clamp_best k (q v') (1 - v') w'); [exact K|lra|lra].
Qed.

(** ... it makes an angle of at least 90 degrees with the directions to the corners. *)
Lemma Rmult_pos_neg x y : 0 < x -> y < 0 -> x * y < 0.
Proof. intros X Y. assert (0 < x * - y) by (apply Rmult_lt_0_compat; lra). lra. Qed.
Lemma variational (g k : R) : 0 <= k -> (forall l, 0 < l <= 1 -> 0 <= 2 * l * g + l * l * k) -> 0 <= g.
Proof.
  intros K H. destruct (Rle_lt_dec 0 g) as [G|G]; [exact G|]. exfalso.
  assert (D : 0 < k - g) by lra. set (l := - g / (k - g)).
  assert (L0 : 0 < l) by (apply Rmult_lt_0_compat; [lra|now apply Rinv_0_lt_compat]).
  assert (L1 : l * (k - g) = - g) by (unfold l; field; lra).
  assert (L2 : l <= 1). { apply Rmult_le_reg_r with (k - g); lra. }
  specialize (H l (conj L0 L2)). assert (Lk : l * k = - g + l * g) by lra.
  assert (E : 2 * l * g + l * l * k = l * (g + l * g)) by (replace (l * l * k) with (l * (l * k)) by ring; rewrite Lk; ring).
  rewrite E in H. assert (l * g < 0) by (apply Rmult_pos_neg; lra).
  assert (l * (g + l * g) < 0) by (apply Rmult_pos_neg; lra). lra.
Qed.
Lemma nearest_angles (a b c : point) : 0 < dot (vsub c a) (vsub c a) -> exists u v w, let y := mix3 u v w a b c in
  0 <= u /\ 0 <= v /\ 0 <= w /\ u + v + w = 1 /\ 0 <= dot y (vsub a y) /\ 0 <= dot y (vsub b y) /\ 0 <= dot y (vsub c y) /\
  u * dot y (vsub a y) + v * dot y (vsub b y) + w * dot y (vsub c y) = 0.
Proof.
  intros K. destruct (nearest_point a b c K) as (u & v & w & U & V & W & S & M). exists u, v, w. cbv zeta.
  assert (X : forall u' v' w', 0 <= u' -> 0 <= v' -> 0 <= w' -> u' + v' + w' = 1 -> 
    0 <= dot (mix3 u v w a b c) (vsub (mix3 u' v' w' a b c) (mix3 u v w a b c))).
  { intros u' v' w' U' V' W' S'. set (y := mix3 u v w a b c) in *. set (z := mix3 u' v' w' a b c).
    apply variational with (k := dot (vsub z y) (vsub z y)); [apply dot_nonneg|]. intros l (L0 & L1).
    specialize (M ((1 - l) * u + l * u') ((1 - l) * v + l * v') ((1 - l) * w + l * w')).
    assert (P : forall x x', 0 <= x -> 0 <= x' -> 0 <= (1 - l) * x + l * x') by (intros; apply Rplus_le_le_0_compat; apply Rmult_le_pos; lra).
    specialize (M (P _ _ U U') (P _ _ V V') (P _ _ W W')).
    assert (Es : (1 - l) * u + l * u' + ((1 - l) * v + l * v') + ((1 - l) * w + l * w') = 1).
    { transitivity ((1 - l) * (u + v + w) + l * (u' + v' + w')); [ring|]. rewrite S, S'. ring. }
    specialize (M Es). replace (mix3 ((1 - l) * u + l * u') _ _ a b c) with (vadd y (vscale (N:=RN) l (vsub z y))) in M by (unfold y, z, mix3, mix2; vring).
    clearbody y z. assert (E : dot (vadd y (vscale (N:=RN) l (vsub z y))) (vadd y (vscale (N:=RN) l (vsub z y))) = dot y y + (2 * l * dot y (vsub z y) + l * l * dot (vsub z y) (vsub z y))) by (destruct y, z; coords; ring).
    rewrite E in M. to_R. lra. }
  repeat (split; [assumption|]).
  assert (Ea : a = mix3 1 0 0 a b c) by (unfold mix3, mix2; vring). assert (Eb : b = mix3 0 1 0 a b c) by (unfold mix3, mix2; vring). assert (Ec : c = mix3 0 0 1 a b c) by (unfold mix3, mix2; vring).
  assert (Xa : 0 <= dot (mix3 u v w a b c) (vsub (mix3 1 0 0 a b c) (mix3 u v w a b c))) by (apply X; lra). rewrite <- Ea in Xa.
  assert (Xb : 0 <= dot (mix3 u v w a b c) (vsub (mix3 0 1 0 a b c) (mix3 u v w a b c))) by (apply X; lra). rewrite <- Eb in Xb.
  assert (Xc : 0 <= dot (mix3 u v w a b c) (vsub (mix3 0 0 1 a b c) (mix3 u v w a b c))) by (apply X; lra). rewrite <- Ec in Xc.
  split; [exact Xa|]. split; [exact Xb|]. split; [exact Xc|].
  assert (Ew : w = 1 - u - v) by lra. subst w. destruct a, b, c. coords. ring.
Qed.

(** ** The triangle test, relative to the centre of the sphere *)
Lemma edge_spec rr (u v w : point) : 0 < dot (vsub v u) (vsub v u) -> exists q : point,
  q = mix2 (1 - dot (vsub (v3 (N:=RN) 0 0 0) u) (vsub v u) / dot (vsub v u) (vsub v u)) (dot (vsub (v3 (N:=RN) 0 0 0) u) (vsub v u) / dot (vsub v u) (vsub v u)) u v /\
  dot q u = dot q q /\ dot q v = dot q q /\
  (edge_separates (N:=RN) rr u v w = true <-> rr < dot q q /\ dot q q < dot q w).
Proof.
  intros K. set (t := dot (vsub (v3 (N:=RN) 0 0 0) u) (vsub v u) / dot (vsub v u) (vsub v u)).
  assert (E : t * dot (vsub v u) (vsub v u) = - dot u (vsub v u)).
  { unfold t, Rdiv. rewrite Rmult_assoc, Rinv_l by (to_R; lra). destruct u, v. coords. ring. }
  exists (mix2 (1 - t) t u v). split; [reflexivity|]. set (q := mix2 (1 - t) t u v).
  assert (Q : dot q (vsub v u) = 0).
  { unfold q. transitivity (dot u (vsub v u) + t * dot (vsub v u) (vsub v u)); [destruct u, v; coords; ring|]. rewrite E. apply Rplus_opp_r. }
  assert (Qu : dot q u = dot q q).
  { assert (H : dot q q - dot q u = t * dot q (vsub v u)) by (unfold q; destruct u, v; coords; ring). rewrite Q in H. to_R. lra. }
  assert (Qv : dot q v = dot q q).
  { assert (H : dot q v - dot q u = dot q (vsub v u)) by (destruct q, u, v; coords; ring). rewrite Q in H. to_R. lra. }
  split; [exact Qu|]. split; [exact Qv|]. unfold edge_separates. fold t.
  change (vdot (vsub (v3 (N:=RN) 0 0 0) u) (vsub v u) / vdot (vsub v u) (vsub v u))%num with t.
  cbv zeta. match goal with |- context [vsub (N:=RN) w ?x] => replace x with q by (unfold q, mix2; to_R; vring) end.
  assert (E1 : dot (vsub (v3 (N:=RN) 0 0 0) q) (vsub (v3 (N:=RN) 0 0 0) q) = dot q q) by (destruct q; coords; ring).
  assert (E2 : dot (vsub (v3 (N:=RN) 0 0 0) q) (vsub w q) = dot q q - dot q w) by (destruct q, w; coords; ring).
  change (ofZ (n:=RN) 0) with 0 in *. rewrite E1, E2. rewrite Bool.andb_true_iff. to_R. rewrite !Rltb_true. split; intros (H1 & H2); split; lra.
Qed.

Definition wide (a b c : point) : Prop := vcross (vsub b a) (vsub c a) <> v3 (N:=RN) 0 0 0.
Lemma wide_edges a b c : wide a b c -> 0 < dot (vsub b a) (vsub b a) /\ 0 < dot (vsub c b) (vsub c b) /\ 0 < dot (vsub a c) (vsub a c) /\ 0 < dot (vsub c a) (vsub c a).
Proof.
  intros W. assert (P : 0 < dot (vcross (vsub b a) (vsub c a)) (vcross (vsub b a) (vsub c a))) by now apply vdot_pos.
  assert (X : forall p q : point, p = q -> vsub p q = v3 (N:=RN) 0 0 0) by (intros p q ->; unfold vsub; vring).
  assert (D : forall p q : point, vsub p q = v3 (N:=RN) 0 0 0 -> p = q).
  { intros p q H. pose proof (f_equal (fun x : point => vx x : R) H) as H1. pose proof (f_equal (fun x : point => vy x : R) H) as H2. pose proof (f_equal (fun x : point => vz x : R) H) as H3.
    cbn in *. apply vext; lra. }
  repeat split; apply vdot_pos; intros Z; apply D in Z; subst; apply W; unfold vsub, vcross; vring.
Qed.

Section Triangle.
  Variables (a b c : point) (rr : R).
  Hypothesis W : wide a b c.
  Let n := vcross (vsub b a) (vsub c a).

  Lemma plane_const u v w : u + v + w = 1 -> dot n (mix3 u v w a b c) = dot a n.
  Proof. intros S. assert (E : w = 1 - u - v) by lra. subst w. unfold n. destruct a, b, c. coords. ring. Qed.

  Lemma outside_plane u v w : 0 <= rr -> u + v + w = 1 -> rr < dot a n * dot a n / dot n n -> rr <= dot (mix3 u v w a b c) (mix3 u v w a b c).
  Proof.
    intros Rr S H. assert (P : 0 < dot n n) by now apply vdot_pos. assert (C := cauchy_sq n (mix3 u v w a b c)). rewrite plane_const in C by exact S.
    apply Rmult_le_reg_r with (dot n n); [exact P|].
    assert (rr * dot n n < dot a n * dot a n).
    { apply Rmult_lt_compat_r with (r := dot n n) in H; [|exact P]. unfold Rdiv in H. rewrite Rmult_assoc, Rinv_l, Rmult_1_r in H by (to_R; lra). exact H. }
    to_R. lra.
  Qed.
  Lemma outside_direction (x : point) u v w : 0 <= u -> 0 <= v -> 0 <= w -> u + v + w = 1 ->
    rr <= dot x x -> dot x x <= dot x a -> dot x x <= dot x b -> dot x x <= dot x c -> rr <= dot (mix3 u v w a b c) (mix3 u v w a b c).
  Proof.
    intros U V Wn S R1 Ha Hb Hc. destruct (Rle_lt_or_eq_dec 0 _ (dot_nonneg x)) as [P|Z].
    - apply separated with (x := x) (k := dot x x); [apply dot_nonneg| |now apply Rmult_le_compat_r; [apply dot_nonneg|]|exact P].
      rewrite dot_mix3. assert (E : u * dot x x + v * dot x x + w * dot x x = dot x x) by (transitivity ((u + v + w) * dot x x); [ring|rewrite S; apply Rmult_1_l]).
      rewrite <- E at 1. repeat apply Rplus_le_compat; now apply Rmult_le_compat_l.
    - eapply Rle_trans; [exact R1|]. rewrite <- Z. apply dot_nonneg.
  Qed.

  (** No test fires: the nearest point is in the sphere. *)
  Lemma nothing_separates : dot a n * dot a n / dot n n <= rr ->
    ~ (dot a a < dot a b /\ dot a a < dot a c) -> ~ (dot b b < dot a b /\ dot b b < dot b c) -> ~ (dot c c < dot a c /\ dot c c < dot b c) ->
    edge_separates (N:=RN) rr a b c = false -> edge_separates (N:=RN) rr b c a = false -> edge_separates (N:=RN) rr c a b = false ->
    exists u v w, 0 <= u /\ 0 <= v /\ 0 <= w /\ u + v + w = 1 /\ dot (mix3 u v w a b c) (mix3 u v w a b c) <= rr.
  Proof.
    intros Hp Ha Hb Hc Eab Ebc Eca. destruct (wide_edges a b c W) as (Kab & Kbc & Kca & Kac).
    destruct (nearest_angles a b c Kac) as (u & v & w & U & V & Wn & S & A & B & C & Z). exists u, v, w. repeat (split; [assumption|]).
    set (y := mix3 u v w a b c) in *.
    assert (D : forall x : point, dot y (vsub x y) = dot y x - dot y y) by (intros x; destruct x, y; coords; ring).
    assert (Zu : u * dot y (vsub a y) = 0 /\ v * dot y (vsub b y) = 0 /\ w * dot y (vsub c y) = 0).
    { assert (0 <= u * dot y (vsub a y)) by now apply Rmult_le_pos. assert (0 <= v * dot y (vsub b y)) by now apply Rmult_le_pos. assert (0 <= w * dot y (vsub c y)) by now apply Rmult_le_pos. to_R. repeat split; lra. }
    destruct Zu as (Za & Zb & Zc). rewrite !D in *.
    (* an edge *)
    assert (Edge : forall (p q r : point) (k : R), 0 < dot (vsub q p) (vsub q p) -> edge_separates (N:=RN) rr p q r = false -> y = mix2 (1 - k) k p q -> dot y p = dot y y -> dot y q = dot y y -> dot y y < dot y r -> dot y y <= rr).
    { intros p q r k K E Ey Y1 Y2 Y3. destruct (edge_spec rr p q r K) as (f & Ef & F1 & F2 & Fs).
      assert (Yf : f = y).
      { rewrite Ef, Ey. set (t := dot (vsub (v3 (N:=RN) 0 0 0) p) (vsub q p) / dot (vsub q p) (vsub q p)). replace t with k; [reflexivity|].
        apply Rmult_eq_reg_r with (dot (vsub q p) (vsub q p)); [|to_R; lra]. unfold t, Rdiv. rewrite Rmult_assoc, Rinv_l, Rmult_1_r by (to_R; lra).
        assert (G : dot y (vsub q p) = 0). { transitivity (dot y q - dot y p); [destruct y, q, p; coords; ring|]. rewrite Y1, Y2. apply Rminus_diag_eq. reflexivity. }
        assert (G' : dot y (vsub q p) = dot p (vsub q p) + k * dot (vsub q p) (vsub q p)) by (rewrite Ey; destruct q, p; coords; ring).
        assert (G2 : dot (vsub (v3 (N:=RN) 0 0 0) p) (vsub q p) = - dot p (vsub q p)) by (destruct q, p; coords; ring).
        rewrite G2. to_R. lra. }
      rewrite Yf in *. destruct (Rle_lt_dec (dot y y) rr) as [L|L]; [exact L|]. exfalso.
      assert (edge_separates (N:=RN) rr p q r = true) by (apply Fs; split; assumption). congruence. }
    destruct (Rle_lt_or_eq_dec 0 _ A) as [Pa|Qa]; destruct (Rle_lt_or_eq_dec 0 _ B) as [Pb|Qb]; destruct (Rle_lt_or_eq_dec 0 _ C) as [Pc|Qc].
    - exfalso. assert (u = 0) by (eapply Rmult_eq_reg_r; [rewrite Rmult_0_l; exact Za|to_R; lra]). assert (v = 0) by (eapply Rmult_eq_reg_r; [rewrite Rmult_0_l; exact Zb|to_R; lra]).
      assert (w = 0) by (eapply Rmult_eq_reg_r; [rewrite Rmult_0_l; exact Zc|to_R; lra]). lra.
    - exfalso. assert (Eu : u = 0) by (eapply Rmult_eq_reg_r; [rewrite Rmult_0_l; exact Za|to_R; lra]). assert (Ev : v = 0) by (eapply Rmult_eq_reg_r; [rewrite Rmult_0_l; exact Zb|to_R; lra]).
      assert (Ey : y = c) by (unfold y; rewrite Eu, Ev; replace w with 1 by lra; unfold mix3, mix2; vring). rewrite Ey in *. apply Hc. rewrite (dot_comm a c), (dot_comm b c). to_R. split; lra.
    - exfalso. assert (Eu : u = 0) by (eapply Rmult_eq_reg_r; [rewrite Rmult_0_l; exact Za|to_R; lra]). assert (Ew : w = 0) by (eapply Rmult_eq_reg_r; [rewrite Rmult_0_l; exact Zc|to_R; lra]).
      assert (Ey : y = b) by (unfold y; rewrite Eu, Ew; replace v with 1 by lra; unfold mix3, mix2; vring). rewrite Ey in *. apply Hb. rewrite (dot_comm a b). to_R. split; lra.
    - assert (Eu : u = 0) by (eapply Rmult_eq_reg_r; [rewrite Rmult_0_l; exact Za|to_R; lra]).
      apply (Edge b c a w); auto; [unfold y; rewrite Eu; replace v with (1 - w) by lra; unfold mix3, mix2; vring| | |]; to_R; lra.
    - exfalso. assert (Ev : v = 0) by (eapply Rmult_eq_reg_r; [rewrite Rmult_0_l; exact Zb|to_R; lra]). assert (Ew : w = 0) by (eapply Rmult_eq_reg_r; [rewrite Rmult_0_l; exact Zc|to_R; lra]).
      assert (Ey : y = a) by (unfold y; rewrite Ev, Ew; replace u with 1 by lra; unfold mix3, mix2; vring). rewrite Ey in *. apply Ha. to_R. split; lra.
    - assert (Ev : v = 0) by (eapply Rmult_eq_reg_r; [rewrite Rmult_0_l; exact Zb|to_R; lra]).
      apply (Edge c a b u); auto; [unfold y; rewrite Ev; replace w with (1 - u) by lra; unfold mix3, mix2; vring| | |]; to_R; lra.
    - assert (Ew : w = 0) by (eapply Rmult_eq_reg_r; [rewrite Rmult_0_l; exact Zc|to_R; lra]).
      apply (Edge a b c v); auto; [unfold y; rewrite Ew; replace u with (1 - v) by lra; unfold mix3, mix2; vring| | |]; to_R; lra.
    - assert (P : 0 < dot n n) by now apply vdot_pos.
      assert (E : dot n n * dot y y = dot a n * dot a n).
      { assert (Yb : dot y (vsub b a) = 0) by (transitivity (dot y b - dot y a); [destruct y, a, b; coords; ring|to_R; lra]).
        assert (Yc : dot y (vsub c a) = 0) by (transitivity (dot y c - dot y a); [destruct y, a, c; coords; ring|to_R; lra]).
        assert (Yn : dot n y = dot a n) by (apply plane_const; exact S).
        assert (L : forall y e f : point, dot (vcross e f) (vcross e f) * dot y y = dot (vcross e f) y * dot (vcross e f) y
          + dot y e * (dot f f * dot y e - dot e f * dot y f) + dot y f * (dot e e * dot y f - dot e f * dot y e)) by (clear; intros y e f; destruct y, e, f; coords; ring).
        unfold n at 1 2. rewrite L, Yb, Yc. fold n. rewrite Yn. ring. }
      apply Rmult_le_reg_l with (dot n n); [exact P|]. rewrite E.
      apply Rmult_le_compat_r with (r := dot n n) in Hp; [|apply Rlt_le; exact P]. unfold Rdiv in Hp. rewrite Rmult_assoc, Rinv_l, Rmult_1_r in Hp by (to_R; lra).
      to_R. lra.
  Qed.
End Triangle.
