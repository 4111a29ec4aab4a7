(** * C44 volumes and centroids of tetrahedra and hexahedra; C56 largest distance to a node *)
From Coq Require Import Reals Lra Permutation SpecFloat.
From Coquelicot Require Import Coquelicot.
From Verif Require Import Base Num ModelGeom SpecGeom ProofGlobal ProofGeom ProofGeom2 ProofGeom3.
Local Open Scope R_scope.

(** The volume of a tetrahedron is returned if its nodes are ordered correctly, an inverted
    tetrahedron is reported. *)
Theorem C44_tetrahedron e v :
  (tet_volume e = Ok v <-> 0 <= oriented_volume (t0 e) (t1 e) (t2 e) (t3 e) /\ v = oriented_volume (t0 e) (t1 e) (t2 e) (t3 e)) /\
  (tet_volume e = Err <-> oriented_volume (t0 e) (t1 e) (t2 e) (t3 e) < 0).
Proof. split; [|apply tet_err]. rewrite tet_ok. split; [intros (-> & H); auto|intros (H & ->); auto]. Qed.

(** ... it is a third of the area of the base times the height ... *)
Theorem C44_tetrahedron_base_height e v h :
  tet_volume e = Ok v -> height (t0 e) (t1 e) (t2 e) (t3 e) h -> 0 <= v /\ v = area (t0 e) (t1 e) (t2 e) * h / 3.
Proof. intros E H. split; [now apply tet_ok in E|now apply base_height]. Qed.
Theorem C44_tetrahedron_has_height e : proper_triangle (t0 e) (t1 e) (t2 e) -> exists h, height (t0 e) (t1 e) (t2 e) (t3 e) h.
Proof. intros H. eexists. now apply height_exists. Qed.

(** ... it is additive: cut by a plane through one edge, the volumes of the two parts, which share
    a face, add up; cut at a point inside, the volumes of the four parts add up ... *)
Theorem C44_tetrahedron_additive p q r t (s v : R) : 0 <= s <= 1 -> tet_volume (N:=RN) (tet p q r t) = Ok v ->
  let m := mix2 (1 - s) s r t in
  exists v1 v2, tet_volume (tet p q r m) = Ok v1 /\ tet_volume (tet p q m t) = Ok v2 /\ v1 + v2 = v.
Proof.
  intros S H. apply tet_ok in H as (H & P). cbn [t0 t1 t2 t3] in H. cbv zeta. destruct (tet_cut p q r t s) as (E1 & E2).
  exists (s * v), ((1 - s) * v). repeat split.
  - apply tet_ok. cbn [t0 t1 t2 t3]. rewrite E1, <- H. split; [reflexivity|]. apply Rmult_le_pos; [apply S|exact P].
  - apply tet_ok. cbn [t0 t1 t2 t3]. rewrite E2, <- H. split; [reflexivity|]. apply Rmult_le_pos; [lra|exact P].
  - ring.
Qed.
Theorem C44_tetrahedron_split p q r t y v : tet_volume (N:=RN) (tet p q r t) = Ok v -> in_tet (tet p q r t) y ->
  exists v1 v2 v3 v4, tet_volume (tet y q r t) = Ok v1 /\ tet_volume (tet p y r t) = Ok v2 /\
    tet_volume (tet p q y t) = Ok v3 /\ tet_volume (tet p q r y) = Ok v4 /\ v1 + v2 + v3 + v4 = v.
Proof.
  intros H (a & b & c & d & A & B & C & D & S & E). cbn [t0 t1 t2 t3] in E. apply tet_ok in H as (H & P). cbn [t0 t1 t2 t3] in H.
  assert (Ed : a = 1 - b - c - d) by lra.
  assert (E1 : oriented_volume y q r t = a * v) by (rewrite H, E, Ed; unfold oriented_volume; destruct p, q, r, t; coords; field).
  assert (E2 : oriented_volume p y r t = b * v) by (rewrite H, E, Ed; unfold oriented_volume; destruct p, q, r, t; coords; field).
  assert (E3 : oriented_volume p q y t = c * v) by (rewrite H, E, Ed; unfold oriented_volume; destruct p, q, r, t; coords; field).
  assert (E4 : oriented_volume p q r y = d * v) by (rewrite H, E, Ed; unfold oriented_volume; destruct p, q, r, t; coords; field).
  exists (a * v), (b * v), (c * v), (d * v).
  split; [apply tet_ok; cbn [t0 t1 t2 t3]; rewrite E1; split; [reflexivity|now apply Rmult_le_pos]|].
  split; [apply tet_ok; cbn [t0 t1 t2 t3]; rewrite E2; split; [reflexivity|now apply Rmult_le_pos]|].
  split; [apply tet_ok; cbn [t0 t1 t2 t3]; rewrite E3; split; [reflexivity|now apply Rmult_le_pos]|].
  split; [apply tet_ok; cbn [t0 t1 t2 t3]; rewrite E4; split; [reflexivity|now apply Rmult_le_pos]|].
  transitivity ((a + b + c + d) * v); [ring|]. rewrite S. apply Rmult_1_l.
Qed.

(** ... and it does not change when the element is moved; the centroid, the mean of the nodes,
    moves with the element. *)
Theorem C44_tetrahedron_translation e d :
  tet_volume (shift_tet e d) = tet_volume e /\ tet_centroid (shift_tet e d) = vadd (tet_centroid e) d /\
  tet_centroid e = mix4 (/ 4) (/ 4) (/ 4) (/ 4) (t0 e) (t1 e) (t2 e) (t3 e) /\ in_tet e (tet_centroid e).
Proof.
  assert (E : tet_centroid e = mix4 (/ 4) (/ 4) (/ 4) (/ 4) (t0 e) (t1 e) (t2 e) (t3 e)) by (unfold tet_centroid, mix4, mix3, mix2; vfield).
  split; [apply tet_shift|]. split; [unfold tet_centroid, shift_tet; cbn [t0 t1 t2 t3]; vfield|]. split; [exact E|].
  exists (/ 4), (/ 4), (/ 4), (/ 4). rewrite E. repeat split; lra.
Qed.


(** What is stored for a tetrahedral element: the mean of its nodes and its volume, or a refusal. *)
Theorem C44_tetrahedron_stored (e : tetra RN) m (v : R) :
  (tet_centroid_and_volume (N:=RN) e = Ok (m, v) <->
     0 <= oriented_volume (t0 e) (t1 e) (t2 e) (t3 e) /\ v = oriented_volume (t0 e) (t1 e) (t2 e) (t3 e) /\
     m = mix4 (/ 4) (/ 4) (/ 4) (/ 4) (t0 e) (t1 e) (t2 e) (t3 e)) /\
  (tet_centroid_and_volume e = Err <-> oriented_volume (t0 e) (t1 e) (t2 e) (t3 e) < 0).
Proof.
  destruct (C44_tetrahedron_translation e m) as (_ & _ & E & _). unfold tet_centroid_and_volume. rewrite E.
  destruct (tet_volume e) as [w| |] eqn:Q; cbn [bind].
  - apply tet_ok in Q as (Q & P). split; split.
    + intro H. injection H as <- <-. rewrite <- Q. auto.
    + intros (_ & -> & ->). now rewrite <- Q.
    + discriminate.
    + intro H. rewrite <- Q in H. exfalso. exact (Rlt_irrefl _ (Rle_lt_trans _ _ _ P H)).
  - apply tet_err in Q. split; split; try discriminate; auto.
    intros (P & _). exfalso. exact (Rlt_irrefl _ (Rle_lt_trans _ _ _ P Q)).
  - exfalso. rewrite tet_volume_eq in Q. destruct (Rltb _ 0); discriminate.
Qed.
Print Assumptions C44_tetrahedron_stored.

(** The volume of a hexahedron is that of the image of the unit cube under the trilinear map
    that takes its corners to the nodes ... *)
Theorem C44_hexahedron (h : hexa RN) v : hex_volume h = Ok v -> v = trilinear_volume h /\ 0 <= v.
Proof. apply hex_volume_ok. Qed.
(** (the Jacobian is made of the partial derivatives of the trilinear map) *)
Theorem C44_jacobian (h : hexa RN) x y z :
  (forall k, In k [vx; vy; vz] ->
    is_derive (fun x => k (trilinear h x y z)) x (k (trilinear_x h y z)) /\
    is_derive (fun y => k (trilinear h x y z)) y (k (trilinear_y h x z)) /\
    is_derive (fun z => k (trilinear h x y z)) z (k (trilinear_z h x y))) /\
  jacobian h x y z = det3 (trilinear_x h y z) (trilinear_y h x z) (trilinear_z h x y).
Proof.
  split; [|reflexivity]. intros k Hk. destruct h as [[? ? ?] [? ? ?] [? ? ?] [? ? ?] [? ? ?] [? ? ?] [? ? ?] [? ? ?]].
  destruct Hk as [<-|[<-|[<-|[]]]]; cbn; (split; [|split]); auto_derive; auto; ring.
Qed.

(** ... hexCentroidAndVolume returns the same volume ... *)
Theorem C44_hexahedron_both (h : hexa RN) m v : hex_centroid_and_volume h = Ok (m, v) -> hex_volume h = Ok v.
Proof.
  rewrite hex_both. destruct (hex_volume h); cbn [bind]; [|discriminate|discriminate]. cbv zeta. intros H. injection H as _ <-. reflexivity.
Qed.
Theorem C44_hexahedron_both_succeeds (h : hexa RN) v : hex_volume h = Ok v -> exists m, hex_centroid_and_volume h = Ok (m, v).
Proof. intros H. rewrite hex_both, H. cbn [bind]. cbv zeta. eexists. reflexivity. Qed.

(** ... it is reported as inverted exactly if one of the 24 tetrahedra spanned by the centre, a
    face centre and an edge of that face is inverted ... *)
Theorem C44_hexahedron_inverted (h : hexa RN) :
  (hex_volume h = Err <-> exists p q r, In (p, q, r) (hex_triangles h) /\ oriented_volume p q r (hex_centre h) < 0) /\
  (hex_volume h = Err \/ exists v, hex_volume h = Ok v).
Proof.
  split.
  - rewrite hex_err. split.
    + intros F. assert (E : Exists (fun t => ~ 0 <= part (hex_centre h) t) (hex_triangles h)).
      { apply neg_Forall_Exists_neg; [|exact F]. intros t. destruct (Rle_dec 0 (part (hex_centre h) t)); auto. }
      apply Exists_exists in E as ([[p q] r] & I & N). exists p, q, r. split; [exact I|]. apply Rnot_le_lt in N. exact N.
    + intros (p & q & r & I & N) F. rewrite Forall_forall in F. specialize (F _ I). unfold part in F. to_R. lra.
  - destruct (hex_fold_cases (hex_centre h) (hex_triangles h) (0 : T RN)) as [(v & E)|E]; [right; exists v; exact E|left; exact E].
Qed.

(** ... it is additive: a hexahedron cut between two opposite faces (any of the three pairs, see
    [renumber]) has the volume of its two parts, which share a face; and the total volume of a
    mesh depends only on its boundary: faces that occur twice, seen from either side and
    starting at any corner, do not contribute. *)
Theorem C44_hexahedron_additive (h : hexa RN) s v v1 v2 :
  hex_volume h = Ok v -> hex_volume (cut_lower s h) = Ok v1 -> hex_volume (cut_upper s h) = Ok v2 -> v1 + v2 = v.
Proof.
  intros H H1 H2. apply hex_volume_ok in H as (-> & _). apply hex_volume_ok in H1 as (-> & _). apply hex_volume_ok in H2 as (-> & _). apply cut_volume.
Qed.
Theorem C44_hexahedron_numbering (h : hexa RN) v w : hex_volume h = Ok v -> hex_volume (renumber h) = Ok w -> v = w.
Proof. intros H1 H2. apply hex_volume_ok in H1 as (-> & _). apply hex_volume_ok in H2 as (-> & _). symmetry. apply renumber_volume. Qed.
Theorem C44_mesh_volume hs vs boundary shared :
  Forall2 (fun h v => hex_volume h = Ok v) hs vs ->
  Permutation (flat_map faces hs) (boundary ++ flat_map (fun f => [fst f; Nat.iter (snd f) turn (reverse (fst f))]) shared) ->
  total vs = total (map flux4 boundary).
Proof.
  intros V P.
  assert (E : total vs = total (map flux4 (flat_map faces hs))).
  { clear P. induction V as [|h v hs vs H V IH]; [reflexivity|]. cbn [flat_map total]. rewrite map_app, total_app, IH. f_equal.
    apply hex_volume_ok in H as (-> & _). symmetry. apply face_sum_volume. }
  rewrite E, (total_perm _ _ (Permutation_map flux4 P)), map_app, total_app.
  assert (Z : forall l, total (map flux4 (flat_map (fun f => [fst f; Nat.iter (snd f) turn (reverse (fst f))]) l)) = 0).
  { induction l as [|[f k] l IH]; [reflexivity|]. cbn [flat_map map total app fst snd]. rewrite IH.
    assert (T : flux4 (Nat.iter k turn (reverse f)) = - flux4 f).
    { rewrite <- flux_reverse. induction k as [|k IHk]; [reflexivity|]. cbn [Nat.iter nat_rect]. rewrite flux_turn. exact IHk. }
    rewrite T. ring. }
  rewrite Z. ring.
Qed.

(** ... translations leave the volume alone and move the centroid, which lies in the convex hull
    of the nodes ... *)
Theorem C44_hexahedron_translation (h : hexa RN) d :
  hex_volume (shift_hex h d) = hex_volume h /\
  (forall m v, hex_centroid_and_volume h = Ok (m, v) -> 0 < v -> hex_centroid_and_volume (shift_hex h d) = Ok (vadd m d, v)).
Proof. split; [apply hex_volume_shift|intros; now apply hex_centroid_shift]. Qed.
Theorem C44_hexahedron_centroid (h : hexa RN) m (v : R) : hex_centroid_and_volume h = Ok (m, v) -> 0 < v -> hull (hex_nodes h) m.
Proof. apply hex_centroid_hull. Qed.

(** ... and parallelepipeds get their exact volume and centre; inverted ones are reported. *)
Theorem C44_parallelepiped o u v w :
  (0 < det3 u v w -> hex_centroid_and_volume (block o u v w) = Ok (vadd o (vscale (N:=RN) (/ 2) (vadd (vadd u v) w)), det3 u v w)) /\
  (0 <= det3 u v w -> hex_volume (block o u v w) = Ok (det3 u v w)) /\
  (det3 u v w < 0 -> hex_volume (block o u v w) = Err).
Proof. split; [apply block_centroid|]. split; [apply block_volume|apply block_inverted]. Qed.

(** A hexahedron can be refused although it is correctly oriented everywhere: the trilinear
    map of this one has a Jacobian of at least 11 in the whole cube, but one of the 24
    tetrahedra is inverted. *)
Definition twisted : hexa RN :=
  hex (v3 (N:=RN) 0 0 0) (v3 (N:=RN) 2 (-2) 1) (v3 (N:=RN) 2 2 0) (v3 (N:=RN) 1 4 (-1))
      (v3 (N:=RN) 2 (-2) 6) (v3 (N:=RN) 6 1 4) (v3 (N:=RN) 6 2 6) (v3 (N:=RN) 0 3 4).
Theorem C44_valid_hexahedron_refuted :
  hex_volume twisted = Err /\ forall x y z, 0 <= x <= 1 -> 0 <= y <= 1 -> 0 <= z <= 1 -> 11 <= jacobian twisted x y z.
Proof.
  split.
  - apply C44_hexahedron_inverted. exists (h5 twisted), (h6 twisted), (f1 twisted). split; [cbn [hex_triangles In]; tauto|].
    unfold oriented_volume, f1, hex_centre, f4, f5, face_centre, twisted. coords. lra.
  - intros x y z X Y Z.
    assert (E : jacobian twisted x y z - 11 * ((1 - x + x) * (1 - x + x) * ((1 - y + y) * (1 - y + y)) * ((1 - z + z) * (1 - z + z))) = (50 - 11) * ((1 - x) * (1 - x)) * ((1 - y) * (1 - y)) * ((1 - z) * (1 - z)) + (57 - 11) * ((1 - x) * (1 - x)) * ((1 - y) * (1 - y)) * (2 * z * (1 - z)) + (140 - 11) * ((1 - x) * (1 - x)) * ((1 - y) * (1 - y)) * (z * z) + (77 / 2 - 11) * ((1 - x) * (1 - x)) * (2 * y * (1 - y)) * ((1 - z) * (1 - z)) + (211 / 4 - 11) * ((1 - x) * (1 - x)) * (2 * y * (1 - y)) * (2 * z * (1 - z)) + (125 - 11) * ((1 - x) * (1 - x)) * (2 * y * (1 - y)) * (z * z) + (30 - 11) * ((1 - x) * (1 - x)) * (y * y) * ((1 - z) * (1 - z)) + (65 - 11) * ((1 - x) * (1 - x)) * (y * y) * (2 * z * (1 - z)) + (140 - 11) * ((1 - x) * (1 - x)) * (y * y) * (z * z) + (71 / 2 - 11) * (2 * x * (1 - x)) * ((1 - y) * (1 - y)) * ((1 - z) * (1 - z)) + (193 / 4 - 11) * (2 * x * (1 - x)) * ((1 - y) * (1 - y)) * (2 * z * (1 - z)) + (93 - 11) * (2 * x * (1 - x)) * ((1 - y) * (1 - y)) * (z * z) + (63 / 2 - 11) * (2 * x * (1 - x)) * (2 * y * (1 - y)) * ((1 - z) * (1 - z)) + (51 - 11) * (2 * x * (1 - x)) * (2 * y * (1 - y)) * (2 * z * (1 - z)) + (80 - 11) * (2 * x * (1 - x)) * (2 * y * (1 - y)) * (z * z) + (49 / 2 - 11) * (2 * x * (1 - x)) * (y * y) * ((1 - z) * (1 - z)) + (257 / 4 - 11) * (2 * x * (1 - x)) * (y * y) * (2 * z * (1 - z)) + (91 - 11) * (2 * x * (1 - x)) * (y * y) * (z * z) + (22 - 11) * (x * x) * ((1 - y) * (1 - y)) * ((1 - z) * (1 - z)) + (27 - 11) * (x * x) * ((1 - y) * (1 - y)) * (2 * z * (1 - z)) + (20 - 11) * (x * x) * ((1 - y) * (1 - y)) * (z * z) + (47 / 2 - 11) * (x * x) * (2 * y * (1 - y)) * ((1 - z) * (1 - z)) + (147 / 4 - 11) * (x * x) * (2 * y * (1 - y)) * (2 * z * (1 - z)) + (11 - 11) * (x * x) * (2 * y * (1 - y)) * (z * z) + (16 - 11) * (x * x) * (y * y) * ((1 - z) * (1 - z)) + (51 - 11) * (x * x) * (y * y) * (2 * z * (1 - z)) + (20 - 11) * (x * x) * (y * y) * (z * z)).
    { unfold jacobian, trilinear_x, trilinear_y, trilinear_z, comb8, twisted. coords. field. }
    assert (E1 : 11 * ((1 - x + x) * (1 - x + x) * ((1 - y + y) * (1 - y + y)) * ((1 - z + z) * (1 - z + z))) = 11) by ring.
    assert (0 <= 1 - x) by lra. assert (0 <= 1 - y) by lra. assert (0 <= 1 - z) by lra.
    destruct X as (X & _), Y as (Y & _), Z as (Z & _).
    apply Rminus_le. rewrite E1 in E. apply Rle_minus. apply Rminus_le_0. rewrite E.
    repeat apply Rplus_le_le_0_compat; repeat apply Rmult_le_pos; auto; lra.
Qed.

(** For an element without volume the centroid is not a number (0/0 in double precision). *)
Theorem C44_flat_element_centroid_refuted :
  match hex_centroid_and_volume (let o := v3 (N:=FN) (fofZ 1) (fofZ 1) (fofZ 1) in hex o o o o o o o o) with
  | Ok (m, v) => (vx m, v) = (S754_nan, S754_zero false)
  | _ => False
  end.
Proof. vm_compute. reflexivity. Qed.

(** The largest distance from a point to a node. *)
Lemma max_fold (point : point) nodes : forall a : R, let r := fold_left (fun m p => let d := dist2 p point in if ltb (n:=RN) m d then d else m) nodes a in
  a <= r /\ (forall p, In p nodes -> dist2 p point <= r) /\ (r = a \/ exists p, In p nodes /\ r = dist2 p point).
Proof.
  induction nodes as [|p nodes IH]; intros a; cbn [fold_left]; [repeat split; [apply Rle_refl|intros p []|now left]|].
  cbv zeta in *. destruct (IH (if ltb (n:=RN) a (dist2 p point) then dist2 p point else a)) as (A & B & C).
  set (r := fold_left _ _ _) in *. clearbody r. to_R. destruct (Rltb a (dist2 p point)) eqn:L; [apply Rltb_true in L|apply Rltb_false in L]; (split; [|split]).
  - eapply Rle_trans; [apply Rlt_le; exact L|exact A].
  - intros p' [<-|I]; [exact A|auto].
  - right. destruct C as [->|(p' & I & E)]; [exists p; split; [now left|reflexivity]|exists p'; split; [now right|exact E]].
  - exact A.
  - intros p' [<-|I]; [eapply Rle_trans; [exact L|exact A]|auto].
  - destruct C as [->|(p' & I & E)]; [now left|right; exists p'; split; [now right|exact E]].
Qed.
Theorem C56_largest_distance nodes (p : point) :
  (forall q, In q nodes -> distance q p <= max_distance nodes p) /\
  (nodes <> [] -> exists q, In q nodes /\ distance q p = max_distance nodes p) /\
  (nodes = [] -> max_distance nodes p = 0).
Proof.
  assert (D : forall q, distance q p = sqrt (dist2 q p)) by reflexivity.
  assert (P : forall q : SpecGeom.point, 0 <= dist2 q p) by (intros q; unfold dist2; cbn; repeat apply Rplus_le_le_0_compat; apply Rle_0_sqr).
  destruct (max_fold p nodes (0 : T RN)) as (A & B & C). unfold max_distance. set (r := fold_left _ _ _) in *.
  split; [|split].
  - intros q I. rewrite D. apply sqrt_le_1_alt. now apply B.
  - intros N. destruct C as [C|(q & I & E)].
    + destruct nodes as [|q l]; [congruence|]. exists q. split; [now left|]. rewrite D. apply f_equal. apply Rle_antisym; [apply B; now left|].
      rewrite C. apply P.
    + exists q. split; [exact I|]. rewrite D. apply f_equal. symmetry. exact E.
  - intros ->. cbn in r. unfold r. apply sqrt_0.
Qed.

(** The hypotheses are met: a unit tetrahedron, a skewed block, two blocks with a common face. *)
Definition o : point := v3 (N:=RN) 0 0 0.
Definition ex : point := v3 (N:=RN) 1 0 0.
Definition ey : point := v3 (N:=RN) 1 2 0.
Definition ez : point := v3 (N:=RN) 0 1 3.
Example C44_case :
  tet_volume (tet o ex ey ez) = Ok 1 /\ proper_triangle o ex ey /\ height o ex ey ez 3 /\
  tet_volume (tet ex o ey ez) = Err /\
  hex_volume (block o ex ey ez) = Ok 6 /\
  hex_volume (cut_lower (/ 3) (block o ex ey ez)) = Ok 2 /\ hex_volume (cut_upper (/ 3) (block o ex ey ez)) = Ok 4 /\
  hex_volume (renumber (block o ex ey ez)) = Ok 6 /\
  In (h4 (block o ex ey ez), h5 (block o ex ey ez), h6 (block o ex ey ez), h7 (block o ex ey ez)) (faces (block o ex ey ez)) /\
  In (turn (reverse (h4 (block o ex ey ez), h5 (block o ex ey ez), h6 (block o ex ey ez), h7 (block o ex ey ez)))) (map turn (map turn (faces (block ez ex ey ez)))).
Proof.
  assert (T : proper_triangle o ex ey).
  { unfold proper_triangle. intros H. apply (f_equal (fun a : point => vz a : R)) in H. cbn in H. lra. }
  assert (B : forall u v w k, det3 u v w = k -> 0 <= k -> forall o, hex_volume (block o u v w) = Ok k).
  { intros u v w k E P o'. rewrite <- E in *. now apply C44_parallelepiped. }
  split; [apply C44_tetrahedron; unfold oriented_volume, o, ex, ey, ez; coords; split; [lra|field]|].
  split; [exact T|]. split.
  { assert (H := height_exists o ex ey ez T). replace 3 with (Rabs (vdot (normal o ex ey) (vsub ez o)) / vlen (normal o ex ey)); [exact H|].
    replace (vlen (normal o ex ey)) with 2; [|unfold vlen; cbn; unfold vdot; cbn; symmetry; apply sqrt_lem_1; lra].
    replace (vdot (normal o ex ey) (vsub ez o)) with 6; [|unfold normal, o, ex, ey, ez; coords; lra]. rewrite Rabs_pos_eq; lra. }
  split; [apply (C44_tetrahedron _ 0); unfold oriented_volume, o, ex, ey, ez; coords; lra|].
  split; [apply B; [unfold ex, ey, ez; coords; ring|lra]|].
  split.
  { replace (cut_lower (/ 3) (block o ex ey ez)) with (block o ex ey (vscale (N:=RN) (/ 3) ez)).
    - apply B; [unfold ex, ey, ez; coords; field|lra].
    - unfold cut_lower, block, mix2. cbn [h0 h1 h2 h3 h4 h5 h6 h7]. f_equal; vfield. }
  split.
  { replace (cut_upper (/ 3) (block o ex ey ez)) with (block (vscale (N:=RN) (/ 3) ez) ex ey (vscale (N:=RN) (2 / 3) ez)).
    - apply B; [unfold ex, ey, ez; coords; field|lra].
    - unfold cut_upper, block, mix2. cbn [h0 h1 h2 h3 h4 h5 h6 h7]. f_equal; vfield. }
  split.
  { replace (renumber (block o ex ey ez)) with (block o ey ez ex).
    - apply B; [unfold ex, ey, ez; coords; field|lra].
    - unfold renumber, block. cbn [h0 h1 h2 h3 h4 h5 h6 h7]. f_equal; vfield. }
  split; [cbn [faces In]; tauto|].
  unfold faces. cbn [map turn reverse In]. do 4 right. left.
  unfold block. cbn [h0 h1 h2 h3 h4 h5 h6 h7]. assert (P : forall a b c d a' b' c' d' : point, a = a' -> b = b' -> c = c' -> d = d' -> (a, b, c, d) = (a', b', c', d')) by (intros; congruence).
  apply P; unfold o, ex, ey, ez; vfield.
Qed.

Print Assumptions C44_tetrahedron.
Print Assumptions C44_tetrahedron_base_height.
Print Assumptions C44_tetrahedron_has_height.
Print Assumptions C44_tetrahedron_additive.
Print Assumptions C44_tetrahedron_split.
Print Assumptions C44_tetrahedron_translation.
Print Assumptions C44_hexahedron.
Print Assumptions C44_jacobian.
Print Assumptions C44_hexahedron_both.
Print Assumptions C44_hexahedron_both_succeeds.
Print Assumptions C44_hexahedron_inverted.
Print Assumptions C44_hexahedron_additive.
Print Assumptions C44_hexahedron_numbering.
Print Assumptions C44_mesh_volume.
Print Assumptions C44_hexahedron_translation.
Print Assumptions C44_hexahedron_centroid.
Print Assumptions C44_parallelepiped.
Print Assumptions C44_valid_hexahedron_refuted.
Print Assumptions C44_flat_element_centroid_refuted.
Print Assumptions C56_largest_distance.
