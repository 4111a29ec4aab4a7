(** * C45: an element lies inside a sphere, outside it, or meets it
    GeometryUtils.cpp 394-852. *)
From Coq Require Import Reals Lra Psatz.
From Coquelicot Require Import Coquelicot.
From Verif Require Import Base Num ModelGeom SpecGeom ProofGlobal ProofGeom ProofGeom2 ProofGeom3 ProofSphere ProofSphere2 ProofSphere3 ProofSphere4 PropGeom.
Local Open Scope R_scope.


(** A triangle: every answer is right. *)
Theorem C45_triangle (p q r centre : point) (radius : R) : 0 <= radius -> proper_triangle p q r ->
  match triangle_sphere p q r centre radius with
  | INSIDE => forall y, in_triangle p q r y -> distance y centre < radius
  | OUTSIDE => forall y, in_triangle p q r y -> radius <= distance y centre
  | INTERSECTS => (exists y, in_triangle p q r y /\ distance y centre <= radius) /\ (exists y, in_triangle p q r y /\ radius <= distance y centre)
  end.
Proof.
  intros R0 P. pose proof (triangle_spec p q r centre radius R0 P) as T. destruct (triangle_sphere p q r centre radius); [exact T| |exact T].
  destruct T as (T & (y & Y & D)). split; [exact T|]. exists y. split; [|exact D].
  destruct Y as [ -> |[ -> | -> ]]; [exists 1, 0, 0|exists 0, 1, 0|exists 0, 0, 1]; repeat split; try lra; unfold mix3, mix2; vring.
Qed.
Print Assumptions C45_triangle.

(** A triangle: unless it only touches the sphere, its position decides the answer. *)
Theorem C45_triangle_decided (p q r centre : point) (radius : R) : 0 <= radius -> proper_triangle p q r ->
  ((forall y, in_triangle p q r y -> distance y centre < radius) -> triangle_sphere p q r centre radius = INSIDE) /\
  ((forall y, in_triangle p q r y -> radius < distance y centre) -> triangle_sphere p q r centre radius = OUTSIDE) /\
  ((exists y, in_triangle p q r y /\ distance y centre < radius) -> (exists y, in_triangle p q r y /\ radius <= distance y centre) ->
   triangle_sphere p q r centre radius = INTERSECTS).
Proof.
  intros R0 P. pose proof (C45_triangle p q r centre radius R0 P) as T.
  assert (Tp : in_triangle p q r p) by (exists 1, 0, 0; repeat split; try lra; unfold mix3, mix2; vring).
  destruct (triangle_sphere p q r centre radius); repeat split; intros; try reflexivity; exfalso.
  - specialize (H p Tp). specialize (T p Tp). lra.
  - destruct H0 as (y & Y & D). specialize (T y Y). lra.
  - destruct T as (_ & y & Y & D). specialize (H y Y). lra.
  - destruct T as ((y & Y & D) & _). specialize (H y Y). lra.
  - specialize (H p Tp). specialize (T p Tp). lra.
  - destruct H as (y & Y & D). specialize (T y Y). lra.
Qed.
Print Assumptions C45_triangle_decided.

(** A tetrahedron: an answer is always returned; INSIDE and INTERSECTS are right; OUTSIDE is
    right for the surface, and for the whole element if the centre of the sphere is not in it. *)
Theorem C45_tetrahedron (e : tetra RN) (centre : point) (radius : R) : 0 <= radius -> oriented_volume (t0 e) (t1 e) (t2 e) (t3 e) <> 0 ->
  exists s, tet_sphere e centre radius = Ok s /\
  match s with
  | INSIDE => forall y, in_tet e y -> distance y centre < radius
  | INTERSECTS => (exists y, in_tet e y /\ distance y centre <= radius) /\ (exists y, in_tet e y /\ radius <= distance y centre)
  | OUTSIDE => (forall y, on_surface (tet_triangles e) y -> radius <= distance y centre) /\
               (~ in_tet e centre -> forall y, in_tet e y -> radius <= distance y centre)
  end.
Proof.
  intros R0 V. destruct (tet_spec e centre radius R0 V) as (s & E & S). exists s. split; [exact E|]. destruct s.
  - exact S.
  - destruct S as ((y & Y & D) & (y' & Y' & D')). split; [exists y|exists y']; split; auto; now apply tet_surface_in.
  - split; [exact S|]. intros N y Y. destruct (tet_crossing e y centre V Y N) as (z & Z & D). specialize (S z Z). lra.
Qed.
Print Assumptions C45_tetrahedron.

Theorem C45_tetrahedron_decided (e : tetra RN) (centre : point) (radius : R) : 0 <= radius -> oriented_volume (t0 e) (t1 e) (t2 e) (t3 e) <> 0 ->
  ((forall y, in_tet e y -> distance y centre < radius) -> tet_sphere e centre radius = Ok INSIDE) /\
  ((forall y, in_tet e y -> radius < distance y centre) -> tet_sphere e centre radius = Ok OUTSIDE) /\
  (~ in_tet e centre -> (exists y, in_tet e y /\ distance y centre < radius) -> (exists y, in_tet e y /\ radius <= distance y centre) ->
   tet_sphere e centre radius = Ok INTERSECTS).
Proof.
  intros R0 V. destruct (C45_tetrahedron e centre radius R0 V) as (s & -> & T).
  assert (Tp : on_surface (tet_triangles e) (t0 e)) by (apply node_in_tet; cbn; tauto). pose proof (tet_surface_in e _ Tp) as Te.
  destruct s; repeat split; intros; try reflexivity; exfalso.
  - specialize (H _ Te). specialize (T _ Te). lra.
  - destruct H1 as (y & Y & D). specialize (T y Y). lra.
  - destruct T as (_ & y & Y & D). specialize (H y Y). lra.
  - destruct T as ((y & Y & D) & _). specialize (H y Y). lra.
  - specialize (H _ Te). destruct T as (T & _). specialize (T _ Tp). lra.
  - destruct T as (_ & T). destruct H0 as (y & Y & D). specialize (T H y Y). lra.
Qed.
Print Assumptions C45_tetrahedron_decided.

(** A sphere that lies within a tetrahedron and does not reach its surface is reported to be
    outside, although its centre belongs to the element. *)
Theorem C45_enclosed_in_tetrahedron_refuted (e : tetra RN) (centre : point) (radius : R) : 0 < radius -> oriented_volume (t0 e) (t1 e) (t2 e) (t3 e) <> 0 ->
  in_tet e centre -> (forall y, on_surface (tet_triangles e) y -> radius < distance y centre) ->
  tet_sphere e centre radius = Ok OUTSIDE /\ in_tet e centre /\ distance centre centre < radius.
Proof.
  intros R0 V I S. assert (R1 : 0 <= radius) by lra. assert (Z : distance centre centre < radius).
  { apply dist_lt; [exact R1|]. replace (vsub centre centre) with (v3 (N:=RN) 0 0 0) by vring. cbn. to_R. nra. }
  split; [|split; [exact I|exact Z]]. destruct (tet_spec e centre radius R1 V) as (s & -> & T).
  assert (Tp : on_surface (tet_triangles e) (t0 e)) by (apply node_in_tet; cbn; tauto). pose proof (tet_surface_in e _ Tp) as Te.
  destruct s; [|destruct T as ((y & Y & D) & _); specialize (S y Y); lra|reflexivity]. specialize (T _ Te). specialize (S _ Tp). lra.
Qed.
Print Assumptions C45_enclosed_in_tetrahedron_refuted.

(** A hexahedron none of whose 24 surface triangles is degenerate. *)
Theorem C45_hexahedron (h : hexa RN) (centre : point) (radius : R) : 0 <= radius ->
  (forall p q r, In (p, q, r) (hex_triangles h) -> proper_triangle p q r) ->
  exists s, hex_sphere h centre radius = Ok s /\
  match s with
  | INSIDE => (forall y, on_surface (hex_triangles h) y -> distance y centre < radius) /\ (forall y, hull (hex_nodes h) y -> distance y centre < radius) /\
              (forall x y z, 0 <= x <= 1 -> 0 <= y <= 1 -> 0 <= z <= 1 -> distance (trilinear h x y z) centre < radius)
  | INTERSECTS => (exists y, on_surface (hex_triangles h) y /\ distance y centre <= radius) /\ (exists y, on_surface (hex_triangles h) y /\ radius <= distance y centre)
  | OUTSIDE => forall y, on_surface (hex_triangles h) y -> radius <= distance y centre
  end.
Proof.
  intros R0 V. destruct (hex_spec h centre radius R0) as (s & -> & T).
  { apply Forall_forall. intros [[p q] r] I. now apply V. }
  exists s. split; [reflexivity|]. destruct s; [|exact T|exact T]. split; [|split; [exact T|]].
  - intros y Y. apply T. now apply hex_surface_hull.
  - intros x y z X Y Z. apply T. now apply trilinear_hull.
Qed.
Print Assumptions C45_hexahedron.

Theorem C45_parallelepiped (o u v w centre : point) (radius : R) : 0 <= radius -> det3 u v w <> 0 ->
  exists s, hex_sphere (block o u v w) centre radius = Ok s /\
  match s with
  | INSIDE => forall y, in_block o u v w y -> distance y centre < radius
  | INTERSECTS => (exists y, in_block o u v w y /\ distance y centre <= radius) /\ (exists y, in_block o u v w y /\ radius <= distance y centre)
  | OUTSIDE => (forall y, on_surface (hex_triangles (block o u v w)) y -> radius <= distance y centre) /\
               (~ in_block o u v w centre -> forall y, in_block o u v w y -> radius <= distance y centre)
  end.
Proof.
  intros R0 D. destruct (hex_spec (block o u v w) centre radius R0 (block_proper o u v w D)) as (s & -> & T). exists s. split; [reflexivity|]. destruct s.
  - intros y Y. apply T. now apply block_hull.
  - destruct T as ((y & Y & Dy) & (y' & Y' & Dy')). split; [exists y|exists y']; split; auto; now apply surface_in_block.
  - split; [exact T|]. intros N y Y. destruct (block_crossing o u v w D y centre Y N) as (z & Z & Dz). specialize (T z Z). lra.
Qed.
Print Assumptions C45_parallelepiped.

Theorem C45_enclosed_in_parallelepiped_refuted (o u v w centre : point) (radius : R) : 0 < radius -> det3 u v w <> 0 ->
  in_block o u v w centre -> (forall y, on_surface (hex_triangles (block o u v w)) y -> radius < distance y centre) ->
  hex_sphere (block o u v w) centre radius = Ok OUTSIDE /\ in_block o u v w centre /\ distance centre centre < radius.
Proof.
  intros R0 D I S. assert (R1 : 0 <= radius) by lra. assert (Z : distance centre centre < radius).
  { apply dist_lt; [exact R1|]. replace (vsub centre centre) with (v3 (N:=RN) 0 0 0) by vring. cbn. to_R. nra. }
  split; [|split; [exact I|exact Z]]. destruct (hex_spec (block o u v w) centre radius R1 (block_proper o u v w D)) as (s & -> & T).
  assert (Tp : on_surface (hex_triangles (block o u v w)) (h0 (block o u v w))) by (apply node_on_hex; cbn; tauto).
  destruct s; [|destruct T as ((y & Y & Dy) & _); specialize (S y Y); lra|reflexivity].
  specialize (S _ Tp). specialize (T (h0 (block o u v w))). assert (hull (hex_nodes (block o u v w)) (h0 (block o u v w))) by (apply hull_node; cbn; tauto). specialize (T H). lra.
Qed.
Print Assumptions C45_enclosed_in_parallelepiped_refuted.

(** ** Cases *)
Definition unit_tet : tetra RN := tet (v3 (N:=RN) 0 0 0) (v3 (N:=RN) 1 0 0) (v3 (N:=RN) 0 1 0) (v3 (N:=RN) 0 0 1).
(** The hypotheses hold: a tetrahedron with volume, and each of the answers occurs. *)
Example C45_tetrahedron_case :
  oriented_volume (t0 unit_tet) (t1 unit_tet) (t2 unit_tet) (t3 unit_tet) <> 0 /\
  tet_sphere unit_tet (v3 (N:=RN) 0 0 0) 2 = Ok INSIDE /\
  tet_sphere unit_tet (v3 (N:=RN) 0 0 0) (1/2) = Ok INTERSECTS /\
  tet_sphere unit_tet (v3 (N:=RN) (1/4) (1/4) (-1)) (11/10) = Ok INTERSECTS /\
  tet_sphere unit_tet (v3 (N:=RN) 3 0 0) 1 = Ok OUTSIDE /\
  ~ in_tet unit_tet (v3 (N:=RN) 3 0 0).
Proof.
  assert (V : oriented_volume (t0 unit_tet) (t1 unit_tet) (t2 unit_tet) (t3 unit_tet) <> 0) by (unfold oriented_volume, det3; cbn; to_R; lra).
  split; [exact V|].
  assert (S : forall a b c d e f : R, dot (vsub (v3 (N:=RN) a b c) (v3 (N:=RN) d e f)) (vsub (v3 (N:=RN) a b c) (v3 (N:=RN) d e f)) = (a - d) * (a - d) + (b - e) * (b - e) + (c - f) * (c - f)) by (intros; cbn; reflexivity).
  split.
  { apply (C45_tetrahedron_decided unit_tet (v3 (N:=RN) 0 0 0) 2); [lra|exact V|]. intros y (u & v & w & x & U & V0 & W & X & E & ->).
    apply dist_lt; [lra|]. unfold mix4, mix3, mix2, unit_tet, vadd, vscale. cbn [t0 t1 t2 t3 vx vy vz]. rewrite S. to_R. nra. }
  assert (I0 : forall u v w, 0 <= u -> 0 <= v -> 0 <= w -> u + v + w <= 1 -> in_tet unit_tet (v3 (N:=RN) u v w)).
  { intros u v w U V0 W E. exists (1 - u - v - w), u, v, w. repeat split; auto; try lra. unfold mix4, mix3, mix2, unit_tet. vring. }
  split.
  { unfold tet_sphere, nodes_inside, tet_nodes, unit_tet. cbn. to_R.
    repeat match goal with |- context [Rltb ?a ?b] => let T := fresh in destruct (Rltb a b) eqn:T; [apply Rltb_true in T|apply Rltb_false in T] end; cbn; try reflexivity; exfalso; lra. }
  split.
  { apply (C45_tetrahedron_decided unit_tet (v3 (N:=RN) (1/4) (1/4) (-1)) (11/10)); [lra|exact V| | |].
    - intros (u & v & w & x & U & V0 & W & X & E & Y). apply (f_equal vz) in Y. cbn in Y. lra.
    - exists (v3 (N:=RN) (1/4) (1/4) 0). split; [apply I0; lra|]. apply dist_lt; [lra|]. rewrite S. lra.
    - exists (v3 (N:=RN) 0 0 1). split; [apply I0; lra|]. apply dist_ge; [lra|]. rewrite S. lra. }
  assert (F : forall y, in_tet unit_tet y -> 1 < distance y (v3 (N:=RN) 3 0 0)).
  { intros y (u & v & w & x & U & V0 & W & X & E & ->). apply Rlt_le_trans with (3/2); [lra|]. apply dist_ge; [lra|].
    unfold mix4, mix3, mix2, unit_tet, vadd, vscale. cbn [t0 t1 t2 t3 vx vy vz]. rewrite S. to_R. nra. }
  split; [apply (C45_tetrahedron_decided unit_tet (v3 (N:=RN) 3 0 0) 1); [lra|exact V|exact F]|].
  intros I. specialize (F _ I). assert (G : ~ distance (v3 (N:=RN) 3 0 0) (v3 (N:=RN) 3 0 0) < 1) by lra. apply G. apply dist_lt; [lra|]. rewrite S. lra.
Qed.

Lemma flat_x (p q r y : point) k : vx p = k -> vx q = k -> vx r = k -> in_triangle p q r y -> vx y = k.
Proof. intros P Q Rr (u & v & w & _ & _ & _ & S & ->). unfold mix3, mix2, vadd, vscale. cbn [vx]. rewrite P, Q, Rr. to_R. replace w with (1 - u - v) by lra. ring. Qed.
Lemma flat_y (p q r y : point) k : vy p = k -> vy q = k -> vy r = k -> in_triangle p q r y -> vy y = k.
Proof. intros P Q Rr (u & v & w & _ & _ & _ & S & ->). unfold mix3, mix2, vadd, vscale. cbn [vy]. rewrite P, Q, Rr. to_R. replace w with (1 - u - v) by lra. ring. Qed.
Lemma flat_z (p q r y : point) k : vz p = k -> vz q = k -> vz r = k -> in_triangle p q r y -> vz y = k.
Proof. intros P Q Rr (u & v & w & _ & _ & _ & S & ->). unfold mix3, mix2, vadd, vscale. cbn [vz]. rewrite P, Q, Rr. to_R. replace w with (1 - u - v) by lra. ring. Qed.
Definition unit_cube : hexa RN := block (v3 (N:=RN) 0 0 0) (v3 (N:=RN) 1 0 0) (v3 (N:=RN) 0 1 0) (v3 (N:=RN) 0 0 1).
Lemma cube_surface y : on_surface (hex_triangles unit_cube) y -> vx y = 0 \/ vx y = 1 \/ vy y = 0 \/ vy y = 1 \/ vz y = 0 \/ vz y = 1.
Proof.
  intros (p & q & r & J & T). cbn [hex_triangles In] in J.
  do 4 (destruct J as [J|J]; [injection J as <- <- <-; right; right; left; refine (flat_y _ _ _ _ _ _ _ _ T); cbn; lra|]).
  do 4 (destruct J as [J|J]; [injection J as <- <- <-; right; left; refine (flat_x _ _ _ _ _ _ _ _ T); cbn; lra|]).
  do 4 (destruct J as [J|J]; [injection J as <- <- <-; right; right; right; left; refine (flat_y _ _ _ _ _ _ _ _ T); cbn; lra|]).
  do 4 (destruct J as [J|J]; [injection J as <- <- <-; left; refine (flat_x _ _ _ _ _ _ _ _ T); cbn; lra|]).
  do 4 (destruct J as [J|J]; [injection J as <- <- <-; right; right; right; right; left; refine (flat_z _ _ _ _ _ _ _ _ T); cbn; lra|]).
  do 4 (destruct J as [J|J]; [injection J as <- <- <-; right; right; right; right; right; refine (flat_z _ _ _ _ _ _ _ _ T); cbn; lra|]).
  destruct J.
Qed.
(** A sphere of radius 1/4 about the centre of the unit cube. *)
Example C45_enclosed_case :
  det3 (v3 (N:=RN) 1 0 0) (v3 (N:=RN) 0 1 0) (v3 (N:=RN) 0 0 1) <> 0 /\
  in_block (v3 (N:=RN) 0 0 0) (v3 (N:=RN) 1 0 0) (v3 (N:=RN) 0 1 0) (v3 (N:=RN) 0 0 1) (v3 (N:=RN) (1/2) (1/2) (1/2)) /\
  (forall y, on_surface (hex_triangles unit_cube) y -> 1/4 < distance y (v3 (N:=RN) (1/2) (1/2) (1/2))) /\
  hex_sphere unit_cube (v3 (N:=RN) (1/2) (1/2) (1/2)) (1/4) = Ok OUTSIDE.
Proof.
  assert (D : det3 (v3 (N:=RN) 1 0 0) (v3 (N:=RN) 0 1 0) (v3 (N:=RN) 0 0 1) <> 0) by (unfold det3; cbn; to_R; lra).
  assert (I : in_block (v3 (N:=RN) 0 0 0) (v3 (N:=RN) 1 0 0) (v3 (N:=RN) 0 1 0) (v3 (N:=RN) 0 0 1) (v3 (N:=RN) (1/2) (1/2) (1/2))).
  { exists (1/2), (1/2), (1/2). repeat split; try lra. vring. }
  assert (F : forall y, on_surface (hex_triangles unit_cube) y -> 1/4 < distance y (v3 (N:=RN) (1/2) (1/2) (1/2))).
  { intros y Y. apply cube_surface in Y. apply Rlt_le_trans with (1/2); [lra|]. apply dist_ge; [lra|]. destruct y as [a b c]. cbn in Y |- *. to_R.
    assert (Half : forall a b c : R, a = 1/2 \/ a = - (1/2) \/ b = 1/2 \/ b = - (1/2) \/ c = 1/2 \/ c = - (1/2) -> 1/2 * (1/2) <= a * a + b * b + c * c) by (clear; intros a b c [ -> |[ -> |[ -> |[ -> |[ -> | -> ]]]]]; nra).
    apply Half. lra. }
  split; [exact D|]. split; [exact I|]. split; [exact F|]. apply C45_enclosed_in_parallelepiped_refuted; auto. lra.
Qed.

(** C56: nor is any point of the convex hull of the nodes farther away. *)
Theorem C56_hull (nodes : list point) (p y : point) : hull nodes y -> distance y p <= max_distance nodes p.
Proof.
  intros H. destruct (C56_largest_distance nodes p) as (L & _). apply le_epsilon. intros eps E.
  assert (M : 0 <= max_distance nodes p + eps) by (apply Rplus_le_le_0_compat; [apply sqrt_pos|lra]).
  apply Rlt_le. eapply ball_convex; [exact M| |exact H]. apply Forall_forall. intros q I. specialize (L q I). to_R. lra.
Qed.
Print Assumptions C56_hull.
