(** * Proofs about elements and spheres: hexahedra and parallelepipeds *)
From Coq Require Import Reals Lra Psatz.
From Coquelicot Require Import Coquelicot.
From Verif Require Import Base Num ModelGeom SpecGeom ProofGlobal ProofGeom ProofGeom2 ProofGeom3 ProofSphere ProofSphere2 ProofSphere3.
Local Open Scope R_scope.

Lemma trilinear_hull (h : hexa RN) x y z : 0 <= x <= 1 -> 0 <= y <= 1 -> 0 <= z <= 1 -> hull (hex_nodes h) (trilinear h x y z).
Proof.
  intros X Y Z.
  replace (trilinear h x y z) with
    (mix2 (1 - z) z (mix2 (1 - y) y (mix2 (1 - x) x (h0 h) (h1 h)) (mix2 (1 - x) x (h3 h) (h2 h)))
                    (mix2 (1 - y) y (mix2 (1 - x) x (h4 h) (h5 h)) (mix2 (1 - x) x (h7 h) (h6 h)))).
  - repeat (apply hull_mix; auto); apply hull_node; cbn; tauto.
  - unfold trilinear, comb8, mix4, mix3, mix2. vring.
Qed.
Lemma node_on_hex (h : hexa RN) p : In p (hex_nodes h) -> on_surface (hex_triangles h) p.
Proof.
  assert (A : forall p q r : point, in_triangle p q r p) by (intros a b d; exists 1, 0, 0; repeat split; try lra; unfold mix3, mix2; vring).
  intros I. cbn [hex_nodes In] in I. unfold on_surface.
  destruct I as [I|[I|[I|[I|[I|[I|[I|[I|[]]]]]]]]]; subst p.
  - exists (h0 h), (h4 h), (f0 h). split; [cbn; tauto|apply A].
  - exists (h1 h), (h0 h), (f0 h). split; [cbn; tauto|apply A].
  - exists (h2 h), (h1 h), (f1 h). split; [cbn; tauto|apply A].
  - exists (h3 h), (h2 h), (f2 h). split; [cbn; tauto|apply A].
  - exists (h4 h), (h5 h), (f0 h). split; [cbn; tauto|apply A].
  - exists (h5 h), (h1 h), (f0 h). split; [cbn; tauto|apply A].
  - exists (h6 h), (h2 h), (f1 h). split; [cbn; tauto|apply A].
  - exists (h7 h), (h3 h), (f2 h). split; [cbn; tauto|apply A].
Qed.
Lemma centre_hull l (p q r s : point) : In p l -> In q l -> In r l -> In s l -> hull l (face_centre p q r s).
Proof.
  intros P Q Rr S. replace (face_centre p q r s) with (mix2 (1 - / 2) (/ 2) (mix2 (1 - / 2) (/ 2) p q) (mix2 (1 - / 2) (/ 2) r s)).
  - apply hull_mix; [lra| |]; (apply hull_mix; [lra| |]); now apply hull_node.
  - unfold face_centre, mix2. apply vext; cbn; rfield.
Qed.
Lemma hex_surface_hull (h : hexa RN) y : on_surface (hex_triangles h) y -> hull (hex_nodes h) y.
Proof.
  intros (p & q & r & I & T). assert (C : hull (hex_nodes h) p /\ hull (hex_nodes h) q /\ hull (hex_nodes h) r).
  { cbn [hex_triangles In] in I. repeat (destruct I as [I|I]; [injection I as <- <- <-; repeat split; first [apply centre_hull; cbn; tauto|apply hull_node; cbn; tauto]|]). destruct I. }
  destruct C as (P & Q & Rr). now apply triangle_hull with p q r.
Qed.
Lemma hex_spec (h : hexa RN) (c : point) (rad : R) : 0 <= rad -> Forall (fun t : point * point * point => let '(p, q, r) := t in proper_triangle p q r) (hex_triangles h) ->
  exists s, hex_sphere h c rad = Ok s /\
  match s with
  | INSIDE => forall y, hull (hex_nodes h) y -> distance y c < rad
  | INTERSECTS => (exists y, on_surface (hex_triangles h) y /\ distance y c <= rad) /\ (exists y, on_surface (hex_triangles h) y /\ rad <= distance y c)
  | OUTSIDE => forall y, on_surface (hex_triangles h) y -> rad <= distance y c
  end.
Proof.
  intros R0 V. unfold hex_sphere. cbv zeta.
  destruct (nodes_inside (hex_nodes h) c rad =? 8)%nat eqn:E4.
  - apply Nat.eqb_eq in E4. exists INSIDE. split; [reflexivity|]. intros y Y.
    apply ball_convex with (l := hex_nodes h); auto. apply inside_all; auto.
  - apply Nat.eqb_neq in E4. destruct (not_all (hex_nodes h) c rad R0 E4) as (p & Ip & Dp).
    destruct (0 <? nodes_inside (hex_nodes h) c rad)%nat eqn:E0.
    + exists INTERSECTS. split; [reflexivity|]. apply Nat.ltb_lt in E0. destruct (not_none (hex_nodes h) c rad R0) as (q & Iq & Dq); [lia|].
      split; [exists q; split; [now apply node_on_hex|lra]|exists p; split; [now apply node_on_hex|exact Dp]].
    + apply Nat.ltb_ge in E0. assert (Z : nodes_inside (hex_nodes h) c rad = 0%nat) by lia.
      destruct (element_spec (hex_nodes h) (hex_triangles h) c rad R0 V) as [(-> & O)|(-> & O)]; auto.
      * cbn [hex_triangles]. repeat (apply Forall_cons; [cbn; tauto|]). apply Forall_nil.
      * discriminate.
      * exists OUTSIDE. auto.
      * exists INTERSECTS. split; [reflexivity|]. split; [exact O|]. exists p. split; [now apply node_on_hex|exact Dp].
Qed.

(** ** Parallelepipeds *)
Lemma in_swap p q r y : in_triangle p q r y -> in_triangle q p r y.
Proof. intros (u & v & w & U & V & W & S & ->). exists v, u, w. repeat split; auto; [lra|]. unfold mix3, mix2. vring. Qed.
(** A point of a parallelogram lies in one of the four triangles made by its edges and its centre. *)
Lemma quarter l (p q r s m y : point) a b : 0 <= a <= 1 -> 0 <= b <= 1 ->
  r = vadd q (vsub s p) -> m = mix2 (/ 2) (/ 2) p r ->
  (In (p, q, m) l \/ In (q, p, m) l) -> (In (q, r, m) l \/ In (r, q, m) l) -> (In (r, s, m) l \/ In (s, r, m) l) -> (In (s, p, m) l \/ In (p, s, m) l) ->
  y = vadd p (vadd (vscale (N:=RN) a (vsub q p)) (vscale (N:=RN) b (vsub s p))) -> on_surface l y.
Proof.
  intros A B -> -> I1 I2 I3 I4 ->.
  assert (Go : forall p q m y, (In (p, q, m) l \/ In (q, p, m) l) -> in_triangle p q m y -> on_surface l y).
  { intros p' q' m' y' [I|I] T; [exists p', q', m'; auto|exists q', p', m'; split; [exact I|now apply in_swap]]. }
  destruct (Rle_dec b a); destruct (Rle_dec (a + b) 1).
  - eapply Go; [exact I1|]. exists (1 - a - b), (a - b), (2 * b). repeat split; try lra. unfold mix3, mix2. apply vext; cbn; rfield.
  - eapply Go; [exact I2|]. exists (a - b), (a + b - 1), (2 * (1 - a)). repeat split; try lra. unfold mix3, mix2. apply vext; cbn; rfield.
  - eapply Go; [exact I4|]. exists (b - a), (1 - a - b), (2 * a). repeat split; try lra. unfold mix3, mix2. apply vext; cbn; rfield.
  - eapply Go; [exact I3|]. exists (a + b - 1), (b - a), (2 * (1 - b)). repeat split; try lra. unfold mix3, mix2. apply vext; cbn; rfield.
Qed.
Section Block.
  Variables o u v w : point.
  Hypothesis D : det3 u v w <> 0.
  Lemma block_coordinates y : exists a b c, y = vadd o (vadd (vadd (vscale (N:=RN) a u) (vscale (N:=RN) b v)) (vscale (N:=RN) c w)).
  Proof.
    exists (det3 (vsub y o) v w / det3 u v w), (det3 u (vsub y o) w / det3 u v w), (det3 u v (vsub y o) / det3 u v w).
    destruct o as [o1 o2 o3], u as [u1 u2 u3], v as [v1 v2 v3'], w as [w1 w2 w3], y as [y1 y2 y3]. unfold det3 in *. coords.
    f_equal; symmetry; field; exact D.
  Qed.
  Let h := block o u v w.
  Lemma block_faces y a b c : 0 <= a <= 1 -> 0 <= b <= 1 -> 0 <= c <= 1 ->
    y = vadd o (vadd (vadd (vscale (N:=RN) a u) (vscale (N:=RN) b v)) (vscale (N:=RN) c w)) ->
    a = 0 \/ b = 0 \/ c = 0 \/ 1 - a = 0 \/ 1 - b = 0 \/ 1 - c = 0 -> on_surface (hex_triangles h) y.
  Proof.
    intros A B C Y E.
    destruct E as [E|[E|[E|[E|[E|E]]]]].
    - apply (quarter _ (h0 h) (h3 h) (h7 h) (h4 h) (f3 h) y b c); auto; [| |cbn; tauto|cbn; tauto|cbn; tauto|cbn; tauto|].
      + unfold h. cbn. vring.
      + unfold h, f3, face_centre, mix2. apply vext; cbn; rfield.
      + rewrite Y, E. unfold h. cbn. vring.
    - apply (quarter _ (h0 h) (h1 h) (h5 h) (h4 h) (f0 h) y a c); auto; [| |cbn; tauto|cbn; tauto|cbn; tauto|cbn; tauto|].
      + unfold h. cbn. vring.
      + unfold h, f0, face_centre, mix2. apply vext; cbn; rfield.
      + rewrite Y, E. unfold h. cbn. vring.
    - apply (quarter _ (h0 h) (h1 h) (h2 h) (h3 h) (f4 h) y a b); auto; [| |cbn; tauto|cbn; tauto|cbn; tauto|cbn; tauto|].
      + unfold h. cbn. vring.
      + unfold h, f4, face_centre, mix2. apply vext; cbn; rfield.
      + rewrite Y, E. unfold h. cbn. vring.
    - apply (quarter _ (h1 h) (h2 h) (h6 h) (h5 h) (f1 h) y b c); auto; [| |cbn; tauto|cbn; tauto|cbn; tauto|cbn; tauto|].
      + unfold h. cbn. vring.
      + unfold h, f1, face_centre, mix2. apply vext; cbn; rfield.
      + rewrite Y. replace a with 1 by lra. unfold h. cbn. vring.
    - apply (quarter _ (h3 h) (h2 h) (h6 h) (h7 h) (f2 h) y a c); auto; [| |cbn; tauto|cbn; tauto|cbn; tauto|cbn; tauto|].
      + unfold h. cbn. vring.
      + unfold h, f2, face_centre, mix2. apply vext; cbn; rfield.
      + rewrite Y. replace b with 1 by lra. unfold h. cbn. vring.
    - apply (quarter _ (h4 h) (h5 h) (h6 h) (h7 h) (f5 h) y a b); auto; [| |cbn; tauto|cbn; tauto|cbn; tauto|cbn; tauto|].
      + unfold h. cbn. vring.
      + unfold h, f5, face_centre, mix2. apply vext; cbn; rfield.
      + rewrite Y. replace c with 1 by lra. unfold h. cbn. vring.
  Qed.
  Lemma block_crossing (y c : point) : in_block o u v w y -> ~ in_block o u v w c -> exists z, on_surface (hex_triangles h) z /\ distance z c <= distance y c.
  Proof.
    intros (a1 & a2 & a3 & A1 & A2 & A3 & Y) N. destruct (block_coordinates c) as (b1 & b2 & b3 & C).
    destruct (leave [(a1, b1); (a2, b2); (a3, b3); (1 - a1, 1 - b1); (1 - a2, 1 - b2); (1 - a3, 1 - b3)]) as (s & Hs & F & E).
    { repeat (apply Forall_cons; [cbn; lra|]). apply Forall_nil. }
    pose proof (Forall_inv F) as F1. apply Forall_inv_tail in F. pose proof (Forall_inv F) as F2. apply Forall_inv_tail in F. pose proof (Forall_inv F) as F3. apply Forall_inv_tail in F.
    pose proof (Forall_inv F) as F4. apply Forall_inv_tail in F. pose proof (Forall_inv F) as F5. apply Forall_inv_tail in F. pose proof (Forall_inv F) as F6. clear F.
    unfold at_s in F1, F2, F3, F4, F5, F6. cbn [fst snd] in F1, F2, F3, F4, F5, F6.
    exists (mix2 (1 - s) s y c). split; [|now apply toward].
    destruct E as [-> |E]; [exfalso; apply N; exists b1, b2, b3; repeat split; auto; lra|].
    apply (block_faces _ ((1 - s) * a1 + s * b1) ((1 - s) * a2 + s * b2) ((1 - s) * a3 + s * b3)); [lra|lra|lra| |].
    - rewrite Y, C. unfold mix2. vring.
    - unfold at_s in E. do 6 (apply Exists_cons in E; destruct E as [E|E]; [cbn [fst snd] in E; lra|]). inversion E.
  Qed.
  Lemma block_proper : Forall (fun t : point * point * point => let '(p, q, r) := t in proper_triangle p q r) (hex_triangles h).
  Proof.
    assert (Go : forall k z (p q r : point), det3 u v w = k * vdot z (vcross (vsub q p) (vsub r p)) -> proper_triangle p q r).
    { intros k z p q r E H. apply D. rewrite E, H. unfold vdot. cbn. to_R. ring. }
    destruct o as [o1 o2 o3], u as [u1 u2 u3], v as [v1 v2 v3'], w as [w1 w2 w3]. unfold h, det3 in *.
    repeat (apply Forall_cons; [first
      [ apply (Go 2 (v3 (N:=RN) u1 u2 u3)); cbn; rfield | apply (Go (-2) (v3 (N:=RN) u1 u2 u3)); cbn; rfield
      | apply (Go 2 (v3 (N:=RN) v1 v2 v3')); cbn; rfield | apply (Go (-2) (v3 (N:=RN) v1 v2 v3')); cbn; rfield
      | apply (Go 2 (v3 (N:=RN) w1 w2 w3)); cbn; rfield | apply (Go (-2) (v3 (N:=RN) w1 w2 w3)); cbn; rfield ]|]). apply Forall_nil.
  Qed.
  Lemma surface_in_block y : on_surface (hex_triangles h) y -> in_block o u v w y.
  Proof.
    intros S. apply hex_surface_hull in S. induction S as [p I|s x y S X IX Y IY].
    - cbn [hex_nodes In] in I.
      repeat (destruct I as [I|I]; [subst p;
        first [exists 0, 0, 0; repeat split; try lra; unfold h; cbn; vring | exists 1, 0, 0; repeat split; try lra; unfold h; cbn; vring
              |exists 0, 1, 0; repeat split; try lra; unfold h; cbn; vring | exists 1, 1, 0; repeat split; try lra; unfold h; cbn; vring
              |exists 0, 0, 1; repeat split; try lra; unfold h; cbn; vring | exists 1, 0, 1; repeat split; try lra; unfold h; cbn; vring
              |exists 0, 1, 1; repeat split; try lra; unfold h; cbn; vring | exists 1, 1, 1; repeat split; try lra; unfold h; cbn; vring]|]). destruct I.
    - destruct IX as (a1 & a2 & a3 & A1 & A2 & A3 & ->). destruct IY as (b1 & b2 & b3 & B1 & B2 & B3 & ->).
      exists ((1 - s) * a1 + s * b1), ((1 - s) * a2 + s * b2), ((1 - s) * a3 + s * b3). repeat split; try nra. unfold mix2. vring.
  Qed.
  Lemma block_hull y : in_block o u v w y -> hull (hex_nodes h) y.
  Proof.
    intros (a & b & c & A & B & C & ->). replace (vadd o _) with (trilinear h a b c); [now apply trilinear_hull|].
    unfold trilinear, comb8, mix4, mix3, mix2, h. vring.
  Qed.
End Block.
