(** * Proofs about elements and spheres: where a segment leaves an element *)
From Coq Require Import Reals Lra Psatz.
From Coquelicot Require Import Coquelicot.
From Verif Require Import Base Num ModelGeom SpecGeom ProofGlobal ProofGeom ProofGeom2 ProofGeom3 ProofSphere ProofSphere2.
Local Open Scope R_scope.

(** Coordinates that are affine along a segment: the largest part of the segment with no negative coordinate. *)
Definition at_s (s : R) (yc : R * R) : R := (1 - s) * fst yc + s * snd yc.
Lemma leave l : Forall (fun yc : R * R => 0 <= fst yc) l -> exists s, 0 <= s <= 1 /\ Forall (fun yc => 0 <= at_s s yc) l /\ (s = 1 \/ Exists (fun yc => at_s s yc = 0) l).
Proof.
  induction l as [|[y c] l IH]; intros F.
  - exists 1. split; [lra|]. split; [constructor|now left].
  - destruct (IH (Forall_inv_tail F)) as (s & S & G & E). pose proof (Forall_inv F) as Y. cbn in Y.
    destruct (Rle_dec 0 (at_s s (y, c))) as [P|P].
    + exists s. split; [exact S|]. split; [now constructor|]. destruct E as [E|E]; [now left|right; now apply Exists_cons_tl].
    + apply Rnot_le_lt in P. unfold at_s in P. cbn in P. assert (C : c < 0) by nra.
      assert (D : 0 < y - c) by lra. exists (y / (y - c)).
      assert (Q : y / (y - c) * (y - c) = y) by (field; lra).
      assert (S0 : 0 <= y / (y - c)) by (apply Rmult_le_pos; [exact Y|]; apply Rlt_le, Rinv_0_lt_compat; exact D).
      assert (S1 : y / (y - c) <= s) by nra.
      split; [lra|]. assert (Z : at_s (y / (y - c)) (y, c) = 0) by (unfold at_s; cbn; field; lra).
      split; [|right; now apply Exists_cons_hd]. constructor; [rewrite Z; lra|].
      pose proof (Forall_inv_tail F) as F'. rewrite Forall_forall in *. intros [y' c'] I. specialize (G _ I). specialize (F' _ I). unfold at_s in *. cbn in *.
      set (t := y / (y - c)) in *. destruct (Rle_dec 0 c'); [nra|]. assert (c' < 0) by lra. nra.
Qed.
Lemma toward s (y c : point) : 0 <= s <= 1 -> distance (mix2 (1 - s) s y c) c <= distance y c.
Proof.
  intros S. unfold distance. replace (vsub (mix2 (1 - s) s y c) c) with (vscale (N:=RN) (1 - s) (vsub y c)) by (unfold mix2; vring).
  rewrite vlen_scale. rewrite Rabs_pos_eq by lra. assert (0 <= vlen (vsub y c)) by apply vlen_nonneg. to_R. nra.
Qed.

(** ** Tetrahedra *)
Lemma coordinates (e : tetra RN) (y : point) : oriented_volume (t0 e) (t1 e) (t2 e) (t3 e) <> 0 ->
  exists u v w x, u + v + w + x = 1 /\ y = mix4 u v w x (t0 e) (t1 e) (t2 e) (t3 e).
Proof.
  intros V. destruct e as [p q r s]. cbn [t0 t1 t2 t3] in *. unfold oriented_volume in V.
  assert (D : det3 (vsub q p) (vsub r p) (vsub s p) <> 0) by (intros H; apply V; rewrite H; unfold Rdiv; apply Rmult_0_l).
  set (v := det3 (vsub y p) (vsub r p) (vsub s p) / det3 (vsub q p) (vsub r p) (vsub s p)).
  set (w := det3 (vsub q p) (vsub y p) (vsub s p) / det3 (vsub q p) (vsub r p) (vsub s p)).
  set (x := det3 (vsub q p) (vsub r p) (vsub y p) / det3 (vsub q p) (vsub r p) (vsub s p)).
  exists (1 - v - w - x), v, w, x. split; [lra|]. unfold v, w, x, mix4, mix3, mix2. clear v w x V.
  destruct p as [p1 p2 p3], q as [q1 q2 q3], r as [r1 r2 r3], s as [s1 s2 s3], y as [y1 y2 y3]. unfold det3 in *. coords.
  f_equal; symmetry; field; exact D.
Qed.
Lemma faces_proper (e : tetra RN) : oriented_volume (t0 e) (t1 e) (t2 e) (t3 e) <> 0 -> Forall (fun t : point * point * point => let '(p, q, r) := t in proper_triangle p q r) (tet_triangles e).
Proof.
  intros V. destruct e as [p q r s]. cbn [tet_triangles t0 t1 t2 t3] in *. unfold oriented_volume in V.
  assert (D : det3 (vsub q p) (vsub r p) (vsub s p) <> 0) by (intros H; apply V; rewrite H; unfold Rdiv; apply Rmult_0_l).
  assert (Z : forall a b, a = b -> b = 0 -> a = 0) by (intros; congruence).
  repeat constructor; intros H; cbn [t0 t1 t2 t3] in H; apply D.
  - apply (Z _ (vdot (vsub s p) (vcross (vsub q p) (vsub r p)))); [destruct p, q, r, s; unfold det3; coords; ring|rewrite H; coords; ring].
  - apply (Z _ (- vdot (vsub r p) (vcross (vsub q p) (vsub s p)))); [destruct p, q, r, s; unfold det3; coords; ring|rewrite H; coords; ring].
  - apply (Z _ (vdot (vsub q p) (vcross (vsub r p) (vsub s p)))); [destruct p, q, r, s; unfold det3; coords; ring|rewrite H; coords; ring].
  - apply (Z _ (vdot (vsub q p) (vcross (vsub r q) (vsub s q)))); [destruct p, q, r, s; unfold det3; coords; ring|rewrite H; coords; ring].
Qed.
Lemma tet_crossing (e : tetra RN) (y c : point) : oriented_volume (t0 e) (t1 e) (t2 e) (t3 e) <> 0 -> in_tet e y -> ~ in_tet e c ->
  exists z, on_surface (tet_triangles e) z /\ distance z c <= distance y c.
Proof.
  intros V (u & v & w & x & U0 & V0 & W0 & X0 & S & Y) N. destruct (coordinates e c V) as (u' & v' & w' & x' & S' & C).
  destruct (leave [(u, u'); (v, v'); (w, w'); (x, x')]) as (s & Hs & F & E); [repeat (apply Forall_cons; [assumption|]); apply Forall_nil|].
  pose proof (Forall_inv F) as Fu. pose proof (Forall_inv (Forall_inv_tail F)) as Fv. pose proof (Forall_inv (Forall_inv_tail (Forall_inv_tail F))) as Fw.
  pose proof (Forall_inv (Forall_inv_tail (Forall_inv_tail (Forall_inv_tail F)))) as Fx. clear F. unfold at_s in *. cbn [fst snd] in *.
  assert (Z : mix2 (1 - s) s y c = mix4 ((1 - s) * u + s * u') ((1 - s) * v + s * v') ((1 - s) * w + s * w') ((1 - s) * x + s * x') (t0 e) (t1 e) (t2 e) (t3 e)).
  { rewrite Y, C. unfold mix4, mix3, mix2. vring. }
  assert (T : (1 - s) * u + s * u' + ((1 - s) * v + s * v') + ((1 - s) * w + s * w') + ((1 - s) * x + s * x') = 1).
  { replace x with (1 - u - v - w) by lra. replace x' with (1 - u' - v' - w') by lra. ring. }
  exists (mix2 (1 - s) s y c). split; [|now apply toward]. rewrite Z.
  destruct E as [-> | E].
  - exfalso. apply N. exists u', v', w', x'. repeat split; auto; lra.
  - assert (E' : (1 - s) * u + s * u' = 0 \/ (1 - s) * v + s * v' = 0 \/ (1 - s) * w + s * w' = 0 \/ (1 - s) * x + s * x' = 0).
    { repeat (apply Exists_cons in E; destruct E as [E|E]; [auto|]). inversion E. }
    clear E. set (u1 := (1 - s) * u + s * u') in *. set (v1 := (1 - s) * v + s * v') in *. set (w1 := (1 - s) * w + s * w') in *. set (x1 := (1 - s) * x + s * x') in *.
    clearbody u1 v1 w1 x1. destruct E' as [E|[E|[E|E]]].
    + exists (t1 e), (t2 e), (t3 e). split; [cbn; tauto|]. exists v1, w1, x1. repeat split; auto; [lra|]. rewrite E. unfold mix4, mix3, mix2. vring.
    + exists (t0 e), (t2 e), (t3 e). split; [cbn; tauto|]. exists u1, w1, x1. repeat split; auto; [lra|]. rewrite E. unfold mix4, mix3, mix2. vring.
    + exists (t0 e), (t1 e), (t3 e). split; [cbn; tauto|]. exists u1, v1, x1. repeat split; auto; [lra|]. rewrite E. unfold mix4, mix3, mix2. vring.
    + exists (t0 e), (t1 e), (t2 e). split; [cbn; tauto|]. exists u1, v1, w1. repeat split; auto; [lra|]. rewrite E. unfold mix4, mix3, mix2. vring.
Qed.
Lemma tet_surface_in (e : tetra RN) y : on_surface (tet_triangles e) y -> in_tet e y.
Proof.
  intros (p & q & r & I & u & v & w & U & V & W & S & ->). cbn in I.
  destruct I as [I|[I|[I|[I|[]]]]]; injection I as <- <- <-.
  - exists u, v, w, 0. repeat split; auto; try lra. unfold mix4, mix3, mix2. vring.
  - exists u, v, 0, w. repeat split; auto; try lra. unfold mix4, mix3, mix2. vring.
  - exists u, 0, v, w. repeat split; auto; try lra. unfold mix4, mix3, mix2. vring.
  - exists 0, u, v, w. repeat split; auto; try lra. unfold mix4, mix3, mix2. vring.
Qed.
Lemma in_tet_hull (e : tetra RN) y : in_tet e y -> hull (tet_nodes e) y.
Proof.
  intros (u & v & w & x & U & V & W & X & S & ->).
  destruct (Req_dec (u + v + w) 0) as [Z|Z].
  - assert (u = 0) by lra. assert (v = 0) by lra. assert (w = 0) by lra. assert (x = 1) by lra. subst.
    replace (mix4 0 0 0 1 (t0 e) (t1 e) (t2 e) (t3 e)) with (t3 e) by (unfold mix4, mix3, mix2; vring). apply hull_node. cbn. tauto.
  - replace (mix4 u v w x (t0 e) (t1 e) (t2 e) (t3 e)) with (mix2 (1 - x) x (mix3 (u / (u + v + w)) (v / (u + v + w)) (w / (u + v + w)) (t0 e) (t1 e) (t2 e)) (t3 e)).
    + apply hull_mix; [lra| |apply hull_node; cbn; tauto]. apply triangle_hull with (p := t0 e) (q := t1 e) (r := t2 e); try (apply hull_node; cbn; tauto).
      assert (P : 0 < / (u + v + w)) by (apply Rinv_0_lt_compat; lra).
      exists (u / (u + v + w)), (v / (u + v + w)), (w / (u + v + w)). unfold Rdiv. repeat split; try (apply Rmult_le_pos; [assumption|lra]). field. exact Z.
    + replace x with (1 - u - v - w) by lra. unfold mix4, mix3, mix2. apply vext; cbn; field; exact Z.
Qed.
Lemma node_in_tet (e : tetra RN) p : In p (tet_nodes e) -> on_surface (tet_triangles e) p.
Proof.
  assert (A : forall p q r : point, in_triangle p q r p) by (intros a b d; exists 1, 0, 0; repeat split; try lra; unfold mix3, mix2; vring).
  assert (B : forall p q r : point, in_triangle p q r r) by (intros a b d; exists 0, 0, 1; repeat split; try lra; unfold mix3, mix2; vring).
  intros I. cbn [tet_nodes In] in I. destruct I as [I|[I|[I|[I|[]]]]]; subst p; unfold on_surface.
  - exists (t0 e), (t1 e), (t2 e). split; [cbn; tauto|apply A].
  - exists (t1 e), (t2 e), (t3 e). split; [cbn; tauto|apply A].
  - exists (t0 e), (t1 e), (t2 e). split; [cbn; tauto|apply B].
  - exists (t0 e), (t1 e), (t3 e). split; [cbn; tauto|apply B].
Qed.
Lemma tet_spec (e : tetra RN) (c : point) (rad : R) : 0 <= rad -> oriented_volume (t0 e) (t1 e) (t2 e) (t3 e) <> 0 ->
  exists s, tet_sphere e c rad = Ok s /\
  match s with
  | INSIDE => forall y, in_tet e y -> distance y c < rad
  | INTERSECTS => (exists y, on_surface (tet_triangles e) y /\ distance y c <= rad) /\ (exists y, on_surface (tet_triangles e) y /\ rad <= distance y c)
  | OUTSIDE => forall y, on_surface (tet_triangles e) y -> rad <= distance y c
  end.
Proof.
  intros R0 V. unfold tet_sphere. cbv zeta.
  destruct (nodes_inside (tet_nodes e) c rad =? 4)%nat eqn:E4.
  - apply Nat.eqb_eq in E4. exists INSIDE. split; [reflexivity|]. intros y Y.
    apply ball_convex with (l := tet_nodes e); auto; [apply inside_all; auto|now apply in_tet_hull].
  - apply Nat.eqb_neq in E4. destruct (not_all (tet_nodes e) c rad R0 E4) as (p & Ip & Dp).
    destruct (0 <? nodes_inside (tet_nodes e) c rad)%nat eqn:E0.
    + exists INTERSECTS. split; [reflexivity|]. apply Nat.ltb_lt in E0. destruct (not_none (tet_nodes e) c rad R0) as (q & Iq & Dq); [lia|].
      split; [exists q; split; [now apply node_in_tet|lra]|exists p; split; [now apply node_in_tet|exact Dp]].
    + apply Nat.ltb_ge in E0. assert (Z : nodes_inside (tet_nodes e) c rad = 0%nat) by lia.
      destruct (element_spec (tet_nodes e) (tet_triangles e) c rad R0 (faces_proper e V)) as [(-> & O)|(-> & O)]; auto.
      * repeat constructor; cbn; tauto.
      * discriminate.
      * exists OUTSIDE. auto.
      * exists INTERSECTS. split; [reflexivity|]. split; [exact O|]. exists p. split; [now apply node_in_tet|exact Dp].
Qed.
