(** * Proofs about elements and spheres *)
From Coq Require Import Reals Lra Psatz.
From Coquelicot Require Import Coquelicot.
From Verif Require Import Base Num ModelGeom SpecGeom ProofGlobal ProofGeom ProofGeom2 ProofGeom3 ProofSphere.
Local Open Scope R_scope.

Lemma dist_sq (p c : point) : distance p c = sqrt (dot (vsub p c) (vsub p c)).
Proof. reflexivity. Qed.
Lemma dist_lt (p c : point) r : 0 <= r -> (dot (vsub p c) (vsub p c) < r * r <-> distance p c < r).
Proof.
  intros R0. rewrite dist_sq. split; intros H.
  - rewrite <- (sqrt_square r R0). apply sqrt_lt_1_alt. split; [apply dot_nonneg|exact H].
  - rewrite <- (sqrt_sqrt _ (dot_nonneg (vsub p c))). apply Rmult_le_0_lt_compat; auto; apply sqrt_pos.
Qed.
Lemma dist_ge (p c : point) r : 0 <= r -> (r * r <= dot (vsub p c) (vsub p c) <-> r <= distance p c).
Proof.
  intros R0. pose proof (dist_lt p c r R0) as D. split; intros H.
  - apply Rnot_lt_le. intros L. apply D in L. to_R. lra.
  - apply Rnot_lt_le. intros L. apply D in L. lra.
Qed.
Lemma dist_le (p c : point) r : 0 <= r -> dot (vsub p c) (vsub p c) <= r * r -> distance p c <= r.
Proof. intros R0 H. rewrite dist_sq, <- (sqrt_square r R0). now apply sqrt_le_1_alt. Qed.

Lemma mix3_sub u v w (p q r c : point) : u + v + w = 1 -> vsub (mix3 u v w p q r) c = mix3 u v w (vsub p c) (vsub q c) (vsub r c).
Proof. intros S. assert (E : w = 1 - u - v) by lra. subst w. unfold mix3, mix2. vring. Qed.

Lemma triangle_spec (p q r c : point) (rad : R) : 0 <= rad -> proper_triangle p q r ->
  match triangle_sphere p q r c rad with
  | INSIDE => forall y, in_triangle p q r y -> distance y c < rad
  | OUTSIDE => forall y, in_triangle p q r y -> rad <= distance y c
  | INTERSECTS => (exists y, in_triangle p q r y /\ distance y c <= rad) /\ (exists y, (y = p \/ y = q \/ y = r) /\ rad <= distance y c)
  end.
Proof.
  intros R0 Pr. unfold triangle_sphere. set (a := vsub p c). set (b := vsub q c). set (d := vsub r c).
  assert (W : wide a b d).
  { intros H. apply Pr. rewrite <- H. unfold a, b, d, vcross, vsub. vring. }
  assert (Pt : forall u v w, 0 <= u -> 0 <= v -> 0 <= w -> u + v + w = 1 -> in_triangle p q r (mix3 u v w p q r)) by (intros u v w; exists u, v, w; auto).
  assert (Pp : in_triangle p q r p) by (exists 1, 0, 0; repeat split; try lra; unfold mix3, mix2; vring).
  assert (Pq : in_triangle p q r q) by (exists 0, 1, 0; repeat split; try lra; unfold mix3, mix2; vring).
  assert (Pr' : in_triangle p q r r) by (exists 0, 0, 1; repeat split; try lra; unfold mix3, mix2; vring).
  assert (Out : (forall u v w, 0 <= u -> 0 <= v -> 0 <= w -> u + v + w = 1 -> rad * rad <= dot (mix3 u v w a b d) (mix3 u v w a b d)) ->
    forall y, in_triangle p q r y -> rad <= distance y c).
  { intros H y (u & v & w & U & V & Wn & S & ->). apply dist_ge; [exact R0|]. rewrite mix3_sub by exact S. now apply H. }
  assert (Da := dist_lt p c rad R0). assert (Db := dist_lt q c rad R0). assert (Dd := dist_lt r c rad R0).
  assert (Ga := dist_ge p c rad R0). assert (Gb := dist_ge q c rad R0). assert (Gd := dist_ge r c rad R0).
  fold a in Da, Ga. fold b in Db, Gb. fold d in Dd, Gd. cbv zeta. to_R.
  destruct (Rltb (dot a a) (rad * rad)) eqn:La; [apply Rltb_true in La|apply Rltb_false in La];
  (destruct (Rltb (dot b b) (rad * rad)) eqn:Lb; [apply Rltb_true in Lb|apply Rltb_false in Lb]);
  (destruct (Rltb (dot d d) (rad * rad)) eqn:Ld; [apply Rltb_true in Ld|apply Rltb_false in Ld]); cbn [one_if Nat.add Nat.eqb orb].
  - intros y (u & v & w & U & V & Wn & S & ->). apply dist_lt; [exact R0|]. rewrite mix3_sub by exact S. now apply mix_inside.
  - split; [exists p; split; [auto|]; apply Rlt_le, Da; exact La|exists r; split; [auto|]; apply Gd; exact Ld].
  - split; [exists p; split; [auto|]; apply Rlt_le, Da; exact La|exists q; split; [auto|]; apply Gb; exact Lb].
  - split; [exists p; split; [auto|]; apply Rlt_le, Da; exact La|exists r; split; [auto|]; apply Gd; exact Ld].
  - split; [exists q; split; [auto|]; apply Rlt_le, Db; exact Lb|exists p; split; [auto|]; apply Ga; exact La].
  - split; [exists q; split; [auto|]; apply Rlt_le, Db; exact Lb|exists p; split; [auto|]; apply Ga; exact La].
  - split; [exists r; split; [auto|]; apply Rlt_le, Dd; exact Ld|exists p; split; [auto|]; apply Ga; exact La].
  - set (n := vcross (vsub b a) (vsub d a)).
    destruct (Rltb (rad * rad) (dot a n * dot a n / dot n n)) eqn:Tp; [apply Rltb_true in Tp|apply Rltb_false in Tp].
    { apply Out. intros u v w U V Wn S. apply outside_plane; auto. apply Rmult_le_pos; exact R0. }
    assert (Edge : forall x y z : point, 0 < dot (vsub y x) (vsub y x) -> edge_separates (N:=RN) (rad * rad) x y z = true ->
      exists q : point, rad * rad <= dot q q /\ dot q q <= dot q x /\ dot q q <= dot q y /\ dot q q <= dot q z).
    { intros x y z K E. destruct (edge_spec (rad * rad) x y z K) as (q0 & _ & Q1 & Q2 & Qs). destruct (proj1 Qs E) as (F1 & F2). exists q0.
      split; [apply Rlt_le; exact F1|]. split; [apply Req_le; symmetry; exact Q1|]. split; [apply Req_le; symmetry; exact Q2|apply Rlt_le; exact F2]. }
    destruct (wide_edges a b d W) as (Kab & Kbd & Kda & Kad).
    destruct (Rltb (dot a a) (dot a b) && Rltb (dot a a) (dot a d))%bool eqn:Va.
    { apply Bool.andb_true_iff in Va as (V1 & V2). apply Rltb_true in V1. apply Rltb_true in V2. apply Out. intros u v w U V Wn S.
      apply outside_direction with (x := a); auto; [apply Rle_refl|now apply Rlt_le|now apply Rlt_le]. }
    destruct (Rltb (dot b b) (dot a b) && Rltb (dot b b) (dot b d))%bool eqn:Vb.
    { apply Bool.andb_true_iff in Vb as (V1 & V2). apply Rltb_true in V1. apply Rltb_true in V2. apply Out. intros u v w U V Wn S.
      apply outside_direction with (x := b); auto; [rewrite (dot_comm b a); now apply Rlt_le|apply Rle_refl|now apply Rlt_le]. }
    destruct (Rltb (dot d d) (dot a d) && Rltb (dot d d) (dot b d))%bool eqn:Vd.
    { apply Bool.andb_true_iff in Vd as (V1 & V2). apply Rltb_true in V1. apply Rltb_true in V2. apply Out. intros u v w U V Wn S.
      apply outside_direction with (x := d); auto; [rewrite (dot_comm d a); now apply Rlt_le|rewrite (dot_comm d b); now apply Rlt_le|apply Rle_refl]. }
    destruct (edge_separates (N:=RN) (rad * rad) a b d) eqn:E1.
    { apply Out. intros u v w U V Wn S. destruct (Edge _ _ _ Kab E1) as (q0 & Q0 & Q1 & Q2 & Q3). now apply outside_direction with (x := q0). }
    destruct (edge_separates (N:=RN) (rad * rad) b d a) eqn:E2.
    { apply Out. intros u v w U V Wn S. destruct (Edge _ _ _ Kbd E2) as (q0 & Q0 & Q1 & Q2 & Q3). now apply outside_direction with (x := q0). }
    destruct (edge_separates (N:=RN) (rad * rad) d a b) eqn:E3.
    { apply Out. intros u v w U V Wn S. destruct (Edge _ _ _ Kda E3) as (q0 & Q0 & Q1 & Q2 & Q3). now apply outside_direction with (x := q0). }
    split; [|exists p; split; [auto|]; apply Ga; exact La].
    assert (No : forall x y z : R, (Rltb x y && Rltb x z)%bool = false -> ~ (x < y /\ x < z)).
    { intros x y z E (X1 & X2). apply Rltb_true in X1. apply Rltb_true in X2. rewrite X1, X2 in E. discriminate. }
    destruct (nothing_separates a b d (rad * rad) W Tp (No _ _ _ Va) (No _ _ _ Vb) (No _ _ _ Vd) E1 E2 E3) as (u & v & w & U & V & Wn & S & D).
    exists (mix3 u v w p q r). split; [auto|]. apply dist_le; [exact R0|]. rewrite mix3_sub by exact S. exact D.
Qed.
Lemma triangle_not_inside (p q r c : point) (rad : R) : 0 <= rad -> rad <= distance p c -> triangle_sphere p q r c rad <> INSIDE.
Proof.
  intros R0 H. apply dist_ge in H; [|exact R0]. unfold triangle_sphere. cbv zeta. to_R. assert (L : Rltb (dot (vsub p c) (vsub p c)) (rad * rad) = false) by now apply Rltb_false.
  rewrite L. cbn [one_if Nat.add].
  destruct (Rltb (dot (vsub q c) (vsub q c)) (rad * rad)); destruct (Rltb (dot (vsub r c) (vsub r c)) (rad * rad)); cbn [one_if Nat.add Nat.eqb orb]; try discriminate.
  repeat match goal with |- (if ?b then _ else _) <> _ => destruct b; [discriminate|] end. discriminate.
Qed.

(** ** The loop over a surface *)
Lemma surface_spec l (c : point) (rad : R) : 0 <= rad -> Forall (fun t : point * point * point => let '(p, q, r) := t in proper_triangle p q r /\ rad <= distance p c) l ->
  forall ai, (l <> [] \/ ai = false) ->
  surface_sphere l c rad ai true = Ok OUTSIDE /\ (forall y, on_surface l y -> rad <= distance y c) \/
  surface_sphere l c rad ai true = Ok INTERSECTS /\ (exists y, on_surface l y /\ distance y c <= rad).
Proof.
  intros R0 F. induction F as [|[[p q] r] l (Hp & Hn) F IH]; intros ai Hai.
  - destruct Hai as [Hai| ->]; [congruence|]. left. split; [reflexivity|]. intros y (p & q & r & [] & _).
  - cbn [surface_sphere]. pose proof (triangle_spec p q r c rad R0 Hp) as T. pose proof (triangle_not_inside p q r c rad R0 Hn) as NI.
    destruct (triangle_sphere p q r c rad) eqn:E; [congruence| |].
    + right. destruct T as ((y & Y & D) & _). split; [reflexivity|]. exists y. split; [|exact D]. exists p, q, r. split; [now left|exact Y].
    + destruct (IH false (or_intror eq_refl)) as [(-> & O)|(-> & (y & (p' & q' & r' & I & Y) & D))].
      * left. split; [reflexivity|]. intros y (p' & q' & r' & [I|I] & Y); [injection I as <- <- <-; now apply T|apply O; exists p', q', r'; auto].
      * right. split; [reflexivity|]. exists y. split; [|exact D]. exists p', q', r'. split; [now right|exact Y].
Qed.

(** ** Nodes in the sphere *)
Lemma dist2_dot (p c : point) : dist2 p c = dot (vsub p c) (vsub p c).
Proof. reflexivity. Qed.
Lemma filter_le {A} (f : A -> bool) l : (length (filter f l) <= length l)%nat.
Proof. induction l as [|a l IH]; cbn; [lia|]. destruct (f a); cbn; lia. Qed.
Lemma filter_all {A} (f : A -> bool) l : length (filter f l) = length l <-> Forall (fun a => f a = true) l.
Proof.
  induction l as [|a l IH]; cbn; [split; auto|]. destruct (f a) eqn:E; cbn; split; intros H.
  - constructor; [exact E|]. apply IH. lia.
  - f_equal. apply IH. now inversion H.
  - exfalso. pose proof (filter_le f l). lia.
  - inversion H; congruence.
Qed.
Lemma filter_none {A} (f : A -> bool) l : length (filter f l) = 0%nat <-> Forall (fun a => f a = false) l.
Proof.
  induction l as [|a l IH]; cbn; [split; auto|]. destruct (f a) eqn:E; cbn; split; intros H; try discriminate.
  - inversion H; congruence.
  - constructor; [exact E|]. now apply IH.
  - apply IH. now inversion H.
Qed.
Lemma inside_all l (c : point) (rad : R) : 0 <= rad -> (nodes_inside l c rad = length l <-> Forall (fun p => distance p c < rad) l).
Proof.
  intros R0. unfold nodes_inside. rewrite filter_all. rewrite !Forall_forall. split; intros H p I; specialize (H p I).
  - apply dist_lt; [exact R0|]. apply Rltb_true in H. exact H.
  - apply Rltb_true. apply dist_lt in H; [exact H|exact R0].
Qed.
Lemma inside_none l (c : point) (rad : R) : 0 <= rad -> (nodes_inside l c rad = 0%nat <-> Forall (fun p => rad <= distance p c) l).
Proof.
  intros R0. unfold nodes_inside. rewrite filter_none. rewrite !Forall_forall. split; intros H p I; specialize (H p I).
  - apply dist_ge; [exact R0|]. apply Rltb_false in H. exact H.
  - apply Rltb_false. apply dist_ge in H; [exact H|exact R0].
Qed.
Lemma not_all l (c : point) (rad : R) : 0 <= rad -> nodes_inside l c rad <> length l -> exists p, In p l /\ rad <= distance p c.
Proof.
  intros R0 H. rewrite (inside_all l c rad R0) in H. apply neg_Forall_Exists_neg in H; [|intros p; destruct (Rlt_dec (distance p c) rad); auto].
  apply Exists_exists in H as (p & I & N). exists p. split; [exact I|now apply Rnot_lt_le].
Qed.
Lemma not_none l (c : point) (rad : R) : 0 <= rad -> nodes_inside l c rad <> 0%nat -> exists p, In p l /\ distance p c < rad.
Proof.
  intros R0 H. rewrite (inside_none l c rad R0) in H. apply neg_Forall_Exists_neg in H; [|intros p; destruct (Rle_dec rad (distance p c)); auto].
  apply Exists_exists in H as (p & I & N). exists p. split; [exact I|now apply Rnot_le_lt].
Qed.
Lemma ball_convex l (c : point) (rad : R) y : 0 <= rad -> Forall (fun p => distance p c < rad) l -> hull l y -> distance y c < rad.
Proof.
  intros R0 F H. induction H as [p I|s x y S X IX Y IY]; [rewrite Forall_forall in F; auto|].
  apply dist_lt; [exact R0|]. apply dist_lt in IX; [|exact R0]. apply dist_lt in IY; [|exact R0].
  replace (vsub (mix2 (1 - s) s x y) c) with (mix3 (1 - s) s 0 (vsub x c) (vsub y c) (vsub y c)) by (unfold mix3, mix2; vring).
  apply mix_inside; auto; lra.
Qed.
Lemma triangle_hull l p q r y : hull l p -> hull l q -> hull l r -> in_triangle p q r y -> hull l y.
Proof.
  intros P Q Rr (u & v & w & U & V & W & S & ->).
  destruct (Req_dec (u + v) 0) as [Z|Z].
  - assert (u = 0) by lra. assert (v = 0) by lra. assert (w = 1) by lra. subst. replace (mix3 0 0 1 p q r) with r; [exact Rr|]. unfold mix3, mix2. vring.
  - replace (mix3 u v w p q r) with (mix2 (1 - w) w (mix2 (1 - v / (u + v)) (v / (u + v)) p q) r).
    + apply hull_mix; [lra| |exact Rr]. apply hull_mix; auto. split; [apply Rmult_le_pos; [lra|]; apply Rlt_le, Rinv_0_lt_compat; lra|].
      apply Rmult_le_reg_r with (u + v); [lra|]. unfold Rdiv. rewrite Rmult_assoc, Rinv_l; lra.
    + replace w with (1 - u - v) by lra. unfold mix3, mix2. apply vext; cbn; field; lra.
Qed.

(** An element given by its nodes and the triangles of its surface. *)
Section Element.
  Variables (nodes : list point) (tris : list (point * point * point)) (c : point) (rad : R).
  Hypothesis R0 : 0 <= rad.
  Hypothesis Proper : Forall (fun t : point * point * point => let '(p, q, r) := t in proper_triangle p q r) tris.
  Hypothesis Nodes : Forall (fun t : point * point * point => let '(p, q, r) := t in In p nodes) tris.
  Hypothesis Some_tris : tris <> [].
  Lemma element_spec : nodes_inside nodes c rad = 0%nat ->
    surface_sphere tris c rad true true = Ok OUTSIDE /\ (forall y, on_surface tris y -> rad <= distance y c) \/
    surface_sphere tris c rad true true = Ok INTERSECTS /\ (exists y, on_surface tris y /\ distance y c <= rad).
  Proof.
    intros Z. apply inside_none in Z; [|exact R0]. apply surface_spec; auto. rewrite Forall_forall in *. intros [[p q] r] I.
    specialize (Proper _ I). specialize (Nodes _ I). split; [exact Proper|now apply Z].
  Qed.
End Element.
