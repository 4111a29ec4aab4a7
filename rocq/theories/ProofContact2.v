(** * Consequences for contact forces: momentum, moment, work *)
From Coq Require Import Reals Lra Psatz.
From Verif Require Import Base Num ModelNeigh ModelForce ModelContact SpecDamage SpecGlobal SpecForce SpecContact ProofGlobal ProofForce ProofContact.
Local Open Scope R_scope.
Local Notation vec := (V3 RN).

(** ** two points *)
Lemma friction_value c p q t : friction_part c p q t -> at_ p <> at_ q ->
  exists s, t = vscale (N:=RN) (- s) (slip p q) /\ s * vlen (slip p q) = c_friction c * magnitude c p q /\ slip p q <> vzero \/
            t = vzero /\ slip p q = vzero.
Proof.
  intros (F0 & F1) NE. destruct (Req_dec (vlen (slip p q)) 0) as [E|E].
  - apply vlen_zero_iff in E. exists 0. right. auto.
  - assert (Z : slip p q <> vzero) by (intros Z; apply E, vlen_zero_iff, Z). destruct (F1 Z) as (s & A & B). exists s. left. auto.
Qed.

Lemma magnitude_flip c p q : volume p * magnitude c p q = volume q * magnitude c q p.
Proof. unfold magnitude. rewrite (dist_sym (at_ q)). ring. Qed.

Lemma normal_flip c p q : vscale (N:=RN) (volume p) (normal_part c p q) = vscale (N:=RN) (- volume q) (normal_part c q p).
Proof.
  unfold normal_part. rewrite (unit_flip p q). pose proof (magnitude_flip c p q) as E. revert E. generalize (magnitude c p q) (magnitude c q p) (unit_from q p).
  intros a b [x y z] E. apply vext; cbn; rewrite <- Rmult_assoc, E; ring.
Qed.

Lemma action_reaction c p q g g' : at_ p <> at_ q -> contact_of c p q g -> contact_of c q p g' ->
  vscale (N:=RN) (volume p) g = vscale (N:=RN) (- volume q) g'.
Proof.
  intros NE (t & F & ->) (t' & F' & ->). apply friction_value in F as (s & F); [|assumption]. apply friction_value in F' as (s' & F'); [|auto].
  assert (T : vscale (N:=RN) (volume p) t = vscale (N:=RN) (- volume q) t').
  { destruct F as [(-> & F & Z)|(-> & Z)], F' as [(-> & F' & Z')|(-> & Z')].
    - rewrite (slip_flip p q) in *. rewrite vlen_scale in F'. rewrite (Rabs_left (-1)) in F' by lra.
      assert (L : vlen (slip p q) <> 0) by (intros L; apply Z, vlen_zero_iff, L). pose proof (magnitude_flip c p q) as M.
      assert (E : volume p * s = volume q * s').
      { apply (Rmult_eq_reg_r (vlen (slip p q))); [|exact L]. revert F F' M. generalize (vlen (slip p q)) (magnitude c p q) (magnitude c q p) (c_friction c). cbn. intros l a b mu F F' M.
        replace (volume p * s * l) with (volume p * (s * l)) by ring. rewrite F.
        replace (volume q * s' * l) with (volume q * (s' * (- (-1) * l))) by ring. rewrite F'.
        replace (volume p * (mu * a)) with (mu * (volume p * a)) by ring. rewrite M. ring. }
      revert E. generalize (slip p q). intros [x y z] E. apply vext; cbn.
      + transitivity (- (volume p * s) * x); [ring|rewrite E; ring].
      + transitivity (- (volume p * s) * y); [ring|rewrite E; ring].
      + transitivity (- (volume p * s) * z); [ring|rewrite E; ring].
    - exfalso. apply Z. rewrite slip_flip, Z'. vring.
    - exfalso. apply Z'. rewrite slip_flip, Z. vring.
    - vring. }
  pose proof (normal_flip c p q) as N. revert N T. generalize (normal_part c p q) (normal_part c q p). intros [a b d] [a' b' d'] N T.
  destruct t as [x y z], t' as [x' y' z']. unfold vscale, vadd in *. cbn in *. injection N as N1 N2 N3. injection T as T1 T2 T3. apply vext; cbn; lra.
Qed.

(** ** sums over the entries *)
Definition pr_additive (G : nat -> vec -> R) : Prop := (forall i a b, G i (vadd a b) = G i a + G i b) /\ forall i, G i vzero = 0.

Lemma Rsum_plus {A} (f g : A -> R) l : Rsum (map (fun a => f a + g a) l) = Rsum (map f l) + Rsum (map g l).
Proof. induction l as [|a l IH]; cbn [map]; rewrite ?Rsum_cons, ?Rsum_nil; [lra|]. rewrite IH. ring. Qed.
Lemma Rsum_zero {A} (f : A -> R) l : (forall a, In a l -> f a = 0) -> Rsum (map f l) = 0.
Proof. induction l as [|a l IH]; intros H; cbn [map]; rewrite ?Rsum_cons, ?Rsum_nil; [reflexivity|]. rewrite (H a) by now left. rewrite IH by (intros; apply H; now right). ring. Qed.
Lemma Rsum_pick (h : nat -> R) p : forall n s, (s <= p < s + n)%nat -> Rsum (map (fun i => if Nat.eqb p i then h i else 0) (seq s n)) = h p.
Proof.
  induction n as [|n IH]; intros s H; [lia|]. cbn [seq map]. rewrite Rsum_cons. destruct (Nat.eqb_spec p s) as [->|NE].
  - rewrite Rsum_zero; [ring|]. intros i Hi. apply in_seq in Hi. destruct (Nat.eqb_spec s i); [lia|reflexivity].
  - rewrite IH by lia. ring.
Qed.

Lemma gsum_seq (G : nat -> vec -> R) : forall f s, gsum G s f = Rsum (map (fun i => G i (nth (i - s) f vzero)) (seq s (length f))).
Proof.
  induction f as [|a f IH]; intros s; [reflexivity|]. cbn [gsum length seq map]. rewrite Rsum_cons, Nat.sub_diag. cbn [nth]. f_equal.
  rewrite IH. f_equal. apply map_ext_in. intros i Hi. apply in_seq in Hi. destruct (i - s)%nat as [|k] eqn:E; [lia|]. cbn [nth]. do 2 f_equal. lia.
Qed.

Lemma exchange (G : nat -> vec -> R) n : pr_additive G -> forall l : list ((nat * nat) * (vec * vec)),
  Forall (fun e => (fst (fst e) < n)%nat /\ (snd (fst e) < n)%nat) l ->
  Rsum (map (fun i => G i (Vsum (map (fun eg => effect i (fst eg) (snd eg)) l))) (seq 0 n)) =
  Rsum (map (fun eg => G (fst (fst eg)) (fst (snd eg)) + G (snd (fst eg)) (snd (snd eg))) l).
Proof.
  intros (Ga & G0). induction l as [|[[p j] [g1 g2]] l IH]; intros F.
  - cbn [map]. rewrite Rsum_zero; [reflexivity|]. intros i _. apply (G0 i).
  - inversion F as [|? ? (Hp & Hj) F']; subst. cbn [fst snd] in *. rewrite map_cons, Rsum_cons, <- (IH F').
    transitivity (Rsum (map (fun i => (if Nat.eqb p i then G i g1 else 0) + ((if Nat.eqb j i then G i g2 else 0) + G i (Vsum (map (fun eg => effect i (fst eg) (snd eg)) l)))) (seq 0 n))).
    + f_equal. apply map_ext. intros i. change (Vsum (map (fun eg => effect i (fst eg) (snd eg)) (((p, j), (g1, g2)) :: l))) with
        (vadd (effect i (p, j) (g1, g2)) (Vsum (map (fun eg => effect i (fst eg) (snd eg)) l))).
      rewrite Ga. unfold effect at 1. rewrite Ga. cbn [fst snd]. destruct (Nat.eqb p i), (Nat.eqb j i); rewrite ?G0; ring.
    + rewrite !Rsum_plus, !Rsum_pick by lia. cbn [fst snd]. ring.
Qed.

Section Totals.
  Context (law : body_point -> body_point -> vec -> Prop) (pts : nat -> body_point) (entries : list (nat * nat)) (f : list vec).
  Lemma total_gsum (G : nat -> vec -> R) : pr_additive G -> total_contact law pts entries f ->
    Forall (fun e => (fst e < length f)%nat /\ (snd e < length f)%nat) entries ->
    exists gs, Forall2 (fun e g => law (pts (fst e)) (pts (snd e)) (fst g) /\ law (pts (snd e)) (pts (fst e)) (snd g)) entries gs /\
      Rsum (map (fun i => G i (nth i f vzero)) (seq 0 (length f))) =
      Rsum (map (fun eg => G (fst (fst eg)) (fst (snd eg)) + G (snd (fst eg)) (snd (snd eg))) (combine entries gs)).
  Proof.
    intros A (gs & W & K) F. exists gs. split; [exact W|]. rewrite <- (exchange G (length f) A).
    - f_equal. apply map_ext_in. intros i Hi. apply in_seq in Hi. rewrite K by lia. reflexivity.
    - apply Forall_forall. intros [e g] H. apply in_combine_l in H. rewrite Forall_forall in F. apply (F e H).
  Qed.
End Totals.

Lemma Forall2_combine {A B} (P : A -> B -> Prop) a b : Forall2 P a b -> forall x y, In (x, y) (combine a b) -> P x y.
Proof. induction 1; intros u v I; cbn in I; [contradiction|]. destruct I as [E|I]; [injection E as <- <-; assumption|auto]. Qed.

Definition linear_pr (pr : vec -> R) : Prop :=
  (forall a b, pr (vadd a b) = pr a + pr b) /\ (forall k a, pr (vscale (N:=RN) k a) = k * pr a) /\ pr vzero = 0.
Lemma linear_x : linear_pr (@vx RN). Proof. repeat split; intros; reflexivity. Qed.
Lemma linear_y : linear_pr (@vy RN). Proof. repeat split; intros; reflexivity. Qed.
Lemma linear_z : linear_pr (@vz RN). Proof. repeat split; intros; reflexivity. Qed.
Lemma by_pr (a b : vec) : (forall pr, linear_pr pr -> pr a = pr b) -> a = b.
Proof. intros H. apply vext; [apply (H _ linear_x)|apply (H _ linear_y)|apply (H _ linear_z)]. Qed.

Section Body.
  Context (c : contact_model RN) (y vel : list vec) (vols : list R) (entries : list (nat * nat)) (f : list vec).
  Hypothesis (Ly : length y = length f) (Lv : length vel = length f) (Lw : length vols = length f).
  Hypothesis (Hin : Forall (fun e => (fst e < length f)%nat /\ (snd e < length f)%nat) entries).
  Hypothesis (HT : total_contact (contact_of c) (point_at y vel vols) entries f).
  Hypothesis (NE : nowhere_coincident y entries).

  Lemma body_momentum : momentum vols f = vzero.
  Proof.
    apply by_pr. intros pr (P1 & P2 & P3). rewrite (momentum_gsum pr P1 P2 P3 f vols 0 vols Lw) by auto. rewrite P3, gsum_seq.
    destruct (total_gsum (contact_of c) (point_at y vel vols) entries f (fun i a => nth i vols 0 * pr a)) as (gs & W & E); [|exact HT|exact Hin|].
    { split; intros; cbv beta; [rewrite P1|rewrite P3]; ring. }
    rewrite (map_ext _ (fun i => nth i vols 0 * pr (nth i f vzero))) by (intros; now rewrite Nat.sub_0_r). rewrite E.
    apply Rsum_zero. intros [[p j] [g1 g2]] I. cbn [fst snd]. pose proof (Forall2_combine _ _ _ W _ _ I) as (C1 & C2). cbn [fst snd] in *.
    apply in_combine_l in I. pose proof (action_reaction c (point_at y vel vols p) (point_at y vel vols j) _ _ (NE p j I) C1 C2) as A. cbn [volume point_at] in A.
    apply (f_equal pr) in A. rewrite !P2 in A. rewrite A. ring.
  Qed.

  Lemma body_moment : c_friction c = 0 -> moment vols y f = vzero.
  Proof.
    intros MU. apply by_pr. intros pr (P1 & P2 & P3). rewrite (moment_gsum pr P1 P2 P3 f vols y 0 vols y Lw Ly) by auto. rewrite P3, gsum_seq.
    assert (Ca : forall q a b : vec, vcross q (vadd a b) = vadd (vcross q a) (vcross q b)) by (intros; vring).
    assert (C0 : forall q : vec, vcross q vzero = vzero) by (intros; vring).
    destruct (total_gsum (contact_of c) (point_at y vel vols) entries f (fun i a => nth i vols 0 * pr (vcross (nth i y vzero) a))) as (gs & W & E); [|exact HT|exact Hin|].
    { split; intros; cbv beta; [rewrite Ca, P1|rewrite C0, P3]; ring. }
    rewrite (map_ext _ (fun i => nth i vols 0 * pr (vcross (nth i y vzero) (nth i f vzero)))) by (intros; now rewrite Nat.sub_0_r). rewrite E.
    apply Rsum_zero. intros [[p j] [g1 g2]] I. cbn [fst snd]. pose proof (Forall2_combine _ _ _ W _ _ I) as (C1 & C2). cbn [fst snd] in *.
    apply in_combine_l in I. pose proof (NE p j I) as D. pose proof (action_reaction c (point_at y vel vols p) (point_at y vel vols j) _ _ D C1 C2) as A. cbn [volume point_at] in A.
    assert (X : vcross (vsub (nth p y vzero) (nth j y vzero)) g1 = vzero).
    { destruct C1 as (t & F & ->). apply friction_value in F as (s & F); [|exact D].
      assert (T : t = vzero).
      { destruct F as [(-> & F & Z)|(-> & _)]; [|reflexivity]. rewrite MU in F.
        assert (L : vlen (slip (point_at y vel vols p) (point_at y vel vols j)) <> 0) by (intros L; apply Z, vlen_zero_iff, L).
        assert (s = 0) as -> by (revert L F; generalize (vlen (slip (point_at y vel vols p) (point_at y vel vols j))); cbn; intros l L F; rewrite Rmult_0_l in F; destruct (Rmult_integral _ _ F); [assumption|contradiction]).
        generalize (slip (point_at y vel vols p) (point_at y vel vols j)). intros w. vring. }
      rewrite T. unfold normal_part, unit_from. cbn [at_ point_at]. generalize (magnitude c (point_at y vel vols p) (point_at y vel vols j)) (/ dist (nth p y vzero) (nth j y vzero)) (nth p y (@vzero RN)) (nth j y (@vzero RN)).
      intros m r a b. vring. }
    transitivity (pr (vscale (N:=RN) (nth p vols 0) (vcross (vsub (nth p y vzero) (nth j y vzero)) g1))); [|rewrite X, P2, P3; ring].
    rewrite <- !P2, <- P1. f_equal. revert A. generalize (nth p vols 0) (nth j vols 0) (nth p y (@vzero RN)) (nth j y (@vzero RN)).
    intros vp vj [a1 a2 a3] [b1 b2 b3] A. destruct g1 as [x1 x2 x3], g2 as [z1 z2 z3]. unfold vscale in A. cbn in A. injection A as A1 A2 A3.
    assert (L : forall b b' x x' z z' : R, vp * x = - vj * z -> vp * x' = - vj * z' -> b * (vp * x + vj * z) - b' * (vp * x' + vj * z') = 0) by (intros b b' x x' z z' H H'; rewrite H, H'; ring).
    pose proof (L b2 b3 x3 x2 z3 z2 A3 A2). pose proof (L b3 b1 x1 x3 z1 z3 A1 A3). pose proof (L b1 b2 x2 x1 z2 z1 A2 A1).
    apply vext; cbn; lra.
  Qed.
End Body.

(** ** work of friction *)
Lemma slip_rel p q : at_ p <> at_ q -> vdot (slip p q) (relative p q) = vdot (slip p q) (slip p q) /\ vdot (slip p q) (unit_from q p) = 0.
Proof.
  intros H. pose proof (vlen_sq (unit_from q p)) as U. rewrite (unit_len p q H) in U. unfold slip. revert U. generalize (unit_from q p) (relative p q).
  intros [u1 u2 u3] [r1 r2 r3] U. unfold vdot, vsub, vscale in *. cbn in *.
  assert (U' : u1 * u1 + u2 * u2 + u3 * u3 = 1) by lra. clear U. split.
  - set (k := r1 * u1 + r2 * u2 + r3 * u3).
    transitivity (r1 * r1 + r2 * r2 + r3 * r3 - k * k); [unfold k; ring|].
    transitivity (r1 * r1 + r2 * r2 + r3 * r3 - 2 * k * k + k * k * (u1 * u1 + u2 * u2 + u3 * u3)); [rewrite U'; ring|unfold k; ring].
  - set (k := r1 * u1 + r2 * u2 + r3 * u3).
    transitivity (k - k * (u1 * u1 + u2 * u2 + u3 * u3)); [unfold k; ring|rewrite U'; ring].
Qed.
Lemma friction_work c p q t : friction_part c p q t -> at_ p <> at_ q ->
  vdot t (relative p q) = - (c_friction c * magnitude c p q * vlen (slip p q)).
Proof.
  intros F H. apply friction_value in F as (s & [(-> & F & Z)|(-> & Z)]); [| |exact H].
  - transitivity (- s * vdot (slip p q) (relative p q)); [unfold vdot, vscale; cbn; ring|].
    rewrite (proj1 (slip_rel p q H)), <- vlen_sq, <- F. generalize (vlen (slip p q)). cbn. intros; ring.
  - rewrite Z, (proj2 (vlen_zero_iff vzero) eq_refl). unfold vdot. cbn. ring.
Qed.

Section Power.
  Context (c : contact_model RN) (y vel : list vec) (vols : list R) (entries : list (nat * nat)) (f : list vec).
  Hypothesis (Hin : Forall (fun e => (fst e < length f)%nat /\ (snd e < length f)%nat) entries).
  Hypothesis (HT : total_contact (contact_of c) (point_at y vel vols) entries f).
  Hypothesis (NE : nowhere_coincident y entries).
  Lemma body_power : power vols vel f = Rsum (map (fun e => contact_power c (point_at y vel vols (fst e)) (point_at y vel vols (snd e))) entries).
  Proof.
    unfold power.
    destruct (total_gsum (contact_of c) (point_at y vel vols) entries f (fun i a => nth i vols 0 * vdot a (nth i vel vzero))) as (gs & W & E); [|exact HT|exact Hin|].
    { split; intros; unfold vdot, vadd, vzero; cbn; ring. }
    rewrite E. clear E. revert NE. clear HT. induction W as [|[p j] [g1 g2] es gs (C1 & C2) W IH]; intros NE'; [reflexivity|].
    inversion Hin as [|? ? _ Hin']; subst. cbn [combine map]. rewrite !Rsum_cons. rewrite IH; [|exact Hin'|intros a b I; apply NE'; now right]. f_equal.
    cbn [fst snd] in *. pose proof (NE' p j (or_introl eq_refl)) as D.
    pose proof (action_reaction c (point_at y vel vols p) (point_at y vel vols j) _ _ D C1 C2) as A.
    destruct C1 as (t & F & ->). pose proof (friction_work c _ _ _ F D) as FW. unfold contact_power. set (P := point_at y vel vols p) in *. set (Q := point_at y vel vols j) in *.
    change (nth p vols 0) with (volume P). change (nth j vols 0) with (volume Q). change (nth p vel vzero) with (moving P). change (nth j vel vzero) with (moving Q).
    clearbody P Q. transitivity (volume P * vdot (vadd (normal_part c P Q) t) (relative P Q)).
    - assert (B : volume Q * vdot g2 (moving Q) = - volume P * vdot (vadd (normal_part c P Q) t) (moving Q)).
      { revert A. generalize (vadd (normal_part c P Q) t) (moving Q). intros [a1 a2 a3] [b1 b2 b3] A. destruct g2 as [x1 x2 x3].
        unfold vscale in A. cbn in A. injection A as A1 A2 A3. unfold vdot. cbn.
        transitivity (- ((- volume Q * x1) * b1 + (- volume Q * x2) * b2 + (- volume Q * x3) * b3)); [ring|]. rewrite <- A1, <- A2, <- A3. ring. }
      rewrite B. unfold relative. generalize (vadd (normal_part c P Q) t) (moving P) (moving Q). intros [a1 a2 a3] [b1 b2 b3] [d1 d2 d3]. unfold vdot, vsub. cbn. ring.
    - f_equal. transitivity (vdot (normal_part c P Q) (relative P Q) + vdot t (relative P Q)).
      + generalize (normal_part c P Q) (relative P Q). intros [a1 a2 a3] [b1 b2 b3]. destruct t. unfold vdot, vadd. cbn. ring.
      + rewrite FW. unfold normal_part. generalize (magnitude c P Q) (unit_from Q P) (relative P Q). intros m [a1 a2 a3] [b1 b2 b3].
        transitivity (m * vdot (v3 (N:=RN) b1 b2 b3) (v3 (N:=RN) a1 a2 a3) + - (c_friction c * m * vlen (slip P Q))); [f_equal; unfold vdot, vscale; cbn; ring|reflexivity].
  Qed.
End Power.

Lemma Rsum_le {A} (f g : A -> R) l : (forall a, In a l -> f a <= g a) -> Rsum (map f l) <= Rsum (map g l).
Proof.
  induction l as [|a l IH]; intros H; cbn [map]; [apply Rle_refl|]. rewrite !Rsum_cons. apply Rplus_le_compat; [apply H; now left|apply IH; intros; apply H; now right].
Qed.

(** ** one pair with friction turns *)
Lemma cross_sq (a b : vec) : vdot (vcross a b) (vcross a b) = vdot a a * vdot b b - vdot a b * vdot a b.
Proof. destruct a, b. unfold vdot, vcross. cbn. ring. Qed.
Lemma vdot_pos (a : vec) : a <> vzero -> 0 < vdot a a.
Proof.
  intros H. destruct (Rle_lt_or_eq_dec 0 (vdot a a)) as [L|E]; [apply vdot_nonneg|exact L|]. exfalso. apply H. apply vlen_zero_iff.
  pose proof (vlen_sq a) as Q. rewrite <- E in Q. revert Q. generalize (vlen a). cbn. intros l Q. nra.
Qed.

Lemma pair_turns c p q g : at_ p <> at_ q -> 0 < magnitude c p q -> c_friction c <> 0 -> slip p q <> vzero -> contact_of c p q g ->
  vcross (vsub (at_ p) (at_ q)) g <> vzero.
Proof.
  intros NE M MU SL (t & F & ->) Z. apply friction_value in F as (s & [(-> & F & _)|(_ & E)]); [|contradiction|exact NE].
  assert (S0 : s <> 0) by (intros ->; rewrite Rmult_0_l in F; symmetry in F; apply Rmult_integral in F as [F|F]; [contradiction|lra]).
  set (u := unit_from q p). assert (U : vdot u u = 1) by (unfold u; rewrite <- vlen_sq, (unit_len p q NE); cbn; ring).
  pose proof (proj2 (slip_rel p q NE)) as O. fold u in O. pose proof (vdot_pos _ SL) as SP. pose proof (cross_sq u (slip p q)) as X.
  pose proof (dist_pos _ _ NE) as D.
  assert (E : vsub (at_ p) (at_ q) = vscale (N:=RN) (dist (at_ p) (at_ q)) u).
  { unfold u, unit_from. destruct (at_ p), (at_ q). apply vext; cbn; field; apply Rgt_not_eq; exact D. }
  rewrite E in Z. unfold normal_part in Z. fold u in Z.
  assert (Z' : vscale (N:=RN) (- (dist (at_ p) (at_ q) * s)) (vcross u (slip p q)) = vzero).
  { rewrite <- Z. generalize (dist (at_ p) (at_ q)) (magnitude c p q) u (slip p q). intros d m [u1 u2 u3] [s1 s2 s3]. apply vext; cbn; ring. }
  assert (K : - (dist (at_ p) (at_ q) * s) <> 0) by (apply Ropp_neq_0_compat, Rmult_integral_contrapositive; split; [lra|exact S0]).
  assert (C : vcross u (slip p q) = vzero).
  { revert Z' K. generalize (- (dist (at_ p) (at_ q) * s)) (vcross u (slip p q)). intros k [a b e] Z' K. unfold vscale in Z'. cbn in Z'. injection Z' as Z1 Z2 Z3.
    apply vext; cbn; [destruct (Rmult_integral _ _ Z1)|destruct (Rmult_integral _ _ Z2)|destruct (Rmult_integral _ _ Z3)]; try contradiction; assumption. }
  rewrite C, U in X. replace (vdot u (slip p q)) with 0 in X by (rewrite <- O; unfold vdot; cbn; ring).
  revert X SP. generalize (vdot (slip p q) (slip p q)). unfold vdot. cbn. intros; lra.
Qed.
