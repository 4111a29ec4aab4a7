(** * Proofs about the contact force *)
From Coq Require Import Reals Lra Psatz.
From Verif Require Import Base Num ModelNeigh ModelForce ModelContact SpecDamage SpecGlobal SpecForce SpecContact ProofGlobal ProofForce.
From Verif Require Import ProofData ProofDamage.
Local Open Scope R_scope.
Local Notation vec := (V3 RN).

(** ** vectors *)
Ltac vecs := repeat match goal with v : V3 RN |- _ => destruct v end.
Ltac vring := vecs; apply vext; unfold vadd, vsub, vscale, vopp, vcross, vdivr, along, vzero, vdot; cbn; try ring; try lra.

Lemma vadd_0_r (a : vec) : vadd a vzero = a.
Proof. vring. Qed.
Lemma dist_vlen (a b : vec) : dist a b = vlen (vsub b a).
Proof. reflexivity. Qed.
Lemma dist_sym (a b : vec) : dist a b = dist b a.
Proof. unfold dist. f_equal. unfold Rsqr. ring. Qed.
Lemma vlen_scale (k : R) (a : vec) : vlen (vscale (N:=RN) k a) = Rabs k * vlen a.
Proof.
  unfold vlen. cbn [sqr_root RN]. rewrite <- (sqrt_Rsqr_abs k), <- sqrt_mult by (apply Rle_0_sqr || apply vdot_nonneg).
  f_equal. unfold vdot, vscale, Rsqr. cbn. ring.
Qed.
Lemma vlen_zero_iff (a : vec) : (vlen a : R) = 0 <-> a = vzero.
Proof.
  split.
  - intros H. assert (Q : 0 = vdot a a) by (rewrite <- vlen_sq; etransitivity; [|exact (f_equal (fun r => r * r) (eq_sym H))]; symmetry; apply Rmult_0_l).
    destruct a as [x y z]. unfold vdot in Q. cbn in Q. clear H. apply vext; cbn; nra.
  - intros ->. unfold vlen, vdot. cbn. replace (0 * 0 + 0 * 0 + 0 * 0) with 0 by ring. apply sqrt_0.
Qed.
Lemma dist_pos (a b : vec) : a <> b -> 0 < dist a b.
Proof.
  intros H. destruct (Rle_lt_or_eq_dec 0 (dist a b)) as [L|E]; [apply sqrt_pos|exact L|]. exfalso. apply H.
  rewrite dist_vlen in E. symmetry in E. apply vlen_zero_iff in E. destruct a, b. injection E as X Y Z. cbn in *. apply vext; cbn; lra.
Qed.

(** ** one pair *)
Lemma modulus_nonneg c : sensible c -> 0 <= contact_modulus c.
Proof.
  intros (_ & K & H). unfold contact_modulus. pose proof PI_RGT_0. apply Rmult_le_pos; [apply Rmult_le_pos; [lra|exact K]|].
  apply Rlt_le, Rinv_0_lt_compat, Rmult_lt_0_compat; [assumption|]. apply pow_lt. exact H.
Qed.
Lemma stiffness_eq (c : contact_model RN) (d : R) : 0 < c_horizon c -> stiffness c d = contact_modulus c * (c_radius c - d).
Proof. intros H. unfold stiffness, contact_modulus. to_R. pose proof PI_RGT_0. field. lra. Qed.
Lemma unit_len p q : at_ p <> at_ q -> vlen (unit_from q p) = 1.
Proof.
  intros H. unfold unit_from. apply dist_pos in H. rewrite vlen_scale. rewrite Rabs_pos_eq by (apply Rlt_le, Rinv_0_lt_compat, H).
  rewrite dist_sym, dist_vlen. rewrite dist_sym, dist_vlen in H. apply Rinv_l. apply Rgt_not_eq. exact H.
Qed.
Lemma magnitude_nonneg c p q : sensible c -> 0 <= volume q -> 0 <= magnitude c p q.
Proof. intros S V. unfold magnitude. apply Rmult_le_pos; [apply Rmult_le_pos; [now apply modulus_nonneg|apply Rmax_l]|exact V]. Qed.

(** the code's branch *)
Lemma inside_iff (r : R) (a b : vec) : 0 <= r ->
  ltb (n:=RN) (vdot (vsub a b) (vsub a b)) (r * r) = true <-> dist a b < r.
Proof.
  intros P. cbn [ltb RN]. rewrite Rltb_true. rewrite dist_sym, dist_vlen, <- vlen_sq. pose proof (vlen_nonneg (vsub a b)) as Q.
  revert Q. generalize (vlen (vsub a b)). cbn. intros t Q. split; nra.
Qed.

Lemma unit_flip p q : unit_from p q = vscale (N:=RN) (-1) (unit_from q p).
Proof. unfold unit_from. rewrite (dist_sym (at_ q)). generalize (/ dist (at_ p) (at_ q)). intros r. destruct p as [a b v], q as [a' b' v']. cbn. vring. Qed.
Lemma slip_flip p q : slip q p = vscale (N:=RN) (-1) (slip p q).
Proof. unfold slip. rewrite (unit_flip p q). generalize (unit_from q p). intros u. destruct p as [a b v], q as [a' b' v']. unfold relative. cbn. vring. Qed.

Lemma friction_ok (c : contact_model RN) p q (nn : R) (vr : vec) :
  sensible c -> nn = magnitude c p q -> vr = vscale (N:=RN) (/ 2) (slip p q) ->
  friction_part c p q (friction_force (c_friction c) nn vr).
Proof.
  intros S -> ->. unfold friction_force. set (sl := slip p q). set (m := magnitude c p q). cbv zeta.
  assert (E : vlen (vscale (N:=RN) (/ 2) sl) = / 2 * vlen sl) by (rewrite vlen_scale, Rabs_pos_eq by lra; reflexivity).
  cbn [eqb RN]. change (ofZ 0) with 0. unfold friction_part. fold sl m.
  destruct (Reqb (vlen (vscale (N:=RN) (/ 2) sl)) 0) eqn:B; cbn [negb].
  - apply Reqb_true in B. assert (Z : sl = vzero) by (apply vlen_zero_iff; revert E B; generalize (vlen sl) (vlen (vscale (N:=RN) (/2) sl)); cbn; intros; lra).
    split; [reflexivity|]. intros F. contradiction.
  - apply Reqb_false in B. assert (Z : sl <> vzero) by (intros Z; apply B; rewrite E, Z; rewrite (proj2 (vlen_zero_iff vzero) eq_refl); cbn; ring).
    split; [intros; contradiction|]. intros _. assert (L : vlen sl <> 0) by (intros L; apply Z, vlen_zero_iff, L).
    exists (c_friction c * m / vlen sl). split.
    + rewrite E. revert L. generalize (vlen sl). cbn. intros l L. destruct sl as [a b d]. apply vext; cbn; field; exact L.
    + revert L. generalize (vlen sl). cbn. intros l L. field. exact L.
Qed.

Lemma upd_nth_eq A (d : A) : forall l i a l' k, upd l i a = Some l' -> nth k l' d = if Nat.eqb i k then a else nth k l d.
Proof.
  induction l as [|b l IH]; intros i a l' k U; [discriminate|]. destruct i as [|i]; cbn [upd] in U.
  - injection U as <-. destruct k; reflexivity.
  - destruct (upd l i a) as [m|] eqn:E; [|discriminate]. injection U as <-. destruct k as [|k]; [reflexivity|]. cbn [nth Nat.eqb]. eauto.
Qed.
Lemma add_at_nth (f f' : list vec) i v k : add_at f i v = Ok f' ->
  nth k f' vzero = vadd (nth k f vzero) (if Nat.eqb i k then v else vzero).
Proof.
  intros H. unfold add_at in H. apply bind_Ok in H as [a [H1 H2]]. apply at_ub_Ok in H1. unfold upd_ub in H2.
  destruct (upd f i (vadd a v)) eqn:E; [|discriminate]. injection H2 as <-. rewrite (upd_nth_eq _ vzero _ _ _ _ k E).
  destruct (Nat.eqb_spec i k) as [<-|].
  - now rewrite (nth_error_nth f i vzero H1).
  - generalize (nth k f (@vzero RN)). intros w. vring.
Qed.
Lemma sub_at_nth (f f' : list vec) i v k : sub_at f i v = Ok f' ->
  nth k f' vzero = vadd (nth k f vzero) (if Nat.eqb i k then vscale (N:=RN) (-1) v else vzero).
Proof.
  intros H. unfold sub_at in H. apply bind_Ok in H as [a [H1 H2]]. apply at_ub_Ok in H1. unfold upd_ub in H2.
  destruct (upd f i (vsub a v)) eqn:E; [|discriminate]. injection H2 as <-. rewrite (upd_nth_eq _ vzero _ _ _ _ k E).
  destruct (Nat.eqb_spec i k) as [<-|].
  - rewrite (nth_error_nth f i vzero H1). vring.
  - generalize (nth k f (@vzero RN)). intros w. vring.
Qed.

(** what an entry adds *)
Definition effect (i : nat) (e : nat * nat) (g : vec * vec) : vec :=
  vadd (if Nat.eqb (fst e) i then fst g else vzero) (if Nat.eqb (snd e) i then snd g else vzero).
Definition law2 (c : contact_model RN) (pts : nat -> body_point) (e : nat * nat) (g : vec * vec) : Prop :=
  contact_of c (pts (fst e)) (pts (snd e)) (fst g) /\ contact_of c (pts (snd e)) (pts (fst e)) (snd g).

Lemma at_nth {A} (l : list A) i d : (i < length l)%nat -> at_ub l i = Ok (nth i l d).
Proof. intros H. unfold at_ub. now rewrite (nth_error_nth' l d H). Qed.

Lemma contact_outside c p q : sensible c -> c_radius c <= dist (at_ p) (at_ q) -> contact_of c p q vzero.
Proof.
  intros S D. assert (M : magnitude c p q = 0) by (unfold magnitude; rewrite Rmax_left by lra; ring).
  exists vzero. split.
  - split; [reflexivity|]. intros _. exists 0. rewrite M. split; [vring|ring].
  - unfold normal_part. rewrite M. generalize (unit_from q p). intros u. vring.
Qed.

Lemma pair_ok c y vel vols p j f n :
  sensible c -> length y = n -> length vel = n -> length vols = n -> length f = n -> (p < n)%nat -> (j < n)%nat ->
  Forall (fun r => 0 <= r) vols -> nth p y vzero <> nth j y vzero ->
  exists f' g, contact_pair c y vel vols (nth p y vzero) (nth p vel vzero) (nth p vols 0) p j f = Ok f' /\ length f' = n /\
    law2 c (point_at y vel vols) (p, j) g /\ forall i, nth i f' vzero = vadd (nth i f vzero) (effect i (p, j) g).
Proof.
  intros S Ly Lv Lw Lf Hp Hj V NE. unfold contact_pair. rewrite (at_nth y j vzero) by lia. cbn [bind].
  set (P := point_at y vel vols p). set (Q := point_at y vel vols j).
  assert (VP : 0 <= volume P) by (cbn; rewrite Forall_forall in V; apply V, nth_In; lia).
  assert (VQ : 0 <= volume Q) by (cbn; rewrite Forall_forall in V; apply V, nth_In; lia).
  change (nth p y vzero) with (at_ P) in *. change (nth j y vzero) with (at_ Q) in *. change (nth p vel vzero) with (moving P).
  change (nth p vols 0) with (volume P).
  pose proof (inside_iff (c_radius c) (at_ P) (at_ Q) (proj1 S)) as I.
  destruct (ltb (vdot (vsub (at_ P) (at_ Q)) (vsub (at_ P) (at_ Q))) (mul (c_radius c) (c_radius c))) eqn:B.
  2: { assert (D : c_radius c <= dist (at_ P) (at_ Q)) by (destruct (Rle_or_lt (c_radius c) (dist (at_ P) (at_ Q))) as [L|L]; [exact L|exfalso; apply Bool.diff_true_false; etransitivity; [symmetry; exact (proj2 I L)|exact B]]).
       exists f, (vzero, vzero). split; [reflexivity|]. split; [exact Lf|]. split; [split; apply contact_outside; auto|].
       - fold P Q. cbn [fst snd]. now rewrite dist_sym.
       - intros i. unfold effect. cbn [fst snd]. generalize (nth i f (@vzero RN)). intros w. destruct (Nat.eqb p i), (Nat.eqb j i); vring. }
  assert (D : dist (at_ P) (at_ Q) < c_radius c) by now apply I. clear I B.
  assert (EV : at_ub (A:=T RN) vols j = Ok (volume Q)) by (apply (at_nth (A:=R)); lia). rewrite EV. cbn [bind].
  assert (Ed : vlen (vsub (at_ P) (at_ Q)) = dist (at_ P) (at_ Q)) by (rewrite dist_sym; reflexivity). rewrite Ed.
  pose proof (dist_pos _ _ NE) as DP. rewrite (stiffness_eq c _ (proj2 (proj2 S))).
  set (d := dist (at_ P) (at_ Q)) in *.
  assert (M : contact_modulus c * (c_radius c - d) * volume Q = magnitude c P Q) by (unfold magnitude; fold d; rewrite Rmax_right by (apply Rlt_le; lra); reflexivity).
  assert (M' : contact_modulus c * (c_radius c - d) * volume P = magnitude c Q P) by (unfold magnitude; rewrite dist_sym; fold d; rewrite Rmax_right by (apply Rlt_le; lra); reflexivity).
  assert (N1 : vscale (N:=RN) (-1) (along (N:=RN) (contact_modulus c * (c_radius c - d) * volume Q) (vsub (at_ Q) (at_ P)) d) = normal_part c P Q).
  { rewrite M. unfold normal_part, unit_from. fold d. generalize (magnitude c P Q). intros m. destruct (at_ P), (at_ Q). apply vext; cbn; field; lra. }
  assert (N2 : along (N:=RN) (contact_modulus c * (c_radius c - d) * volume P) (vsub (at_ Q) (at_ P)) d = normal_part c Q P).
  { rewrite M'. unfold normal_part, unit_from. rewrite (dist_sym (at_ Q)). fold d. generalize (magnitude c Q P). intros m. destruct (at_ P), (at_ Q). apply vext; cbn; field; lra. }

  unfold effect, law2. fold P Q. cbn [fst snd mul RN].
  destruct (negb (eqb (c_friction c) (ofZ 0))) eqn:FR.
  - rewrite (at_nth vel j vzero) by lia. cbn [bind]. change (nth j vel vzero) with (moving Q).
    set (cur := vopp _). set (nb := along (N:=RN) (contact_modulus c * (c_radius c - d) * volume P) _ d).
    set (vperp := across (moving P) _). set (wperp := across (moving Q) _). set (vcm := vscale _ (vadd vperp wperp)).
    assert (C1 : cur = normal_part c P Q) by (rewrite <- N1; unfold cur; generalize (along (N:=RN) (contact_modulus c * (c_radius c - d) * volume Q) (vsub (at_ Q) (at_ P)) d); intros w; vring).
    assert (C2 : nb = normal_part c Q P) by exact N2.
    assert (L1 : vlen cur = magnitude c P Q) by (rewrite C1; unfold normal_part; rewrite vlen_scale, (unit_len P Q NE), Rabs_pos_eq by (now apply magnitude_nonneg); apply Rmult_1_r).
    assert (L2 : vlen nb = magnitude c Q P) by (rewrite C2; unfold normal_part; rewrite vlen_scale, (unit_len Q P (not_eq_sym NE)), Rabs_pos_eq by (now apply magnitude_nonneg); apply Rmult_1_r).
    assert (NU : vdivr (vsub (at_ Q) (at_ P)) d = vscale (N:=RN) (-1) (unit_from Q P)).
    { unfold unit_from. fold d. destruct (at_ P), (at_ Q). apply vext; cbn; field; lra. }
    assert (SL : vsub vperp wperp = slip P Q).
    { unfold vperp, wperp. rewrite NU. unfold slip, across, relative. generalize (unit_from Q P) (moving P) (moving Q). intros u a b. vring. }
    assert (V1 : vsub vperp vcm = vscale (N:=RN) (/ 2) (slip P Q)) by (rewrite <- SL; unfold vcm; generalize vperp wperp; intros a b; vring).
    assert (V2 : vsub wperp vcm = vscale (N:=RN) (/ 2) (slip Q P)) by (rewrite slip_flip, <- SL; unfold vcm; generalize vperp wperp; intros a b; vring).
    pose proof (friction_ok c P Q _ _ S L1 V1) as F1. pose proof (friction_ok c Q P _ _ S L2 V2) as F2.
    revert F1 F2. generalize (friction_force (c_friction c) (vlen cur) (vsub vperp vcm)) (friction_force (c_friction c) (vlen nb) (vsub wperp vcm)). intros t1 t2 F1 F2.
    destruct (add_at_ok f p (vadd cur t1)) as [f1 E1]; [lia|]. rewrite E1. cbn [bind]. pose proof (add_at_len _ _ _ _ E1) as Q1.
    destruct (add_at_ok f1 j (vadd nb t2)) as [f2 E2]; [lia|]. pose proof (add_at_len _ _ _ _ E2) as Q2.
    exists f2, (vadd cur t1, vadd nb t2). split; [exact E2|]. split; [lia|]. cbn [fst snd]. split.
    + split; [exists t1|exists t2]; (split; [assumption|]); [now rewrite C1|now rewrite C2].
    + intros i. rewrite (add_at_nth _ _ _ _ i E2), (add_at_nth _ _ _ _ i E1).
      generalize (nth i f (@vzero RN)) (if Nat.eqb p i then vadd cur t1 else vzero) (if Nat.eqb j i then vadd nb t2 else vzero). intros a b e. vring.
  - assert (Z : c_friction c = 0) by (cbn [eqb RN] in FR; apply negb_false_iff, Reqb_true in FR; exact FR).
    assert (FZ : forall a b, friction_part c a b vzero).
    { intros a b. split; [reflexivity|]. intros _. exists 0. rewrite Z. split; [generalize (slip a b); intros w; vring|ring]. }
    set (cur := along (N:=RN) (contact_modulus c * (c_radius c - d) * volume Q) _ d) in *. set (nb := along (N:=RN) (contact_modulus c * (c_radius c - d) * volume P) _ d) in *.
    destruct (sub_at_ok f p cur) as [f1 E1]; [lia|]. rewrite E1. cbn [bind]. pose proof (sub_at_len _ _ _ _ E1) as Q1.
    destruct (add_at_ok f1 j nb) as [f2 E2]; [lia|]. pose proof (add_at_len _ _ _ _ E2) as Q2.
    exists f2, (vscale (N:=RN) (-1) cur, nb). split; [exact E2|]. split; [lia|]. cbn [fst snd]. split.
    + split; exists vzero; (split; [apply FZ|]); rewrite vadd_0_r; [exact N1|exact N2].
    + intros i. rewrite (add_at_nth _ _ _ _ i E2), (sub_at_nth _ _ _ _ i E1).
      generalize (nth i f (@vzero RN)) (if Nat.eqb p i then vscale (N:=RN) (-1) cur else vzero) (if Nat.eqb j i then nb else vzero). intros a b e. vring.
Qed.

(** ** the loop *)
Lemma neighbors_ok c y vel vols p n : sensible c -> length y = n -> length vel = n -> length vols = n -> (p < n)%nat ->
  Forall (fun r => 0 <= r) vols -> forall js f, length f = n -> Forall (fun j => (j < n)%nat) js ->
  (forall j, In j js -> nth p y vzero <> nth j y vzero) ->
  exists f' gs, contact_neighbors c y vel vols (nth p y vzero) (nth p vel vzero) (nth p vols 0) p (map Z.of_nat js) f = Ok f' /\ length f' = n /\
    Forall2 (law2 c (point_at y vel vols)) (map (pair p) js) gs /\
    forall i, nth i f' vzero = vadd (nth i f vzero) (Vsum (map (fun eg => effect i (fst eg) (snd eg)) (combine (map (pair p) js) gs))).
Proof.
  intros S Ly Lv Lw Hp V. unfold contact_neighbors. induction js as [|j js IH]; intros f Lf F NE.
  - exists f, []. cbn [map foldM]. split; [reflexivity|]. split; [exact Lf|]. split; [constructor|]. intros i. cbn. symmetry. apply (vadd_0_r (nth i f vzero)).
  - inversion F as [|? ? Hj F']; subst. cbn [map foldM]. replace (Z.ltb (Z.of_nat j) 0) with false by (symmetry; apply Z.ltb_ge; lia).
    rewrite Nat2Z.id. destruct (pair_ok c y vel vols p j f (length y)) as (f1 & g & E1 & L1 & W & K); auto; [apply NE; now left|]. rewrite E1. cbn [bind].
    destruct (IH f1 L1 F') as (f2 & gs & E2 & L2 & W2 & K2); [intros k Hk; apply NE; now right|].
    exists f2, (g :: gs). split; [exact E2|]. split; [exact L2|]. split; [constructor; assumption|].
    intros i. rewrite K2, K. cbn [combine map fst snd].
    generalize (nth i f (@vzero RN)) (effect i (p, j) g) (map (fun eg => effect i (fst eg) (snd eg)) (combine (map (pair p) js) gs)).
    intros a b l. change (Vsum (b :: l)) with (vadd b (Vsum l)). generalize (Vsum l). intros e. vring.
Qed.

Lemma combine_app {A B} (a a' : list A) (b b' : list B) : length a = length b -> combine (a ++ a') (b ++ b') = combine a b ++ combine a' b'.
Proof. revert b. induction a as [|x a IH]; intros [|y b] H; try discriminate; [reflexivity|]. cbn. f_equal. apply IH. now injection H. Qed.
Lemma Forall2_len {A B} (P : A -> B -> Prop) a b : Forall2 P a b -> length a = length b.
Proof. induction 1; cbn; congruence. Qed.

Lemma walk_ok c y vel vols n : sensible c -> length y = n -> length vel = n -> length vols = n ->
  Forall (fun r => 0 <= r) vols -> forall nbrs owned f, length owned = length nbrs -> length f = n ->
  Forall (fun p => (p < n)%nat) owned -> Forall (Forall (fun j => (j < n)%nat)) nbrs ->
  nowhere_coincident y (bonds_of owned nbrs) ->
  exists f' gs, contact_walk c y vel vols owned (contact_list nbrs) f = Ok f' /\ length f' = n /\
    Forall2 (law2 c (point_at y vel vols)) (bonds_of owned nbrs) gs /\
    forall i, nth i f' vzero = vadd (nth i f vzero) (Vsum (map (fun eg => effect i (fst eg) (snd eg)) (combine (bonds_of owned nbrs) gs))).
Proof.
  intros S Ly Lv Lw V. induction nbrs as [|js nbrs IH]; intros owned f Lo Lf Fo Fn NE.
  - destruct owned; [|discriminate]. exists f, []. cbn. split; [reflexivity|]. split; [exact Lf|]. split; [constructor|]. intros i. symmetry. apply (vadd_0_r (nth i f vzero)).
  - destruct owned as [|p owned]; [discriminate|]. cbn [length] in Lo. injection Lo as Lo. inversion Fo as [|? ? Hp Fo']; subst. inversion Fn as [|? ? Fj Fn']; subst.
    assert (B : bonds_of (p :: owned) (js :: nbrs) = map (pair p) js ++ bonds_of owned nbrs) by reflexivity. rewrite B in NE |- *.
    assert (NE1 : forall j, In j js -> nth p y vzero <> nth j y vzero) by (intros j Hj; apply NE, in_or_app; left; now apply in_map).
    assert (NE2 : nowhere_coincident y (bonds_of owned nbrs)) by (intros a b Hab; apply NE, in_or_app; now right).
    destruct (neighbors_ok c y vel vols p (length y) S eq_refl Lv Lw Hp V js f Lf Fj NE1) as (f1 & g1 & E1 & L1 & W1 & K1).
    destruct (IH owned f1 Lo L1 Fo' Fn' NE2) as (f2 & g2 & E2 & L2 & W2 & K2).
    exists f2, (g1 ++ g2). split; [|split; [exact L2|split; [now apply Forall2_app|]]].
    + unfold contact_list. cbn [flat_map]. cbn [contact_walk app]. fold (contact_list nbrs). destruct js as [|j js].
      * cbn. injection E1 as <-. exact E2.
      * replace (Z.ltb 0 (Z.of_nat (length (j :: js)))) with true by (symmetry; apply Z.ltb_lt; cbn [length]; lia).
        rewrite Nat2Z.id, app_length, map_length. replace (Nat.ltb _ _) with false by (symmetry; apply Nat.ltb_ge; lia).
        rewrite (at_nth y p vzero), (at_nth vel p vzero) by lia. cbn [bind].
        assert (EV : at_ub (A:=T RN) vols p = Ok (nth p vols 0)) by (apply (at_nth (A:=R)); lia). rewrite EV. cbn [bind].
        replace (firstn (length (j :: js)) (map Z.of_nat (j :: js) ++ contact_list nbrs)) with (map Z.of_nat (j :: js)).
        2: { rewrite firstn_app, map_length, Nat.sub_diag, firstn_O, app_nil_r. symmetry. apply firstn_all2. now rewrite map_length. }
        replace (skipn (length (j :: js)) (map Z.of_nat (j :: js) ++ contact_list nbrs)) with (contact_list nbrs).
        2: { rewrite skipn_app, map_length, Nat.sub_diag, skipn_O. rewrite skipn_all2 by now rewrite map_length. reflexivity. }
        rewrite E1. cbn [bind]. exact E2.
    + intros i. rewrite K2, K1. rewrite combine_app by (eapply Forall2_len; exact W1). rewrite map_app, Vsum_app.
      generalize (nth i f (@vzero RN)). generalize (Vsum (map (fun eg => effect i (fst eg) (snd eg)) (combine (map (pair p) js) g1))) (Vsum (map (fun eg => effect i (fst eg) (snd eg)) (combine (bonds_of owned nbrs) g2))).
      intros a b e. vring.
Qed.

Lemma nth_zeros (f : list vec) i : nth i (map (fun _ => v3 (N:=RN) (ofZ 0) (ofZ 0) (ofZ 0)) f) vzero = vzero.
Proof. revert i. induction f as [|a f IH]; intros [|i]; cbn; auto. Qed.

Lemma total_ok c n y vel vols f owned nbrs : sensible c -> contact_inputs n y vel vols f owned nbrs -> Forall (fun r => 0 <= r) vols ->
  nowhere_coincident y (bonds_of owned nbrs) ->
  exists f', computeForce c y vel vols owned (contact_list nbrs) f = Ok f' /\ length f' = n /\
    total_contact (contact_of c) (point_at y vel vols) (bonds_of owned nbrs) f'.
Proof.
  intros S (Ly & Lv & Lw & Lf & Lo & Fo & Fn) V NE. unfold computeForce.
  destruct (walk_ok c y vel vols n S Ly Lv Lw V nbrs owned (map (fun _ => v3 (N:=RN) (ofZ 0) (ofZ 0) (ofZ 0)) f) Lo) as (f' & gs & E & L & W & K); auto; [now rewrite map_length|].
  exists f'. split; [exact E|]. split; [exact L|]. exists gs. split; [exact W|]. intros i _. rewrite K, nth_zeros.
  unfold effect. match goal with |- vadd vzero ?s = _ => generalize s end. intros s. vring.
Qed.
