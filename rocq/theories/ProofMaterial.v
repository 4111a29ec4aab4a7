From Coq Require Import Reals Lra Lia.
From Verif Require Import Base Num ModelNeigh SpecDamage ModelForce SpecForce ProofData ProofDamage ProofForce ProofKernels ProofFrame.
Local Open Scope R_scope.
Local Notation vec := (V3 RN).

Lemma Ok_pair : forall A B (a c : A) (b d : B), Ok (a, b) = Ok (c, d) -> c = a /\ d = b.
Proof. intros A B a c b d H. now injection H. Qed.

(** ** C09, C10 *)
Lemma momentum_zero : forall v n, momentum v (repeat vzero n) = vzero.
Proof.
  intros v n. revert v. induction n; intros [|a v]; simpl; auto. rewrite IHn. apply v3_ext; cbn; to_R; ring.
Qed.
Lemma moment_zero : forall v pos n, moment v pos (repeat vzero n) = vzero.
Proof.
  intros v pos n. revert v pos. induction n; intros [|a v] [|q pos]; simpl; auto. rewrite IHn. apply v3_ext; cbn; to_R; ring.
Qed.

Lemma conserve : forall D S (K : kernel RN D S) n nbrs v pos f,
  length v = n -> length pos = n -> length f = n -> total_on K nbrs n -> balanced K nbrs v -> parallel_on K nbrs pos ->
  exists f' out, run_kernel K nbrs f = Ok (f', out) /\ length f' = n /\ momentum v f' = momentum v f /\ moment v pos f' = moment v pos f.
Proof.
  intros D S K n nbrs v pos f H1 H2 H3 HT HB HP. subst n.
  rewrite <- H3 in HT. destruct (run_total K nbrs f HT) as (f' & out & E & Hl & _).
  exists f', out. repeat split; auto; try congruence.
  - eapply run_momentum; eauto. - eapply run_moment; eauto; congruence.
Qed.

(** ** C08: a broken bond's own force *)
Lemma broken_value : forall (dmg : list R) k b, at_ub dmg k = Ok b -> nth_error dmg k = Some 1 -> b = 1.
Proof. intros dmg k b H1 H2. apply at_ub_Ok in H1. rewrite H1 in H2. now injection H2. Qed.

Definition zero_when {D S} (K : kernel RN D S) (nbrs : list (list nat)) (P : nat -> nat -> nat -> Prop) : Prop :=
  forall p k j js d fb s, nth_error nbrs p = Some js -> pre _ _ K p (offset nbrs p) js = Ok d -> bond_at nbrs p k j -> P p k j ->
    bond _ _ K d p k j = Ok (fb, s) -> fb = vzero.

Lemma vmul0 : forall k : R, vmulr (N:=RN) (@vzero RN) k = vzero.
Proof. intros. apply v3_ext; cbn; to_R; ring. Qed.
Lemma vadd0 : forall a : vec, vadd a vzero = a.
Proof. intros []. apply v3_ext; cbn; to_R; ring. Qed.
Lemma vsub0 : forall a : vec, vsub a vzero = a.
Proof. intros []. apply v3_ext; cbn; to_R; ring. Qed.

Lemma upd_same : forall A (l : list A) i a l', nth_error l i = Some a -> upd l i a = Some l' -> l' = l.
Proof.
  induction l; intros i b l' H U; simpl in *; [discriminate|]. destruct i; simpl in H.
  - injection H as ->. now injection U.
  - destruct (upd l i b) eqn:E; [|discriminate]. injection U as <-. f_equal. eauto.
Qed.
Lemma add0_at : forall (f f' : list vec) i, add_at f i vzero = Ok f' -> f' = f.
Proof.
  intros f f' i H. unfold add_at in H. apply bind_Ok in H as [a [E H]]. rewrite vadd0 in H. unfold upd_ub in H.
  destruct (upd f i a) eqn:U; [|discriminate]. injection H as <-. apply at_ub_Ok in E. eapply upd_same; eauto.
Qed.
Lemma sub0_at : forall (f f' : list vec) i, sub_at f i vzero = Ok f' -> f' = f.
Proof.
  intros f f' i H. unfold sub_at in H. apply bind_Ok in H as [a [E H]]. rewrite vsub0 in H. unfold upd_ub in H.
  destruct (upd f i a) eqn:U; [|discriminate]. injection H as <-. apply at_ub_Ok in E. eapply upd_same; eauto.
Qed.
Lemma upd_other : forall A (l : list A) i a l' q, upd l i a = Some l' -> q <> i -> nth_error l' q = nth_error l q.
Proof.
  induction l; intros i b l' q H N; simpl in *; [discriminate|]. destruct i; [injection H as <-|destruct (upd l i b) eqn:E; [|discriminate]; injection H as <-].
  - destruct q; [congruence|reflexivity].
  - destruct q; simpl; auto. eapply IHl; eauto.
Qed.
Lemma add_other : forall (f f' : list vec) i v q, add_at f i v = Ok f' -> q <> i -> nth_error f' q = nth_error f q.
Proof.
  intros f f' i v q H N. unfold add_at in H. apply bind_Ok in H as [a [E H]]. unfold upd_ub in H.
  destruct (upd f i (vadd a v)) eqn:U; [|discriminate]. injection H as <-. eapply upd_other; eauto.
Qed.
Lemma sub_other : forall (f f' : list vec) i v q, sub_at f i v = Ok f' -> q <> i -> nth_error f' q = nth_error f q.
Proof.
  intros f f' i v q H N. unfold sub_at in H. apply bind_Ok in H as [a [E H]]. unfold upd_ub in H.
  destruct (upd f i (vsub a v)) eqn:U; [|discriminate]. injection H as <-. eapply upd_other; eauto.
Qed.

Lemma run_untouched : forall D S (K : kernel RN D S) nbrs i,
  zero_when K nbrs (fun p k j => p = i \/ j = i) ->
  forall f f' out, run_kernel K nbrs f = Ok (f', out) -> nth_error f' i = nth_error f i.
Proof.
  intros D S K nbrs i HZ f f' out H.
  apply (run_inv K nbrs (fun g => nth_error g i = nth_error f i)) in H; auto.
  intros g g2 p k j d fb s vn vs (js & f1 & Q1 & Q2 & Q3 & Q4 & Q5 & E1 & E2) Hg. cbv beta in *. rewrite <- Hg.
  destruct (Nat.eq_dec p i) as [->|Np]; [|destruct (Nat.eq_dec j i) as [->|Nj]].
  1,2: assert (fb = vzero) by (eapply HZ; eauto); subst fb; rewrite vmul0 in *;
       apply add0_at in E1; apply sub0_at in E2; congruence.
  transitivity (nth_error f1 i); [eapply sub_other; eauto|eapply add_other; eauto].
Qed.
Lemma run_zero : forall D S (K : kernel RN D S) nbrs, zero_when K nbrs (fun _ _ _ => True) ->
  forall f f' out, run_kernel K nbrs f = Ok (f', out) -> f' = f.
Proof.
  intros D S K nbrs HZ f f' out H. apply (run_inv K nbrs (fun g => g = f)) in H; auto.
  intros g g2 p k j d fb s vn vs (js & f1 & Q1 & Q2 & Q3 & Q4 & Q5 & E1 & E2) Hg.
  assert (fb = vzero) by (eapply HZ; eauto; exact I). subst fb. rewrite vmul0 in *. apply add0_at in E1. apply sub0_at in E2. congruence.
Qed.

Ltac kb := cbn [pre bond vols lps bond_based visco elastic_plastic hardening linear_lps fst snd].
Ltac kbin H := cbn [pre bond vols lps bond_based visco elastic_plastic hardening linear_lps fst snd] in H.

Lemma lps_broken : forall omega K MU h al dT x y v m theta dmg part d p k j fb s,
  nth_error dmg k = Some 1 -> bond _ _ (lps (N:=RN) omega K MU h al dT x y v m theta dmg part) d p k j = Ok (fb, s) -> fb = vzero.
Proof.
  intros omega K MU h al dT x y v m theta dmg part [[[[X Y] mp] th] t] p k j fb s Hk H. kbin H. split_bind H. apply Ok_pair in H as [-> ->].
  rewrite (broken_value _ _ _ E1 Hk). apply along_0. unfold lps_t; to_R; ring.
Qed.
Lemma bb_broken : forall K h pl ht x y v dmg d p k j fb s,
  nth_error dmg k = Some 1 -> bond _ _ (bond_based (N:=RN) K h pl ht x y v dmg) d p k j = Ok (fb, s) -> fb = vzero.
Proof.
  intros K h pl ht x y v dmg [X Y] p k j fb s Hk H. kbin H. split_bind H. apply Ok_pair in H as [-> ->].
  rewrite (broken_value _ _ _ E1 Hk). apply along_0. unfold bb_t; to_R; ring.
Qed.
Lemma visco_broken : forall ex K MU lam tau dt x yN y v m t0 t1 dmg edb d p k j fb s,
  nth_error dmg k = Some 1 -> bond _ _ (visco (N:=RN) ex K MU lam tau dt x yN y v m t0 t1 dmg edb) d p k j = Ok (fb, s) -> fb = vzero.
Proof.
  intros ex K MU lam tau dt x yN y v m t0 t1 dmg edb [[[[[X YN] Y] mp] u0] u1] p k j fb s Hk H. kbin H. split_bind H. apply Ok_pair in H as [-> ->].
  rewrite (broken_value _ _ _ E2 Hk). apply along_0. to_R; ring.
Qed.
Lemma plastic_broken : forall rm K x y dmg edp d p k j fb s,
  nth_error dmg k = Some 1 -> plastic_bond (N:=RN) rm K x y dmg edp d p k j = Ok (fb, s) -> fb = vzero.
Proof.
  intros rm K x y dmg edp d p k j fb s Hk H. unfold plastic_bond in H. split_bind H. apply Ok_pair in H as [-> ->].
  rewrite (broken_value _ _ _ E1 Hk). apply along_0. to_R; ring.
Qed.
Lemma linear_broken : forall omega K MU h x y v m theta dmg part st d p k j fb s,
  nth_error dmg k = Some 1 -> bond _ _ (linear_lps (N:=RN) omega K MU h x y v m theta dmg part st) d p k j = Ok (fb, s) -> fb = vzero.
Proof.
  intros omega K MU h x y v m theta dmg part st [[[X Y] mp] th] p k j fb s Hk H. kbin H. split_bind H. apply bind_Ok in H as [w [Ew H]]. apply Ok_pair in H as [-> ->].
  rewrite (broken_value _ _ _ E1 Hk). apply v3_ext; cbn; to_R; ring.
Qed.

(** identity map *)
Lemma iso_id : iso (fun a => a).
Proof. split; [repeat split|]; auto. Qed.
Lemma same_related : forall nbrs dmg y y', same_but_broken nbrs dmg y y' ->
  related (fun k => nth_error dmg k <> Some 1) (fun a => a) nbrs y y'.
Proof.
  intros nbrs dmg y y' [H1 H2]. split; auto. intros p k j Y YP Y' YP' Hb Hk E1 E2 E3 E4. apply at_ub_Ok in E1, E2, E3, E4.
  symmetry. eapply H2; eauto.
Qed.

(** ** C11 *)
Lemma rotate_dot : forall Q, orthogonal Q -> forall a b, vdot (rotate Q a) (rotate Q b) = vdot a b.
Proof.
  intros [[a1 a2 a3] [b1 b2 b3] [c1 c2 c3]] (H1 & H2 & H3 & H4 & H5 & H6) [x1 x2 x3] [y1 y2 y3].
  cbn in *. to_R.
  transitivity (x1 * y1 * (a1*a1+a2*a2+a3*a3) + x2 * y2 * (b1*b1+b2*b2+b3*b3) + x3 * y3 * (c1*c1+c2*c2+c3*c3)
    + (x1 * y2 + x2 * y1) * (a1*b1+a2*b2+a3*b3) + (x1 * y3 + x3 * y1) * (a1*c1+a2*c2+a3*c3) + (x2 * y3 + x3 * y2) * (b1*c1+b2*c2+b3*c3)).
  { ring. } rewrite H1, H2, H3, H4, H5, H6. ring.
Qed.
Lemma rotate_linear : forall Q, linear (rotate Q).
Proof.
  intros [[a1 a2 a3] [b1 b2 b3] [c1 c2 c3]]. repeat split.
  - intros [] []. apply v3_ext; cbn; to_R; ring. - intros [] []. apply v3_ext; cbn; to_R; ring.
  - intros [] ?. apply v3_ext; cbn; to_R; ring.
Qed.
Lemma iso_rotate : forall Q, orthogonal Q -> iso (rotate Q).
Proof. intros Q HQ. split; [apply rotate_linear|]. intros a. unfold vlen. now rewrite (rotate_dot Q HQ). Qed.
Lemma move_sub : forall Q c a b, vsub (move Q c a) (move Q c b) = rotate Q (vsub a b).
Proof. intros [[a1 a2 a3] [b1 b2 b3] [c1 c2 c3]] [] [] []. apply v3_ext; cbn; to_R; ring. Qed.
Lemma move_related : forall Q c nbrs y, related (fun _ => True) (rotate Q) nbrs y (map (move Q c) y).
Proof.
  intros Q c nbrs y. split; [now rewrite map_length|]. intros p k j Y YP Y' YP' Hb _ E1 E2 E3 E4.
  rewrite (at_ub_map _ _ _ _ _ _ E1) in E3. injection E3 as <-.
  rewrite (at_ub_map _ _ _ _ _ _ E2) in E4. injection E4 as <-. apply move_sub.
Qed.

Lemma same_states_eq : forall S (RS : nat -> S -> S -> Prop), (forall k a b, RS k a b -> a = b) ->
  forall a b k, same_states RS k a b -> a = b.
Proof. intros S RS H. induction a; intros [|c b] k Hs; simpl in Hs; try tauto. destruct Hs. f_equal; eauto. Qed.
Lemma same_out_states : forall D S (RD : nat -> D -> D -> Prop) (RS : nat -> S -> S -> Prop), (forall k a b, RS k a b -> a = b) ->
  forall a b p k, same_out RD RS p k a b -> map snd a = map snd b.
Proof.
  intros D S RD RS H. induction a as [|[d s] a]; intros [|[d' s'] b] p k Hs; simpl in Hs; try tauto. destruct Hs as (_ & H1 & H2). simpl.
  f_equal; eauto using same_states_eq.
Qed.
Lemma same_out_pre : forall D S A (g : D -> A) (RD : nat -> D -> D -> Prop) (RS : nat -> S -> S -> Prop), (forall k a b, RD k a b -> g a = g b) ->
  forall a b p k, same_out RD RS p k a b -> map (fun o => g (fst o)) a = map (fun o => g (fst o)) b.
Proof.
  intros D S A g RD RS H. induction a as [|[d s] a]; intros [|[d' s'] b] p k Hs; simpl in Hs; try tauto. destruct Hs as (H0 & H1 & H2). simpl.
  f_equal; eauto.
Qed.

(** moved rigidly from the reference configuration *)
Lemma move_len : forall Q c, orthogonal Q -> forall a b, vlen (vsub (move Q c a) (move Q c b)) = vlen (vsub a b).
Proof. intros Q c HQ a b. rewrite move_sub. apply iso_rotate, HQ. Qed.

Lemma nth_repeat_ub : forall A (a : A) n i b, at_ub (repeat a n) i = Ok b -> b = a.
Proof. intros A a n i b H. apply at_ub_Ok in H. apply nth_error_In in H. now apply repeat_spec in H. Qed.

Ltac moved HQ := repeat match goal with
  | E : at_ub ?x ?i = Ok ?a, F : at_ub (map (move ?Q ?c) ?x) ?i = Ok ?b |- _ =>
    rewrite (at_ub_map _ _ (move Q c) x i a E) in F; injection F as F; subst b
  end; repeat rewrite (move_len _ _ HQ).

Lemma lps_rigid : forall omega K MU h al Q c x v m k0 dmg part nbrs, orthogonal Q ->
  zero_when (lps (N:=RN) omega K MU h al None x (map (move Q c) x) v m (repeat 0 k0) dmg part) nbrs (fun _ _ _ => True).
Proof.
  intros omega K MU h al Q c x v m k0 dmg part nbrs HQ p k j js d fb s Hp Hd Hb _ H. kbin Hd. split_bind Hd. injection Hd as <-.
  kbin H. split_bind H. apply Ok_pair in H as [-> ->]. simpl in E3. injection E3 as <-. apply nth_repeat_ub in E2. subst a2. moved HQ.
  apply along_0. unfold lps_t, thermal. to_R. ring.
Qed.
Lemma bb_rigid : forall K h pl ht Q c x v dmg nbrs, orthogonal Q ->
  zero_when (bond_based (N:=RN) K h pl ht x (map (move Q c) x) v dmg) nbrs (fun _ _ _ => True).
Proof.
  intros K h pl ht Q c x v dmg nbrs HQ p k j js d fb s Hp Hd Hb _ H. kbin Hd. split_bind Hd. injection Hd as <-.
  kbin H. split_bind H. apply Ok_pair in H as [-> ->]. moved HQ.
  apply along_0. unfold bb_t. to_R. unfold Rdiv. ring.
Qed.
Lemma visco_rigid : forall ex K MU lam tau dt Q0 c0 Q c x v m k0 k1 k2 dmg nbrs, orthogonal Q0 -> orthogonal Q ->
  zero_when (visco (N:=RN) ex K MU lam tau dt x (map (move Q0 c0) x) (map (move Q c) x) v m (repeat 0 k0) (repeat 0 k1) dmg (repeat 0 k2)) nbrs (fun _ _ _ => True).
Proof.
  intros ex K MU lam tau dt Q0 c0 Q c x v m k0 k1 k2 dmg nbrs HQ0 HQ p k j js d fb s Hp Hd Hb _ H. kbin Hd. split_bind Hd. injection Hd as <-.
  kbin H. split_bind H. apply Ok_pair in H as [-> ->]. apply nth_repeat_ub in E3, E4, E9. subst a3 a4 a9. moved HQ0. moved HQ.
  apply along_0. unfold visco_td, visco_edb. to_R. unfold Rdiv. ring.
Qed.
Lemma plastic_rigid : forall rm K Q c x k2 dmg d p k j fb s, orthogonal Q ->
  (forall t, t = 0 -> rm d t = 0) -> at_ub x p = Ok (pp_X d) -> at_ub (map (move Q c) x) p = Ok (pp_Y d) -> pp_theta d = 0 ->
  plastic_bond (N:=RN) rm K x (map (move Q c) x) dmg (repeat 0 k2) d p k j = Ok (fb, s) -> fb = vzero /\ fst s = 0.
Proof.
  intros rm K Q c x k2 dmg d p k j fb s HQ Hrm EX EY Et H. unfold plastic_bond in H. split_bind H. apply Ok_pair in H as [-> ->].
  apply nth_repeat_ub in E2. subst a2. rewrite (at_ub_map _ _ (move Q c) x _ _ EX) in EY. injection EY as EY. rewrite <- EY.
  rewrite (at_ub_map _ _ (move Q c) x _ _ E) in E0. injection E0 as <-.
  unfold ed_of. rewrite (move_len Q c HQ), Et. rewrite (Hrm _) by (to_R; unfold Rdiv; ring). split.
  - apply along_0. destruct (pp_elastic d); to_R; unfold Rdiv; ring.
  - cbn [fst]. destruct (pp_elastic d); to_R; unfold Rdiv; ring.
Qed.
Lemma ep_pre_fields : forall K MU yv x y v m theta dmg edp lam p k js d,
  ep_pre (N:=RN) K MU yv x y v m theta dmg edp lam p k js = Ok d ->
  at_ub x p = Ok (pp_X d) /\ at_ub y p = Ok (pp_Y d) /\ at_ub theta p = Ok (pp_theta d).
Proof.
  intros K MU yv x y v m theta dmg edp lam p k js d H. unfold ep_pre in H. split_bind H.
  match type of H with (if ?b then _ else _) = _ => destruct b end; injection H as <-; auto.
Qed.
Lemma hard_pre_fields : forall up K MU Hm yv x y v m theta dmg scf edp lam p k js d,
  hard_pre (N:=RN) up K MU Hm yv x y v m theta dmg scf edp lam p k js = Ok d ->
  at_ub x p = Ok (pp_X d) /\ at_ub y p = Ok (pp_Y d) /\ at_ub theta p = Ok (pp_theta d).
Proof.
  intros up K MU Hm yv x y v m theta dmg scf edp lam p k js d H. unfold hard_pre in H. split_bind H. cbv zeta in H.
  match type of H with (if ?b then _ else _) = _ => destruct b end; injection H as <-; auto.
Qed.
Lemma ep_rigid : forall K MU sigma h pl Q c x v m k0 k2 dmg lam nbrs, orthogonal Q ->
  zero_when (elastic_plastic (N:=RN) K MU sigma h pl x (map (move Q c) x) v m (repeat 0 k0) dmg (repeat 0 k2) lam) nbrs (fun _ _ _ => True).
Proof.
  intros K MU sigma h pl Q c x v m k0 k2 dmg lam nbrs HQ p k j js d fb s Hp Hd Hb _ H. kbin Hd. kbin H.
  destruct (ep_pre_fields _ _ _ _ _ _ _ _ _ _ _ _ _ _ _ Hd) as (E1 & E2 & E3). apply nth_repeat_ub in E3.
  eapply (plastic_rigid ep_return K Q c x k2 dmg d p k j); eauto. intros t ->. unfold ep_return. to_R. unfold Rdiv. ring.
Qed.
Lemma hard_rigid : forall up K MU Hm sigma h Q c x v m k0 k2 dmg scf lam nbrs, orthogonal Q ->
  zero_when (hardening (N:=RN) up K MU Hm sigma h x (map (move Q c) x) v m (repeat 0 k0) dmg scf (repeat 0 k2) lam) nbrs (fun _ _ _ => True).
Proof.
  intros up K MU Hm sigma h Q c x v m k0 k2 dmg scf lam nbrs HQ p k j js d fb s Hp Hd Hb _ H. kbin Hd. kbin H.
  destruct (hard_pre_fields _ _ _ _ _ _ _ _ _ _ _ _ _ _ _ _ _ _ Hd) as (E1 & E2 & E3). apply nth_repeat_ub in E3.
  eapply (plastic_rigid hard_return K Q c x k2 dmg d p k j); eauto. intros t ->. unfold hard_return. to_R. unfold Rdiv. ring.
Qed.

(** dilatation of a list of bonds *)
Lemma dil_total : forall omega h al deltaT x y v dmg nbV m n nbrs, cloud_ok (N:=RN) n nbrs x y v -> per_bond nbrs dmg -> opt_ok (per_bond nbrs) nbV ->
  per_point nbrs m -> opt_ok (per_point nbrs) deltaT ->
  forall p js, nth_error nbrs p = Some js -> exists t, dilatation (N:=RN) omega h al deltaT x y v dmg nbV m p (offset nbrs p) js = Ok t.
Proof.
  intros omega h al deltaT x y v dmg nbV m n nbrs (H1 & H2 & H3 & H4 & H5) Hd Hn Hm HT p js Hp. unfold per_bond, per_point in *.
  assert (Hpn : (p < length nbrs)%nat) by (apply nth_error_Some; congruence).
  unfold dilatation. ub_steps.
  assert (ET : exists t, opt_at deltaT p = Ok t). { destruct deltaT as [l|]; simpl in *; [|eauto]. ub_steps. eauto. }
  destruct ET as [dT ET]. rewrite ET. cbn [bind].
  assert (G : forall post pre_js, js = pre_js ++ post -> forall X Y mp acc, exists t,
    dilatation_sum (N:=RN) omega h al dT x y v dmg nbV X Y mp (offset nbrs p + length pre_js) post acc = Ok t).
  { induction post as [|j post IH]; intros pre_js E X Y mp acc; cbn [dilatation_sum Nat.add]; [eauto|].
    assert (Hb : bond_at nbrs p (offset nbrs p + length pre_js) j).
    { exists js, (length pre_js). subst js. rewrite nth_app_here. auto. }
    pose proof (bond_at_bound _ _ _ _ Hb) as [_ Hk]. pose proof (bond_at_In _ _ _ _ (fun j => j < n)%nat Hb H5) as Hj. cbv beta in Hj.
    assert (EV : exists t, match nbV with Some l => at_ub l (offset nbrs p + length pre_js) | None => at_ub v j end = Ok t).
    { destruct nbV; simpl in *; ub_steps; eauto. }
    destruct EV as [vj EV]. rewrite EV. cbn [bind]. ub_steps.
    specialize (IH (pre_js ++ [j])). rewrite app_length in IH. simpl in IH.
    replace (offset nbrs p + (length pre_js + 1))%nat with (S (offset nbrs p + length pre_js)) in IH by lia.
    apply IH. subst; now rewrite <- app_assoc. }
  specialize (G js [] eq_refl). simpl in G. rewrite Nat.add_0_r in G. apply G.
Qed.

(** if every bond of the list has value c_j then the sum is acc + sum *)
Lemma dil_sum_const : forall omega h al dT x y v dmg nbV X Y m post k acc t (g : R),
  (forall n j XP YP b vj, nth_error post n = Some j -> at_ub x j = Ok XP -> at_ub y j = Ok YP -> at_ub dmg (k + n) = Ok b ->
     dilatation_bond (N:=RN) omega h al dT X XP Y YP b vj m = 0) ->
  dilatation_sum (N:=RN) omega h al dT x y v dmg nbV X Y m k post acc = Ok t -> t = acc.
Proof.
  intros omega h al dT x y v dmg nbV X Y m. induction post as [|j post IH]; intros k acc t g HZ H; cbn [dilatation_sum] in H.
  - now injection H.
  - apply bind_Ok in H as [vj [Ev H]]. apply bind_Ok in H as [XP [EX H]]. apply bind_Ok in H as [YP [EYP H]]. apply bind_Ok in H as [b [Eb H]].
    apply (IH (1 + k)%nat _ _ g) in H.
    + rewrite H. rewrite (HZ 0%nat j XP YP b vj) by (rewrite ?Nat.add_0_r; auto). to_R. ring.
    + intros n j' XP' YP' b' vj' Hn. intros. apply (HZ (S n) j' XP' YP' b' vj'); auto. now replace (k + S n)%nat with (1 + k + n)%nat by lia.
Qed.
Lemma dil_rigid : forall omega h al Q c x v dmg nbV m p k js t, orthogonal Q ->
  dilatation (N:=RN) omega h al None x (map (move Q c) x) v dmg nbV m p k js = Ok t -> t = 0.
Proof.
  intros omega h al Q c x v dmg nbV m p k js t HQ H. unfold dilatation in H. split_bind H. simpl in E2. injection E2 as <-.
  eapply dil_sum_const in H; [exact H|exact 0|]. intros n j XP YP b vj _ EX EY _.
  rewrite (at_ub_map _ _ (move Q c) x _ _ E) in E0. injection E0 as <-.
  rewrite (at_ub_map _ _ (move Q c) x _ _ EX) in EY. injection EY as <-.
  unfold dilatation_bond. rewrite (move_len Q c HQ). unfold thermal. to_R. unfold Rdiv. ring.
Qed.
Lemma dilatations_all : forall (f : nat -> nat -> list nat -> outcome R) nbrs,
  (forall p js, nth_error nbrs p = Some js -> exists t, f p (offset nbrs p) js = Ok t) ->
  exists th, dilatations (N:=RN) f 0 0 nbrs = Ok th /\ length th = length nbrs /\
    forall p js t, nth_error nbrs p = Some js -> nth_error th p = Some t -> f p (offset nbrs p) js = Ok t.
Proof.
  intros f nbrs H.
  assert (G : forall todo done, nbrs = done ++ todo -> exists th, dilatations (N:=RN) f (length done) (num_bonds done) todo = Ok th /\ length th = length todo /\
     forall p js t, nth_error todo p = Some js -> nth_error th p = Some t -> f (length done + p)%nat (offset nbrs (length done + p)) js = Ok t).
  { induction todo as [|js todo IH]; intros done E; simpl. - exists []. repeat split; auto. intros [|]; discriminate.
    - assert (Hp : nth_error nbrs (length done) = Some js) by (rewrite E; apply nth_app_here).
      assert (Ho : offset nbrs (length done) = num_bonds done) by (rewrite E; apply offset_app).
      destruct (H _ _ Hp) as [t Et]. rewrite <- Ho, Et. cbn [bind]. rewrite Ho.
      destruct (IH (done ++ [js])) as (th & R1 & R2 & R3); [subst; now rewrite <- app_assoc|].
      rewrite app_length in R1. simpl in R1. rewrite Nat.add_1_r, num_bonds_app in R1.
      replace (num_bonds done + num_bonds [js])%nat with (length js + num_bonds done)%nat in R1 by (unfold num_bonds; simpl; lia).
      rewrite R1. cbn [bind]. exists (t :: th). repeat split; simpl; auto.
      intros [|p] js' t' Hj Ht; simpl in *.
      + injection Hj as <-. injection Ht as <-. rewrite Nat.add_0_r. exact Et.
      + specialize (R3 p js' t' Hj Ht). rewrite app_length in R3. simpl in R3. now replace (length done + S p)%nat with (length done + 1 + p)%nat by lia. }
  exact (G nbrs [] eq_refl).
Qed.
Lemma all_zero_repeat : forall (l : list R), (forall p t, nth_error l p = Some t -> t = 0) -> l = repeat 0 (length l).
Proof.
  induction l; intros H; simpl; auto. f_equal; [apply (H 0%nat); reflexivity|]. apply IHl. intros p t Hp. apply (H (S p)); auto.
Qed.
Lemma dilatations_rigid : forall omega h al Q c x v dmg nbV m n nbrs, orthogonal Q ->
  cloud_ok (N:=RN) n nbrs x x v -> per_bond nbrs dmg -> opt_ok (per_bond nbrs) nbV -> per_point nbrs m ->
  dilatations (dilatation (N:=RN) omega h al None x (map (move Q c) x) v dmg nbV m) 0 0 nbrs = Ok (repeat 0 (length nbrs)).
Proof.
  intros omega h al Q c x v dmg nbV m n nbrs HQ HC Hd Hn Hm.
  assert (HC' : cloud_ok (N:=RN) n nbrs x (map (move Q c) x) v).
  { destruct HC as (H1 & H2 & H3 & H4 & H5). repeat split; auto. rewrite map_length. auto. }
  destruct (dilatations_all (dilatation (N:=RN) omega h al None x (map (move Q c) x) v dmg nbV m) nbrs) as (th & R1 & R2 & R3).
  { intros p js Hp. eapply dil_total; eauto. simpl. exact I. }
  etransitivity; [exact R1|]. f_equal. rewrite <- R2. apply all_zero_repeat. intros p t Ht.
  destruct (nth_error nbrs p) as [js|] eqn:Hp.
  - eapply dil_rigid; [exact HQ|]. eapply R3; eauto.
  - apply nth_error_None in Hp. assert (p < length th)%nat by (apply nth_error_Some; intros C; pose proof (eq_trans (eq_sym C) Ht) as Z; discriminate Z). exfalso. rewrite <- R2 in Hp. apply (Nat.lt_irrefl p). eapply Nat.lt_le_trans; eauto.
Qed.

(** ** C12 *)
Lemma at_Ok : forall A (l : list A) i a, nth_error l i = Some a -> at_ub l i = Ok a.
Proof. intros A l i a H. unfold at_ub. now rewrite H. Qed.
Lemma vlen_dist : forall a b : vec, vlen (vsub b a) = dist a b.
Proof. intros [] []. unfold vlen, dist, vdot, Rsqr. cbn. reflexivity. Qed.
Lemma dist_sqr : forall a b : vec, vdot (vsub b a) (vsub b a) = Rsqr (dist a b).
Proof.
  intros [a1 a2 a3] [b1 b2 b3]. unfold dist. rewrite Rsqr_sqrt. - unfold Rsqr. cbn. reflexivity.
  - pose proof (Rle_0_sqr (vx (v3 (N:=RN) b1 b2 b3) - vx (v3 (N:=RN) a1 a2 a3))).
    pose proof (Rle_0_sqr (vy (v3 (N:=RN) b1 b2 b3) - vy (v3 (N:=RN) a1 a2 a3))).
    pose proof (Rle_0_sqr (vz (v3 (N:=RN) b1 b2 b3) - vz (v3 (N:=RN) a1 a2 a3))). to_R. lra.
Qed.
Lemma dist_pos : forall a b : vec, 0 <= dist a b.
Proof. intros. apply sqrt_pos. Qed.

Lemma wv_ok : forall omega x v h p js X nb, nth_error x p = Some X -> looks_up x v js nb ->
  weightedVolume (N:=RN) omega x v h p js = Ok (weighted_volume omega h X nb).
Proof.
  intros omega x v h p js X nb HX H. unfold weightedVolume. unfold at_ub at 1. rewrite HX. cbn [bind].
  assert (G : forall acc, foldM (fun m j => let? vj := at_ub v j in let? XP := at_ub x j in
      let d := vsub XP X in let z2 := vdot d d in Ok (m + omega (sqr_root z2) h * z2 * vj)%num) acc js
      = Ok (acc + weighted_volume omega h X nb)).
  { induction H as [|j [XP vj] js nb [H1 H2] _ IH]; intros acc; cbn [foldM weighted_volume fold_right].
    - to_R. now rewrite Rplus_0_r.
    - unfold at_ub at 1. cbn [fst snd] in *. rewrite H2. cbn [bind]. unfold at_ub at 1. rewrite H1. cbn [bind]. cbv zeta.
      etransitivity; [apply IH|]. f_equal. fold (weighted_volume omega h X nb).
      rewrite dist_sqr. cbn [sqr_root RN]. rewrite (sqrt_Rsqr _ (dist_pos X XP)). to_R. ring. }
  etransitivity; [apply G|]. f_equal. to_R. ring.
Qed.
Lemma wv_nonneg : forall (omega : R -> R -> R) h X nb, (forall d, 0 <= omega d h) -> Forall (fun pv => 0 <= snd pv) nb ->
  0 <= weighted_volume omega h X nb.
Proof.
  intros omega h X nb Ho H. induction H as [|[XP vj] nb Hv _ IH]; simpl; [lra|].
  apply Rplus_le_le_0_compat; auto. apply Rmult_le_pos; auto. apply Rmult_le_pos; auto. apply Rle_0_sqr.
Qed.
Lemma wv_pos : forall (omega : R -> R -> R) h X nb, (forall d, 0 <= omega d h) -> Forall (fun pv => 0 <= snd pv) nb ->
  (exists pv, In pv nb /\ 0 < snd pv /\ 0 < dist X (fst pv) /\ 0 < omega (dist X (fst pv)) h) ->
  0 < weighted_volume omega h X nb.
Proof.
  intros omega h X nb Ho H (pv & Hin & H1 & H2 & H3). induction H as [|a nb Hv Hf IH]; simpl in Hin; [tauto|].
  cbn [weighted_volume fold_right]. fold (weighted_volume omega h X nb). pose proof (wv_nonneg omega h X nb Ho Hf).
  destruct Hin as [->|Hin].
  - assert (0 < omega (dist X (fst pv)) h * Rsqr (dist X (fst pv)) * snd pv).
    { apply Rmult_lt_0_compat; auto. apply Rmult_lt_0_compat; auto. apply Rsqr_pos_lt. lra. } lra.
  - specialize (IH Hin). assert (0 <= omega (dist X (fst a)) h * Rsqr (dist X (fst a)) * snd a).
    { apply Rmult_le_pos; auto. apply Rmult_le_pos; auto. apply Rle_0_sqr. } lra.
Qed.

Lemma expand_sub : forall e c a b, vsub (expand e c a) (expand e c b) = vscale (N:=RN) (1 + e) (vsub a b).
Proof. intros e [] [] []. apply v3_ext; cbn; to_R; ring. Qed.
Lemma vlen_scale : forall k (a : vec), 0 <= k -> vlen (vscale (N:=RN) k a) = k * vlen a.
Proof.
  intros k [a1 a2 a3] Hk. unfold vlen, vdot. cbn. to_R.
  replace (k * a1 * (k * a1) + k * a2 * (k * a2) + k * a3 * (k * a3)) with (Rsqr k * (a1 * a1 + a2 * a2 + a3 * a3)) by (unfold Rsqr; ring).
  rewrite sqrt_mult_alt by apply Rle_0_sqr. now rewrite sqrt_Rsqr.
Qed.
Lemma expand_len : forall e c a b, -1 <= e -> vlen (vsub (expand e c a) (expand e c b)) = (1 + e) * vlen (vsub a b).
Proof. intros. rewrite expand_sub. apply vlen_scale. lra. Qed.

Lemma dil_expand : forall omega h al x v dmg e c X nb M, -1 <= e -> M <> 0 ->
  forall js k, looks_up x v js nb -> (forall n j, nth_error js n = Some j -> nth_error dmg (k + n) = Some 0) -> forall acc,
  dilatation_sum (N:=RN) omega h al None x (map (expand e c) x) v dmg None X (expand e c X) M k js acc
  = Ok (acc + 3 * e * weighted_volume omega h X nb / M).
Proof.
  intros omega h al x v dmg e c X nb M He HM js k H. revert k.
  induction H as [|j [XP vj] js nb [H1 H2] _ IH]; intros k Hd acc; cbn [dilatation_sum].
  - simpl. f_equal. to_R. field. exact HM.
  - cbn [fst snd] in *. rewrite (at_Ok (T RN) _ _ _ H2). cbn [bind]. rewrite (at_Ok _ _ _ _ H1). cbn [bind].
    rewrite (at_ub_map _ _ (expand e c) _ _ _ (at_Ok _ _ _ _ H1)). cbn [bind].
    pose proof (Hd 0%nat j eq_refl) as Hb. rewrite Nat.add_0_r in Hb. rewrite (at_Ok (T RN) _ _ _ Hb). cbn [bind].
    etransitivity; [apply IH|].
    { intros n j' Hn. specialize (Hd (S n) j' Hn). now replace (1 + k + n)%nat with (k + S n)%nat by lia. }
    f_equal. unfold dilatation_bond, thermal. rewrite (expand_len e c _ _ He). rewrite !vlen_dist.
    cbn [weighted_volume fold_right]. fold (weighted_volume omega h X nb). cbn [fst snd]. to_R. unfold Rsqr. field. exact HM.
Qed.
Lemma dilatation_expand : forall omega h al x v dmg e c X nb m p k js, -1 <= e ->
  nth_error x p = Some X -> looks_up x v js nb -> (forall n j, nth_error js n = Some j -> nth_error dmg (k + n) = Some 0) ->
  nth_error m p = Some (weighted_volume omega h X nb) -> weighted_volume omega h X nb <> 0 ->
  dilatation (N:=RN) omega h al None x (map (expand e c) x) v dmg None m p k js = Ok (3 * e).
Proof.
  intros omega h al x v dmg e c X nb m p k js He HX Hnb Hd Hm Hne. unfold dilatation.
  unfold at_ub at 1. rewrite HX. cbn [bind]. unfold at_ub at 1. rewrite (map_nth_error (expand e c) _ _ HX). cbn [bind].
  rewrite (at_Ok (T RN) _ _ _ Hm). cbn [bind opt_at].
  etransitivity; [apply (dil_expand omega h al x v dmg e c X nb _ He Hne js k Hnb Hd)|]. f_equal. to_R. field. exact Hne.
Qed.
Lemma lps_t_pressure : forall omega K MU h al m e zeta, m <> 0 ->
  lps_t (N:=RN) omega K MU h al None m (3 * e) 0 zeta ((1 + e) * zeta) = 3 * K * (3 * e) * omega zeta h * zeta / m.
Proof. intros. unfold lps_t, thermal. to_R. field. exact H. Qed.

Lemma ep_broken : forall K MU sigma h pl x y v m theta dmg edp lam d p k j fb s,
  nth_error dmg k = Some 1 -> bond _ _ (elastic_plastic (N:=RN) K MU sigma h pl x y v m theta dmg edp lam) d p k j = Ok (fb, s) -> fb = vzero.
Proof. intros K MU sigma h pl x y v m theta dmg edp lam d p k j fb s. exact (plastic_broken ep_return K x y dmg edp d p k j fb s). Qed.
Lemma hard_broken : forall up K MU H sigma h x y v m theta dmg scf edp lam d p k j fb s,
  nth_error dmg k = Some 1 -> bond _ _ (hardening (N:=RN) up K MU H sigma h x y v m theta dmg scf edp lam) d p k j = Ok (fb, s) -> fb = vzero.
Proof. intros up K MU H sigma h x y v m theta dmg scf edp lam d p k j fb s. exact (plastic_broken hard_return K x y dmg edp d p k j fb s). Qed.
Lemma cut_off_untouched : forall D S (K : kernel RN D S) nbrs (dmg : list R) n,
  (forall d p k j fb s, nth_error dmg k = Some 1 -> bond _ _ K d p k j = Ok (fb, s) -> fb = vzero) ->
  total_on K nbrs n -> forall f i, length f = n -> cut_off nbrs dmg i ->
  exists f' out, run_kernel K nbrs f = Ok (f', out) /\ nth_error f' i = nth_error f i.
Proof.
  intros D S K nbrs dmg n Hz HT f i Hf Hc. subst n. destruct (run_total K nbrs f HT) as (f' & out & E & _).
  exists f', out. split; auto. eapply run_untouched; [|exact E]. intros p k j js d fb s _ _ Hb Hi H. eapply Hz; [|exact H]. eapply Hc; eauto.
Qed.
Lemma sim_ok : forall D1 S1 D2 S2 (K1 : kernel RN D1 S1) (K2 : kernel RN D2 S2) L RD RS nbrs n,
  linear L -> total_on K1 nbrs n -> matching K1 K2 L RD RS nbrs -> forall f, length f = n ->
  exists f' out out2, run_kernel K1 nbrs f = Ok (f', out) /\ run_kernel K2 nbrs (map L f) = Ok (map L f', out2) /\ same_out RD RS 0 0 out out2.
Proof.
  intros D1 S1 D2 S2 K1 K2 L RD RS nbrs n HL HT HM f Hf. subst n. destruct (run_total K1 nbrs f HT) as (f' & out & E & _).
  destruct (run_sim K1 K2 L RD RS HL nbrs HM f f' out E) as (out2 & E2 & HS). eauto 6.
Qed.
Lemma sim_id : forall D1 S1 D2 S2 (K1 : kernel RN D1 S1) (K2 : kernel RN D2 S2) RD RS nbrs n,
  total_on K1 nbrs n -> matching K1 K2 (fun a => a) RD RS nbrs -> forall f, length f = n ->
  exists f' out out2, run_kernel K1 nbrs f = Ok (f', out) /\ run_kernel K2 nbrs f = Ok (f', out2).
Proof.
  intros D1 S1 D2 S2 K1 K2 RD RS nbrs n HT HM f Hf.
  destruct (sim_ok _ _ _ _ K1 K2 _ RD RS nbrs n (proj1 iso_id) HT HM f Hf) as (f' & out & out2 & E1 & E2 & _).
  rewrite !map_id in E2. eauto.
Qed.
Lemma edp_states : forall (a b : list (@plastic_pre RN * list (T RN * T RN))), map snd a = map snd b -> new_edp (N:=RN) a = new_edp (N:=RN) b.
Proof.
  induction a as [|[d s] a IH]; intros [|[d' s'] b] H; try discriminate; auto. injection H as H1 H2. subst s'.
  unfold new_edp in *. cbn [flat_map snd]. f_equal. now apply IH.
Qed.
Lemma edb_states : forall D (a b : list (D * list (T RN))), map snd a = map snd b -> new_edb (N:=RN) a = new_edb (N:=RN) b.
Proof. intros D a b H. unfold new_edb. rewrite !flat_map_concat_map. now f_equal. Qed.
Lemma ppRD_lambda : forall y y' p d1 d2, ppRD y y' p d1 d2 -> pp_lambda d1 = pp_lambda d2.
Proof. intros y y' p d1 d2 (Y' & -> & _). reflexivity. Qed.
Lemma rigid_ok : forall D S (K : kernel RN D S) nbrs n, zero_when K nbrs (fun _ _ _ => True) -> total_on K nbrs n ->
  forall f, length f = n -> exists out, run_kernel K nbrs f = Ok (f, out).
Proof.
  intros D S K nbrs n HZ HT f Hf. subst n. destruct (run_total K nbrs f HT) as (f' & out & E & _).
  exists out. now rewrite (run_zero _ _ K nbrs HZ f f' out E) in E.
Qed.
Lemma cloud_move : forall n nbrs x y v (g : vec -> vec), cloud_ok (N:=RN) n nbrs x y v -> cloud_ok (N:=RN) n nbrs x (map g x) v.
Proof. intros n nbrs x y v g (H1 & H2 & H3 & H4 & H5). repeat split; auto. now rewrite map_length. Qed.

Lemma lps_cut_off : forall omega K MU h al dT n nbrs x y v m theta dmg f i,
  lps_inputs (N:=RN) n nbrs x y v m theta dmg dT None -> length f = n -> cut_off nbrs dmg i ->
  exists f' out, run_kernel (lps (N:=RN) omega K MU h al dT x y v m theta dmg None) nbrs f = Ok (f', out) /\ nth_error f' i = nth_error f i.
Proof.
  intros omega K MU h al dT n nbrs x y v m theta dmg f i HI Hf Hc. eapply cut_off_untouched; eauto; [intros; eapply lps_broken; eauto|]. now apply lps_total.
Qed.
Lemma bb_cut_off : forall K h pl ht n nbrs x y v dmg f i,
  bb_inputs (N:=RN) n nbrs x y v dmg -> length f = n -> cut_off nbrs dmg i ->
  exists f' out, run_kernel (bond_based (N:=RN) K h pl ht x y v dmg) nbrs f = Ok (f', out) /\ nth_error f' i = nth_error f i.
Proof.
  intros K h pl ht n nbrs x y v dmg f i HI Hf Hc. eapply cut_off_untouched; eauto; [intros; eapply bb_broken; eauto|]. now apply bb_total.
Qed.
Lemma visco_cut_off : forall ex K MU lam tau dt n nbrs x yN y v m t0 t1 dmg edb f i,
  visco_inputs (N:=RN) n nbrs x yN y v m t0 t1 dmg edb -> length f = n -> cut_off nbrs dmg i ->
  exists f' out, run_kernel (visco (N:=RN) ex K MU lam tau dt x yN y v m t0 t1 dmg edb) nbrs f = Ok (f', out) /\ nth_error f' i = nth_error f i.
Proof.
  intros ex K MU lam tau dt n nbrs x yN y v m t0 t1 dmg edb f i HI Hf Hc. eapply cut_off_untouched; eauto; [intros; eapply visco_broken; eauto|]. now apply visco_total.
Qed.
Lemma ep_cut_off : forall K MU sigma h pl n nbrs x y v m theta dmg edp lam f i,
  ep_inputs (N:=RN) n nbrs x y v m theta dmg edp lam -> length f = n -> cut_off nbrs dmg i ->
  exists f' out, run_kernel (elastic_plastic (N:=RN) K MU sigma h pl x y v m theta dmg edp lam) nbrs f = Ok (f', out) /\ nth_error f' i = nth_error f i.
Proof.
  intros K MU sigma h pl n nbrs x y v m theta dmg edp lam f i HI Hf Hc. eapply cut_off_untouched; eauto; [intros; eapply ep_broken; eauto|]. now apply ep_total.
Qed.
Lemma hard_cut_off : forall up K MU H sigma h n nbrs x y v m theta dmg scf edp lam f i,
  ep_inputs (N:=RN) n nbrs x y v m theta dmg edp lam -> per_point (N:=RN) nbrs scf -> length f = n -> cut_off nbrs dmg i ->
  exists f' out, run_kernel (hardening (N:=RN) up K MU H sigma h x y v m theta dmg scf edp lam) nbrs f = Ok (f', out) /\ nth_error f' i = nth_error f i.
Proof.
  intros up K MU H sigma h n nbrs x y v m theta dmg scf edp lam f i HI Hs Hf Hc. eapply cut_off_untouched; eauto; [intros; eapply hard_broken; eauto|]. now apply hard_total.
Qed.
Lemma lps_ignores : forall omega K MU h al dT n nbrs x y v m theta dmg y' f,
  lps_inputs (N:=RN) n nbrs x y v m theta dmg dT None -> same_but_broken nbrs dmg y y' -> length f = n ->
  exists f' out out', run_kernel (lps (N:=RN) omega K MU h al dT x y v m theta dmg None) nbrs f = Ok (f', out) /\ run_kernel (lps (N:=RN) omega K MU h al dT x y' v m theta dmg None) nbrs f = Ok (f', out').
Proof.
  intros omega K MU h al dT n nbrs x y v m theta dmg y' f HI Hy Hf. eapply sim_id; [eapply lps_total; eauto| |exact Hf].
  eapply (lps_matching (fun k => nth_error dmg k <> Some 1) (fun a => a) nbrs dmg y y'); [apply iso_id|now apply same_related|auto].
Qed.
Lemma bb_ignores : forall K h pl ht n nbrs x y v dmg y' f,
  bb_inputs (N:=RN) n nbrs x y v dmg -> same_but_broken nbrs dmg y y' -> length f = n ->
  exists f' out out', run_kernel (bond_based (N:=RN) K h pl ht x y v dmg) nbrs f = Ok (f', out) /\ run_kernel (bond_based (N:=RN) K h pl ht x y' v dmg) nbrs f = Ok (f', out').
Proof.
  intros K h pl ht n nbrs x y v dmg y' f HI Hy Hf. eapply sim_id; [eapply bb_total; eauto| |exact Hf].
  eapply (bb_matching (fun k => nth_error dmg k <> Some 1) (fun a => a) nbrs dmg y y'); [apply iso_id|now apply same_related|auto].
Qed.
Lemma visco_ignores : forall ex K MU lam tau dt n nbrs x yN y v m t0 t1 dmg edb yN' y' f,
  visco_inputs (N:=RN) n nbrs x yN y v m t0 t1 dmg edb -> same_but_broken nbrs dmg yN yN' -> same_but_broken nbrs dmg y y' -> length f = n ->
  exists f' out out', run_kernel (visco (N:=RN) ex K MU lam tau dt x yN y v m t0 t1 dmg edb) nbrs f = Ok (f', out) /\ run_kernel (visco (N:=RN) ex K MU lam tau dt x yN' y' v m t0 t1 dmg edb) nbrs f = Ok (f', out').
Proof.
  intros ex K MU lam tau dt n nbrs x yN y v m t0 t1 dmg edb yN' y' f HI Hy0 Hy Hf. eapply sim_id; [eapply visco_total; eauto| |exact Hf].
  eapply (visco_matching (fun k => nth_error dmg k <> Some 1) (fun a => a) nbrs dmg y y'); [apply iso_id|now apply same_related|auto|apply iso_id|now apply same_related].
Qed.
Lemma ep_ignores : forall K MU sigma h pl n nbrs x y v m theta dmg edp lam y' f,
  ep_inputs (N:=RN) n nbrs x y v m theta dmg edp lam -> same_but_broken nbrs dmg y y' -> length f = n ->
  exists f' out out', run_kernel (elastic_plastic (N:=RN) K MU sigma h pl x y v m theta dmg edp lam) nbrs f = Ok (f', out) /\ run_kernel (elastic_plastic (N:=RN) K MU sigma h pl x y' v m theta dmg edp lam) nbrs f = Ok (f', out').
Proof.
  intros K MU sigma h pl n nbrs x y v m theta dmg edp lam y' f HI Hy Hf. eapply sim_id; [eapply ep_total; eauto| |exact Hf].
  eapply (ep_matching (fun k => nth_error dmg k <> Some 1) (fun a => a) nbrs dmg y y'); [apply iso_id|now apply same_related|auto].
Qed.
Lemma hard_ignores : forall up K MU H sigma h n nbrs x y v m theta dmg scf edp lam y' f,
  ep_inputs (N:=RN) n nbrs x y v m theta dmg edp lam -> per_point (N:=RN) nbrs scf -> same_but_broken nbrs dmg y y' -> length f = n ->
  exists f' out out', run_kernel (hardening (N:=RN) up K MU H sigma h x y v m theta dmg scf edp lam) nbrs f = Ok (f', out) /\ run_kernel (hardening (N:=RN) up K MU H sigma h x y' v m theta dmg scf edp lam) nbrs f = Ok (f', out').
Proof.
  intros up K MU H sigma h n nbrs x y v m theta dmg scf edp lam y' f HI Hs Hy Hf. eapply sim_id; [eapply hard_total; eauto| |exact Hf].
  eapply (hard_matching (fun k => nth_error dmg k <> Some 1) (fun a => a) nbrs dmg y y'); [apply iso_id|now apply same_related|auto].
Qed.
Lemma dil_ignores : forall omega h al dT x y y' v dmg nbV m nbrs th,
  same_but_broken nbrs dmg y y' ->
  dilatations (dilatation (N:=RN) omega h al dT x y v dmg nbV m) 0 0 nbrs = Ok th ->
  dilatations (dilatation (N:=RN) omega h al dT x y' v dmg nbV m) 0 0 nbrs = Ok th.
Proof.
  intros omega h al dT x y y' v dmg nbV m nbrs th Hy H.
  eapply (dilatations_eq (fun k => nth_error dmg k <> Some 1) (fun a => a) nbrs dmg y y'); [apply iso_id|now apply same_related|auto|exact H].
Qed.
Lemma lps_linear : forall omega K MU h al dT n nbrs x y v m theta dmg f,
  lps_inputs (N:=RN) n nbrs x y v m theta dmg dT None -> length f = n ->
  exists f' out, run_kernel (lps (N:=RN) omega K MU h al dT x y v m theta dmg None) nbrs f = Ok (f', out) /\ length f' = n /\
    momentum v f' = momentum v f /\ (f = repeat vzero n -> momentum v f' = vzero).
Proof.
  intros omega K MU h al dT n nbrs x y v m theta dmg f HI Hf. pose proof (proj1 HI) as (C1 & C2 & C3 & _).
  destruct (conserve _ _ (lps (N:=RN) omega K MU h al dT x y v m theta dmg None) n nbrs v y f C3 C2 Hf (lps_total omega K MU h al dT n nbrs x y v m theta dmg None HI) (cell_volumes_balanced _ _ (lps (N:=RN) omega K MU h al dT x y v m theta dmg None) nbrs v eq_refl) (lps_parallel _ _ _ _ _ _ _ _ _ _ _ _ _ _)) as (f' & out & E & El & E1 & E2).
  exists f', out. repeat split; auto. intros ->. rewrite E1. apply momentum_zero.
Qed.
Lemma lps_angular : forall omega K MU h al dT n nbrs x y v m theta dmg f,
  lps_inputs (N:=RN) n nbrs x y v m theta dmg dT None -> length f = n ->
  exists f' out, run_kernel (lps (N:=RN) omega K MU h al dT x y v m theta dmg None) nbrs f = Ok (f', out) /\ length f' = n /\
    moment v y f' = moment v y f /\ (f = repeat vzero n -> moment v y f' = vzero).
Proof.
  intros omega K MU h al dT n nbrs x y v m theta dmg f HI Hf. pose proof (proj1 HI) as (C1 & C2 & C3 & _).
  destruct (conserve _ _ (lps (N:=RN) omega K MU h al dT x y v m theta dmg None) n nbrs v y f C3 C2 Hf (lps_total omega K MU h al dT n nbrs x y v m theta dmg None HI) (cell_volumes_balanced _ _ (lps (N:=RN) omega K MU h al dT x y v m theta dmg None) nbrs v eq_refl) (lps_parallel _ _ _ _ _ _ _ _ _ _ _ _ _ _)) as (f' & out & E & El & E1 & E2).
  exists f', out. repeat split; auto. intros ->. rewrite E2. apply moment_zero.
Qed.
Lemma bb_linear : forall K h pl ht n nbrs x y v dmg f,
  bb_inputs (N:=RN) n nbrs x y v dmg -> length f = n ->
  exists f' out, run_kernel (bond_based (N:=RN) K h pl ht x y v dmg) nbrs f = Ok (f', out) /\ length f' = n /\
    momentum v f' = momentum v f /\ (f = repeat vzero n -> momentum v f' = vzero).
Proof.
  intros K h pl ht n nbrs x y v dmg f HI Hf. pose proof (proj1 HI) as (C1 & C2 & C3 & _).
  destruct (conserve _ _ (bond_based (N:=RN) K h pl ht x y v dmg) n nbrs v y f C3 C2 Hf (bb_total K h pl ht n nbrs x y v dmg HI) (cell_volumes_balanced _ _ (bond_based (N:=RN) K h pl ht x y v dmg) nbrs v eq_refl) (bb_parallel _ _ _ _ _ _ _ _ _)) as (f' & out & E & El & E1 & E2).
  exists f', out. repeat split; auto. intros ->. rewrite E1. apply momentum_zero.
Qed.
Lemma bb_angular : forall K h pl ht n nbrs x y v dmg f,
  bb_inputs (N:=RN) n nbrs x y v dmg -> length f = n ->
  exists f' out, run_kernel (bond_based (N:=RN) K h pl ht x y v dmg) nbrs f = Ok (f', out) /\ length f' = n /\
    moment v y f' = moment v y f /\ (f = repeat vzero n -> moment v y f' = vzero).
Proof.
  intros K h pl ht n nbrs x y v dmg f HI Hf. pose proof (proj1 HI) as (C1 & C2 & C3 & _).
  destruct (conserve _ _ (bond_based (N:=RN) K h pl ht x y v dmg) n nbrs v y f C3 C2 Hf (bb_total K h pl ht n nbrs x y v dmg HI) (cell_volumes_balanced _ _ (bond_based (N:=RN) K h pl ht x y v dmg) nbrs v eq_refl) (bb_parallel _ _ _ _ _ _ _ _ _)) as (f' & out & E & El & E1 & E2).
  exists f', out. repeat split; auto. intros ->. rewrite E2. apply moment_zero.
Qed.
Lemma visco_linear : forall ex K MU lam tau dt n nbrs x yN y v m t0 t1 dmg edb f,
  visco_inputs (N:=RN) n nbrs x yN y v m t0 t1 dmg edb -> length f = n ->
  exists f' out, run_kernel (visco (N:=RN) ex K MU lam tau dt x yN y v m t0 t1 dmg edb) nbrs f = Ok (f', out) /\ length f' = n /\
    momentum v f' = momentum v f /\ (f = repeat vzero n -> momentum v f' = vzero).
Proof.
  intros ex K MU lam tau dt n nbrs x yN y v m t0 t1 dmg edb f HI Hf. pose proof (proj1 (proj2 HI)) as (C1 & C2 & C3 & _).
  destruct (conserve _ _ (visco (N:=RN) ex K MU lam tau dt x yN y v m t0 t1 dmg edb) n nbrs v y f C3 C2 Hf (visco_total ex K MU lam tau dt n nbrs x yN y v m t0 t1 dmg edb HI) (cell_volumes_balanced _ _ (visco (N:=RN) ex K MU lam tau dt x yN y v m t0 t1 dmg edb) nbrs v eq_refl) (visco_parallel _ _ _ _ _ _ _ _ _ _ _ _ _ _ _ _)) as (f' & out & E & El & E1 & E2).
  exists f', out. repeat split; auto. intros ->. rewrite E1. apply momentum_zero.
Qed.
Lemma visco_angular : forall ex K MU lam tau dt n nbrs x yN y v m t0 t1 dmg edb f,
  visco_inputs (N:=RN) n nbrs x yN y v m t0 t1 dmg edb -> length f = n ->
  exists f' out, run_kernel (visco (N:=RN) ex K MU lam tau dt x yN y v m t0 t1 dmg edb) nbrs f = Ok (f', out) /\ length f' = n /\
    moment v y f' = moment v y f /\ (f = repeat vzero n -> moment v y f' = vzero).
Proof.
  intros ex K MU lam tau dt n nbrs x yN y v m t0 t1 dmg edb f HI Hf. pose proof (proj1 (proj2 HI)) as (C1 & C2 & C3 & _).
  destruct (conserve _ _ (visco (N:=RN) ex K MU lam tau dt x yN y v m t0 t1 dmg edb) n nbrs v y f C3 C2 Hf (visco_total ex K MU lam tau dt n nbrs x yN y v m t0 t1 dmg edb HI) (cell_volumes_balanced _ _ (visco (N:=RN) ex K MU lam tau dt x yN y v m t0 t1 dmg edb) nbrs v eq_refl) (visco_parallel _ _ _ _ _ _ _ _ _ _ _ _ _ _ _ _)) as (f' & out & E & El & E1 & E2).
  exists f', out. repeat split; auto. intros ->. rewrite E2. apply moment_zero.
Qed.
Lemma ep_linear : forall K MU sigma h pl n nbrs x y v m theta dmg edp lam f,
  ep_inputs (N:=RN) n nbrs x y v m theta dmg edp lam -> length f = n ->
  exists f' out, run_kernel (elastic_plastic (N:=RN) K MU sigma h pl x y v m theta dmg edp lam) nbrs f = Ok (f', out) /\ length f' = n /\
    momentum v f' = momentum v f /\ (f = repeat vzero n -> momentum v f' = vzero).
Proof.
  intros K MU sigma h pl n nbrs x y v m theta dmg edp lam f HI Hf. pose proof (proj1 HI) as (C1 & C2 & C3 & _).
  destruct (conserve _ _ (elastic_plastic (N:=RN) K MU sigma h pl x y v m theta dmg edp lam) n nbrs v y f C3 C2 Hf (ep_total K MU sigma h pl n nbrs x y v m theta dmg edp lam HI) (cell_volumes_balanced _ _ (elastic_plastic (N:=RN) K MU sigma h pl x y v m theta dmg edp lam) nbrs v eq_refl) (ep_parallel _ _ _ _ _ _ _ _ _ _ _ _ _ _)) as (f' & out & E & El & E1 & E2).
  exists f', out. repeat split; auto. intros ->. rewrite E1. apply momentum_zero.
Qed.
Lemma ep_angular : forall K MU sigma h pl n nbrs x y v m theta dmg edp lam f,
  ep_inputs (N:=RN) n nbrs x y v m theta dmg edp lam -> length f = n ->
  exists f' out, run_kernel (elastic_plastic (N:=RN) K MU sigma h pl x y v m theta dmg edp lam) nbrs f = Ok (f', out) /\ length f' = n /\
    moment v y f' = moment v y f /\ (f = repeat vzero n -> moment v y f' = vzero).
Proof.
  intros K MU sigma h pl n nbrs x y v m theta dmg edp lam f HI Hf. pose proof (proj1 HI) as (C1 & C2 & C3 & _).
  destruct (conserve _ _ (elastic_plastic (N:=RN) K MU sigma h pl x y v m theta dmg edp lam) n nbrs v y f C3 C2 Hf (ep_total K MU sigma h pl n nbrs x y v m theta dmg edp lam HI) (cell_volumes_balanced _ _ (elastic_plastic (N:=RN) K MU sigma h pl x y v m theta dmg edp lam) nbrs v eq_refl) (ep_parallel _ _ _ _ _ _ _ _ _ _ _ _ _ _)) as (f' & out & E & El & E1 & E2).
  exists f', out. repeat split; auto. intros ->. rewrite E2. apply moment_zero.
Qed.
Lemma hard_linear : forall up K MU H sigma h n nbrs x y v m theta dmg scf edp lam f,
  ep_inputs (N:=RN) n nbrs x y v m theta dmg edp lam -> per_point (N:=RN) nbrs scf -> length f = n ->
  exists f' out, run_kernel (hardening (N:=RN) up K MU H sigma h x y v m theta dmg scf edp lam) nbrs f = Ok (f', out) /\ length f' = n /\
    momentum v f' = momentum v f /\ (f = repeat vzero n -> momentum v f' = vzero).
Proof.
  intros up K MU H sigma h n nbrs x y v m theta dmg scf edp lam f HI Hs Hf. pose proof (proj1 HI) as (C1 & C2 & C3 & _).
  destruct (conserve _ _ (hardening (N:=RN) up K MU H sigma h x y v m theta dmg scf edp lam) n nbrs v y f C3 C2 Hf (hard_total up K MU H sigma h n nbrs x y v m theta dmg scf edp lam HI Hs) (cell_volumes_balanced _ _ (hardening (N:=RN) up K MU H sigma h x y v m theta dmg scf edp lam) nbrs v eq_refl) (hard_parallel _ _ _ _ _ _ _ _ _ _ _ _ _ _ _ _)) as (f' & out & E & El & E1 & E2).
  exists f', out. repeat split; auto. intros ->. rewrite E1. apply momentum_zero.
Qed.
Lemma hard_angular : forall up K MU H sigma h n nbrs x y v m theta dmg scf edp lam f,
  ep_inputs (N:=RN) n nbrs x y v m theta dmg edp lam -> per_point (N:=RN) nbrs scf -> length f = n ->
  exists f' out, run_kernel (hardening (N:=RN) up K MU H sigma h x y v m theta dmg scf edp lam) nbrs f = Ok (f', out) /\ length f' = n /\
    moment v y f' = moment v y f /\ (f = repeat vzero n -> moment v y f' = vzero).
Proof.
  intros up K MU H sigma h n nbrs x y v m theta dmg scf edp lam f HI Hs Hf. pose proof (proj1 HI) as (C1 & C2 & C3 & _).
  destruct (conserve _ _ (hardening (N:=RN) up K MU H sigma h x y v m theta dmg scf edp lam) n nbrs v y f C3 C2 Hf (hard_total up K MU H sigma h n nbrs x y v m theta dmg scf edp lam HI Hs) (cell_volumes_balanced _ _ (hardening (N:=RN) up K MU H sigma h x y v m theta dmg scf edp lam) nbrs v eq_refl) (hard_parallel _ _ _ _ _ _ _ _ _ _ _ _ _ _ _ _)) as (f' & out & E & El & E1 & E2).
  exists f', out. repeat split; auto. intros ->. rewrite E2. apply moment_zero.
Qed.
Lemma pv_conserves : forall omega K MU h al dT n nbrs x y v m theta dmg selfV nbV f,
  lps_inputs (N:=RN) n nbrs x y v m theta dmg dT (Some (selfV, nbV)) -> length f = n ->
  (forall p k j, bond_at nbrs p k j -> nth p v 0 * nth k nbV 0 = nth j v 0 * nth k selfV 0) ->
  exists f' out, run_kernel (lps (N:=RN) omega K MU h al dT x y v m theta dmg (Some (selfV, nbV))) nbrs f = Ok (f', out) /\
    momentum v f' = momentum v f /\ moment v y f' = moment v y f.
Proof.
  intros omega K MU h al dT n nbrs x y v m theta dmg selfV nbV f HI Hf HB. pose proof (proj1 HI) as (C1 & C2 & C3 & _).
  destruct (conserve _ _ (lps (N:=RN) omega K MU h al dT x y v m theta dmg (Some (selfV, nbV))) n nbrs v y f C3 C2 Hf (lps_total omega K MU h al dT n nbrs x y v m theta dmg _ HI) (bond_volumes_balanced _ _ (lps (N:=RN) omega K MU h al dT x y v m theta dmg (Some (selfV, nbV))) nbrs v (Some (selfV, nbV)) eq_refl HB) (lps_parallel _ _ _ _ _ _ _ _ _ _ _ _ _ _)) as (f' & out & E & El & E1 & E2).
  eauto 6.
Qed.
Lemma linear_conserves : forall omega K MU h n nbrs x y v m theta dmg st f,
  lps_inputs (N:=RN) n nbrs x y v m theta dmg None None -> opt_ok (per_bond (N:=RN) nbrs) st -> length f = n ->
  exists f' out, run_kernel (linear_lps (N:=RN) omega K MU h x y v m theta dmg None st) nbrs f = Ok (f', out) /\
    momentum v f' = momentum v f /\ moment v x f' = moment v x f.
Proof.
  intros omega K MU h n nbrs x y v m theta dmg st f HI Hs Hf. pose proof (proj1 HI) as (C1 & C2 & C3 & _).
  destruct (conserve _ _ (linear_lps (N:=RN) omega K MU h x y v m theta dmg None st) n nbrs v x f C3 C1 Hf (linear_total omega K MU h n nbrs x y v m theta dmg _ st HI Hs) (cell_volumes_balanced _ _ (linear_lps (N:=RN) omega K MU h x y v m theta dmg None st) nbrs v eq_refl) (linear_parallel _ _ _ _ _ _ _ _ _ _ _ _ _)) as (f' & out & E & El & E1 & E2).
  eauto 6.
Qed.
Lemma dil_frame : forall omega h al dT x y v dmg nbV m nbrs Q c th, orthogonal Q ->
  dilatations (dilatation (N:=RN) omega h al dT x y v dmg nbV m) 0 0 nbrs = Ok th ->
  dilatations (dilatation (N:=RN) omega h al dT x (map (move Q c) y) v dmg nbV m) 0 0 nbrs = Ok th.
Proof.
  intros omega h al dT x y v dmg nbV m nbrs Q c th HQ H.
  eapply (dilatations_eq (fun _ => True) (rotate Q) nbrs dmg y (map (move Q c) y)); [now apply iso_rotate|apply move_related|auto|exact H].
Qed.
Lemma lps_frame : forall omega K MU h al dT n nbrs x y v m theta dmg Q c f, orthogonal Q ->
  lps_inputs (N:=RN) n nbrs x y v m theta dmg dT None -> length f = n ->
  exists f' out out', run_kernel (lps (N:=RN) omega K MU h al dT x y v m theta dmg None) nbrs f = Ok (f', out) /\
    run_kernel (lps (N:=RN) omega K MU h al dT x (map (move Q c) y) v m theta dmg None) nbrs (map (rotate Q) f) = Ok (map (rotate Q) f', out').
Proof.
  intros omega K MU h al dT n nbrs x y v m theta dmg Q c f HQ HI Hf.
  pose proof (lps_matching (fun _ => True) (rotate Q) nbrs dmg y (map (move Q c) y) (iso_rotate Q HQ) (move_related Q c nbrs y) (fun _ _ => I) omega K MU h al dT x v m theta None) as HM.
  destruct (sim_ok _ _ _ _ _ _ _ _ _ nbrs n (rotate_linear Q) (lps_total omega K MU h al dT n nbrs x y v m theta dmg None HI) HM f Hf) as (f' & out & out2 & E1 & E2 & HS).
  exists f', out, out2. auto.
Qed.
Lemma bb_frame : forall K h pl ht n nbrs x y v dmg Q c f, orthogonal Q ->
  bb_inputs (N:=RN) n nbrs x y v dmg -> length f = n ->
  exists f' out out', run_kernel (bond_based (N:=RN) K h pl ht x y v dmg) nbrs f = Ok (f', out) /\
    run_kernel (bond_based (N:=RN) K h pl ht x (map (move Q c) y) v dmg) nbrs (map (rotate Q) f) = Ok (map (rotate Q) f', out').
Proof.
  intros K h pl ht n nbrs x y v dmg Q c f HQ HI Hf.
  pose proof (bb_matching (fun _ => True) (rotate Q) nbrs dmg y (map (move Q c) y) (iso_rotate Q HQ) (move_related Q c nbrs y) (fun _ _ => I) K h pl ht x v) as HM.
  destruct (sim_ok _ _ _ _ _ _ _ _ _ nbrs n (rotate_linear Q) (bb_total K h pl ht n nbrs x y v dmg HI) HM f Hf) as (f' & out & out2 & E1 & E2 & HS).
  exists f', out, out2. auto.
Qed.
Lemma visco_frame : forall ex K MU lam tau dt n nbrs x yN y v m t0 t1 dmg edb Q0 c0 Q c f, orthogonal Q0 -> orthogonal Q ->
  visco_inputs (N:=RN) n nbrs x yN y v m t0 t1 dmg edb -> length f = n ->
  exists f' out out', run_kernel (visco (N:=RN) ex K MU lam tau dt x yN y v m t0 t1 dmg edb) nbrs f = Ok (f', out) /\
    run_kernel (visco (N:=RN) ex K MU lam tau dt x (map (move Q0 c0) yN) (map (move Q c) y) v m t0 t1 dmg edb) nbrs (map (rotate Q) f) = Ok (map (rotate Q) f', out') /\
    new_edb (N:=RN) out' = new_edb (N:=RN) out.
Proof.
  intros ex K MU lam tau dt n nbrs x yN y v m t0 t1 dmg edb Q0 c0 Q c f HQ0 HQ HI Hf.
  pose proof (visco_matching (fun _ => True) (rotate Q) nbrs dmg y (map (move Q c) y) (iso_rotate Q HQ) (move_related Q c nbrs y) (fun _ _ => I) (rotate Q0) yN (map (move Q0 c0) yN) (iso_rotate Q0 HQ0) (move_related Q0 c0 nbrs yN) ex K MU lam tau dt x v m t0 t1 edb) as HM.
  destruct (sim_ok _ _ _ _ _ _ _ _ _ nbrs n (rotate_linear Q) (visco_total ex K MU lam tau dt n nbrs x yN y v m t0 t1 dmg edb HI) HM f Hf) as (f' & out & out2 & E1 & E2 & HS).
  exists f', out, out2. repeat split; auto. symmetry. apply edb_states. eapply same_out_states; [|exact HS]. intros k a b Hab. exact (Hab I).
Qed.
Lemma ep_frame : forall K MU sigma h pl n nbrs x y v m theta dmg edp lam Q c f, orthogonal Q ->
  ep_inputs (N:=RN) n nbrs x y v m theta dmg edp lam -> length f = n ->
  exists f' out out', run_kernel (elastic_plastic (N:=RN) K MU sigma h pl x y v m theta dmg edp lam) nbrs f = Ok (f', out) /\
    run_kernel (elastic_plastic (N:=RN) K MU sigma h pl x (map (move Q c) y) v m theta dmg edp lam) nbrs (map (rotate Q) f) = Ok (map (rotate Q) f', out') /\
    new_lambda out' = new_lambda out /\ new_edp (N:=RN) out' = new_edp (N:=RN) out.
Proof.
  intros K MU sigma h pl n nbrs x y v m theta dmg edp lam Q c f HQ HI Hf.
  pose proof (ep_matching (fun _ => True) (rotate Q) nbrs dmg y (map (move Q c) y) (iso_rotate Q HQ) (move_related Q c nbrs y) (fun _ _ => I) K MU sigma h pl x v m theta edp lam) as HM.
  destruct (sim_ok _ _ _ _ _ _ _ _ _ nbrs n (rotate_linear Q) (ep_total K MU sigma h pl n nbrs x y v m theta dmg edp lam HI) HM f Hf) as (f' & out & out2 & E1 & E2 & HS).
  exists f', out, out2. repeat split; auto; symmetry.
  - eapply same_out_pre; [|exact HS]. intros. eapply ppRD_lambda; eauto.
  - apply edp_states. eapply same_out_states; [|exact HS]. intros k a b Hab. exact (Hab I).
Qed.
Lemma hard_frame : forall up K MU H sigma h n nbrs x y v m theta dmg scf edp lam Q c f, orthogonal Q ->
  ep_inputs (N:=RN) n nbrs x y v m theta dmg edp lam -> per_point (N:=RN) nbrs scf -> length f = n ->
  exists f' out out', run_kernel (hardening (N:=RN) up K MU H sigma h x y v m theta dmg scf edp lam) nbrs f = Ok (f', out) /\
    run_kernel (hardening (N:=RN) up K MU H sigma h x (map (move Q c) y) v m theta dmg scf edp lam) nbrs (map (rotate Q) f) = Ok (map (rotate Q) f', out') /\
    new_lambda out' = new_lambda out /\ new_edp (N:=RN) out' = new_edp (N:=RN) out.
Proof.
  intros up K MU H sigma h n nbrs x y v m theta dmg scf edp lam Q c f HQ HI Hs Hf.
  pose proof (hard_matching (fun _ => True) (rotate Q) nbrs dmg y (map (move Q c) y) (iso_rotate Q HQ) (move_related Q c nbrs y) (fun _ _ => I) up K MU H sigma h x v m theta scf edp lam) as HM.
  destruct (sim_ok _ _ _ _ _ _ _ _ _ nbrs n (rotate_linear Q) (hard_total up K MU H sigma h n nbrs x y v m theta dmg scf edp lam HI Hs) HM f Hf) as (f' & out & out2 & E1 & E2 & HS).
  exists f', out, out2. repeat split; auto; symmetry.
  - eapply same_out_pre; [|exact HS]. intros. eapply ppRD_lambda; eauto.
  - apply edp_states. eapply same_out_states; [|exact HS]. intros k a b Hab. exact (Hab I).
Qed.
Lemma dil_rigid0 : forall omega h al x v dmg nbV m n nbrs Q c, orthogonal Q ->
  cloud_ok (N:=RN) n nbrs x x v -> per_bond (N:=RN) nbrs dmg -> opt_ok (per_bond (N:=RN) nbrs) nbV -> per_point (N:=RN) nbrs m ->
  dilatations (dilatation (N:=RN) omega h al None x (map (move Q c) x) v dmg nbV m) 0 0 nbrs = Ok (repeat 0 (length nbrs)).
Proof. intros. eapply dilatations_rigid; eauto. Qed.
Lemma lps_rigid_ok : forall omega K MU h al n nbrs x v m dmg Q c f, orthogonal Q ->
  lps_inputs (N:=RN) n nbrs x x v m (repeat 0 (length nbrs)) dmg None None -> length f = n ->
  exists out, run_kernel (lps (N:=RN) omega K MU h al None x (map (move Q c) x) v m (repeat 0 (length nbrs)) dmg None) nbrs f = Ok (f, out).
Proof.
  intros omega K MU h al n nbrs x v m dmg Q c f HQ HI Hf. eapply rigid_ok; [apply lps_rigid; auto| |exact Hf]. apply lps_total. destruct HI as (HC & HI). split; [eapply cloud_move; eauto|auto].
Qed.
Lemma bb_rigid_ok : forall K h pl ht n nbrs x v dmg Q c f, orthogonal Q ->
  bb_inputs (N:=RN) n nbrs x x v dmg -> length f = n ->
  exists out, run_kernel (bond_based (N:=RN) K h pl ht x (map (move Q c) x) v dmg) nbrs f = Ok (f, out).
Proof.
  intros K h pl ht n nbrs x v dmg Q c f HQ HI Hf. eapply rigid_ok; [apply bb_rigid; auto| |exact Hf]. apply bb_total. destruct HI as (HC & HI). split; [eapply cloud_move; eauto|auto].
Qed.
Lemma visco_rigid_ok : forall ex K MU lam tau dt n nbrs x v m dmg Q0 c0 Q c f, orthogonal Q0 -> orthogonal Q ->
  visco_inputs (N:=RN) n nbrs x x x v m (repeat 0 (length nbrs)) (repeat 0 (length nbrs)) dmg (repeat 0 (num_bonds nbrs)) -> length f = n ->
  exists out, run_kernel (visco (N:=RN) ex K MU lam tau dt x (map (move Q0 c0) x) (map (move Q c) x) v m (repeat 0 (length nbrs)) (repeat 0 (length nbrs)) dmg (repeat 0 (num_bonds nbrs))) nbrs f = Ok (f, out).
Proof.
  intros ex K MU lam tau dt n nbrs x v m dmg Q0 c0 Q c f HQ0 HQ HI Hf. eapply rigid_ok; [apply visco_rigid; auto| |exact Hf]. apply visco_total. destruct HI as (HC & HC2 & HI). split; [eapply cloud_move; eauto|split; [eapply cloud_move; eauto|auto]].
Qed.
Lemma ep_rigid_ok : forall K MU sigma h pl n nbrs x v m dmg lam Q c f, orthogonal Q ->
  ep_inputs (N:=RN) n nbrs x x v m (repeat 0 (length nbrs)) dmg (repeat 0 (num_bonds nbrs)) lam -> length f = n ->
  exists out, run_kernel (elastic_plastic (N:=RN) K MU sigma h pl x (map (move Q c) x) v m (repeat 0 (length nbrs)) dmg (repeat 0 (num_bonds nbrs)) lam) nbrs f = Ok (f, out).
Proof.
  intros K MU sigma h pl n nbrs x v m dmg lam Q c f HQ HI Hf. eapply rigid_ok; [apply ep_rigid; auto| |exact Hf]. apply ep_total. destruct HI as (HC & HI). split; [eapply cloud_move; eauto|auto].
Qed.
Lemma hard_rigid_ok : forall up K MU H sigma h n nbrs x v m dmg scf lam Q c f, orthogonal Q ->
  ep_inputs (N:=RN) n nbrs x x v m (repeat 0 (length nbrs)) dmg (repeat 0 (num_bonds nbrs)) lam -> per_point (N:=RN) nbrs scf -> length f = n ->
  exists out, run_kernel (hardening (N:=RN) up K MU H sigma h x (map (move Q c) x) v m (repeat 0 (length nbrs)) dmg scf (repeat 0 (num_bonds nbrs)) lam) nbrs f = Ok (f, out).
Proof.
  intros up K MU H sigma h n nbrs x v m dmg scf lam Q c f HQ HI Hs Hf. eapply rigid_ok; [apply hard_rigid; auto| |exact Hf]. apply hard_total; [destruct HI as (HC & HI); split; [eapply cloud_move; eauto|auto]|auto].
Qed.
Lemma wv_looks_up : forall omega x v h p js M, weightedVolume (N:=RN) omega x v h p js = Ok M ->
  exists X nb, nth_error x p = Some X /\ looks_up x v js nb.
Proof.
  intros omega x v h p js M H. unfold weightedVolume in H. apply ProofData.bind_Ok in H as [X [EX H]]. exists X.
  enough (exists nb, looks_up x v js nb) as [nb Hnb] by (exists nb; split; auto; now apply ProofData.at_ub_Ok).
  revert H. generalize (@ofZ RN 0). induction js as [|j js IH]; intros acc H.
  - exists []. constructor.
  - cbn [foldM] in H. apply ProofData.bind_Ok in H as [acc' [H1 H2]]. apply ProofData.bind_Ok in H1 as [vj [E1 H1]]. apply ProofData.bind_Ok in H1 as [XP [E2 H1]].
    destruct (IH _ H2) as [nb Hnb]. exists ((XP, vj) :: nb). constructor; auto. split; now apply ProofData.at_ub_Ok.
Qed.
Lemma dil_calibrated : forall omega h al x v dmg e c m p k js M, -1 <= e ->
  (forall n j, nth_error js n = Some j -> nth_error dmg (k + n) = Some 0) ->
  weightedVolume (N:=RN) omega x v h p js = Ok M -> nth_error m p = Some M -> M <> 0 ->
  dilatation (N:=RN) omega h al None x (map (expand e c) x) v dmg None m p k js = Ok (3 * e).
Proof.
  intros omega h al x v dmg e c m p k js M He Hd HM Hm HM0. destruct (wv_looks_up _ _ _ _ _ _ _ HM) as (X & nb & HX & Hnb).
  pose proof (wv_ok omega x v h p js X nb HX Hnb) as E. rewrite E in HM. injection HM as HM. subst M.
  eapply dilatation_expand; eauto.
Qed.
Lemma pressure_bond : forall omega K MU h al x v m theta dmg e c p k j X XP M, -1 <= e -> M <> 0 ->
  nth_error x p = Some X -> nth_error x j = Some XP -> nth_error dmg k = Some 0 ->
  bond _ _ (lps (N:=RN) omega K MU h al None x (map (expand e c) x) v m theta dmg None) (X, expand e c X, M, 3 * e, None) p k j
  = Ok (along (N:=RN) (3 * K * (3 * e) * omega (dist X XP) h * dist X XP / M)
          (vsub (expand e c XP) (expand e c X)) ((1 + e) * dist X XP), tt).
Proof.
  intros omega K MU h al x v m theta dmg e c p k j X XP M He HM HX HXP Hd. kb.
  rewrite (at_Ok _ _ _ _ HXP). cbn [bind]. rewrite (at_ub_map _ _ (expand e c) _ _ _ (at_Ok _ _ _ _ HXP)). cbn [bind].
  rewrite (at_Ok (T RN) _ _ _ Hd). cbn [bind]. rewrite (expand_len e c _ _ He), !vlen_dist. f_equal. f_equal. f_equal.
  exact (lps_t_pressure omega K MU h al M e (dist X XP) HM).
Qed.