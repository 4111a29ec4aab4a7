(** * Runs of the rotation update *)
From Coq Require Import Reals Lra Lia.
From Verif Require Import Base Num ModelNeigh SpecDamage ModelForce SpecForce ModelCorr SpecCorr ProofData ProofDamage ProofForce ProofKernels ProofCorr ProofCorr2 ProofCorr3 ProofCorr4 ProofCorr5 ProofRot.
Local Open Scope R_scope.
Local Notation vec := (V3 RN).
Local Notation ten := (M3 RN).

(** ** one step from an orthogonal rotation *)
Lemma step_gram : forall dt (L V Q : ten), orthogonal3 (ent Q) ->
  let w := angular L V in
  let Q1 := snd (fst (rotation_step (N:=RN) sin cos dt L V Q)) in
  (forall i j, (i < 3)%nat -> (j < 3)%nat -> prod (ent Q1) (transp (ent Q1)) i j = kron i j + excess dt w * (kron i j - dir2 w i j)).
Proof.
  intros dt L V Q HQ w Q1 i j Hi Hj. destruct (q_excess dt w) as [G _]. rewrite <- G by auto. unfold Q1. rewrite step_rotation. fold w. generalize (qmatrix (N:=RN) sin cos dt w). intros q.
  apply orthogonal3_right in HQ. transitivity (ent (mul_nt (mul_nn q Q) (mul_nn q Q)) i j).
  - rewrite nt_trans. rewrite nn_ent by auto. unfold prod, sum3, transp. rewrite !ent_trans by lia. reflexivity.
  - f_equal. rewrite !nt_trans, trans_nn, <- nn_assoc, (nn_assoc q Q), HQ, nn_one_r. reflexivity.
Qed.
Lemma step_det : forall dt (L V Q : ten),
  det3 (ent (snd (fst (rotation_step (N:=RN) sin cos dt L V Q)))) = (1 + excess dt (angular L V)) * det3 (ent Q).
Proof. intros. rewrite step_rotation, det_nn. destruct (q_excess dt (angular L V)) as [_ ->]. reflexivity. Qed.
Lemma orthogonal3_left : forall a : ten, mul_nn a (mtrans a) = mone -> orthogonal3 (ent a).
Proof.
  intros a H. assert (X : orthogonal3 (ent (mtrans a))) by (apply orthogonal3_nn; now rewrite trans_trans).
  apply orthogonal3_right in X. rewrite trans_trans in X. now apply orthogonal3_nn.
Qed.
Lemma step_orthogonal : forall dt (L V Q : ten), orthogonal3 (ent Q) ->
  (orthogonal3 (ent (snd (fst (rotation_step (N:=RN) sin cos dt L V Q)))) <-> excess dt (angular L V) = 0).
Proof.
  intros dt L V Q HQ. pose proof (step_gram dt L V Q HQ) as G. cbv zeta in G.
  assert (DQ : det3 (ent Q) * det3 (ent Q) = 1) by (pose proof (orthogonal3_right _ HQ) as X; apply (f_equal (fun m => det3 (ent m))) in X; rewrite det_nn, det_trans, det_one in X; exact X).
  pose proof (step_det dt L V Q) as HD. revert G HD. generalize (snd (fst (rotation_step (N:=RN) sin cos dt L V Q))). intros Q1 G HD. split.
  - intros H. pose proof (orthogonal3_right _ H) as X. apply (f_equal (fun m => det3 (ent m))) in X. rewrite det_nn, det_trans, det_one, HD in X.
    pose proof (excess_nonneg dt (angular L V)). change (T RN) with R in *. nra.
  - intros E. apply orthogonal3_left. apply M3_ext. intros i j Hi Hj. rewrite kron_one by auto. rewrite nn_ent by auto.
    transitivity (prod (ent Q1) (transp (ent Q1)) i j); [unfold prod, sum3, transp; rewrite !ent_trans by lia; reflexivity|].
    rewrite G by auto. rewrite E. ring.
Qed.

(** ** the point loop *)
Definition gradient_of (omega : R -> R -> R) (x vel : list vec) (v hs : list R) (p : nat) (js : list nat) (g : ten * ten) (L : ten) : Prop :=
  exists h X U Fd1, nth_error hs p = Some h /\ nth_error x p = Some X /\ nth_error vel p = Some U /\
    rate_sums (N:=RN) omega x vel v h X U js = Ok Fd1 /\ L = mul_nn (mul_nn Fd1 (fst g)) (snd (invert (snd g))).
Definition steps_of (dt : R) (Ls : list ten) (st : list (ten * ten)) : list (ten * ten * ten) :=
  map (fun a => rotation_step (N:=RN) sin cos dt (fst a) (fst (snd a)) (snd (snd a))) (combine Ls st).

Lemma rate_points_go : forall omega dt (x vel : list vec) (v hs : list R) nbrs p (geo : list (ten * ten)), length geo = length nbrs ->
  (forall m js, nth_error nbrs m = Some js -> exists h X U Fd1, nth_error hs (p + m)%nat = Some h /\ nth_error x (p + m)%nat = Some X /\ nth_error vel (p + m)%nat = Some U /\
     rate_sums (N:=RN) omega x vel v h X U js = Ok Fd1) ->
  exists Ls, length Ls = length nbrs /\
    (forall m js g L, nth_error nbrs m = Some js -> nth_error geo m = Some g -> nth_error Ls m = Some L -> gradient_of omega x vel v hs (p + m) js g L) /\
    forall code, exists c, (c = 0%Z <-> code = 0%Z /\ forall m g, nth_error geo m = Some g -> det3 (ent (snd g)) <> 0) /\
    forall st, length st = length nbrs -> rate_points (N:=RN) omega sin cos dt x vel v hs p nbrs geo st code = Ok (c, steps_of dt Ls st).
Proof.
  intros omega dt x vel v hs. induction nbrs as [|js nbrs IH]; intros p geo Hg H.
  - exists []. split; [reflexivity|]. split; [intros [|m] ? ? ?; discriminate|]. intros code. exists code. destruct geo; [|discriminate]. split.
    + split; [intros ->; split; auto; intros [|m]; discriminate|tauto].
    + intros [|]; [reflexivity|discriminate].
  - destruct geo as [|[Ki F] geo]; [discriminate|]. destruct (H 0%nat js eq_refl) as (h & X & U & Fd1 & E1 & E2 & E3 & E4). rewrite Nat.add_0_r in E1, E2, E3.
    destruct (IH (1 + p)%nat geo ltac:(simpl in Hg; lia)) as (Ls & L1 & L2 & L3).
    { intros m js' Hm. replace (1 + p + m)%nat with (p + S m)%nat by lia. apply (H (S m) js' Hm). }
    destruct (invert F) as [[rc d] Finv] eqn:EI. set (L := mul_nn (mul_nn Fd1 Ki) Finv).
    exists (L :: Ls). split; [simpl; lia|]. split.
    + intros [|m] js' g L' Hm HG HL; cbn in Hm, HG, HL.
      * injection Hm as <-. injection HG as <-. injection HL as <-. rewrite Nat.add_0_r. exists h, X, U, Fd1. cbn [fst snd]. rewrite EI. auto.
      * replace (p + S m)%nat with (1 + p + m)%nat by lia. eauto.
    + intros code. destruct (L3 (if (0 <? rc)%Z then rc else code)) as (c & C1 & C2). exists c.
      pose proof (invert_code F) as HC. rewrite EI in HC. cbn [fst] in HC. split.
      * rewrite C1. destruct (Reqb (det3 (ent F)) 0) eqn:ER.
        -- subst rc. cbn. split; [intros [? _]; discriminate|]. intros [_ HZ]. exfalso. apply Reqb_true in ER. exact (HZ 0%nat (Ki, F) eq_refl ER).
        -- subst rc. cbn. apply Reqb_false in ER. split.
           ++ intros [-> HZ]. split; auto. intros [|m] g Hm; cbn in Hm; [injection Hm as <-; exact ER|eauto].
           ++ intros [-> HZ]. split; auto. intros m g Hm. apply (HZ (S m) g Hm).
      * intros st Hst. destruct st as [|[V Q] st]; [discriminate|]. cbn [rate_points]. unfold rate_point.
        rewrite (at_of _ hs p h E1 : at_ub (A:=T RN) hs p = Ok h), (at_of _ _ _ _ E2), (at_of _ _ _ _ E3). cbn [bind]. rewrite E4. cbn [bind]. rewrite EI. cbn [bind].
        change (S p) with (1 + p)%nat. rewrite C2 by (simpl in Hst; lia). cbn [bind]. rewrite !matmul_nn. reflexivity.
Qed.
Lemma rates_ok : forall omega dt n nbrs (x y vel : list vec) (v hs : list R) (geo : list (ten * ten)), corr_inputs n nbrs x y v hs -> length vel = n -> length geo = length nbrs ->
  exists c Ls, length Ls = length nbrs /\
    (forall p js g L, nth_error nbrs p = Some js -> nth_error geo p = Some g -> nth_error Ls p = Some L -> gradient_of omega x vel v hs p js g L) /\
    (c = 0%Z <-> forall p g, nth_error geo p = Some g -> det3 (ent (snd g)) <> 0) /\
    forall st, length st = length nbrs -> rates (N:=RN) omega sin cos dt x vel v hs nbrs geo st = Ok (c, steps_of dt Ls st).
Proof.
  intros omega dt n nbrs x y vel v hs geo HI Hvel Hg.
  destruct (rate_points_go omega dt x vel v hs nbrs 0 geo Hg) as (Ls & L1 & L2 & L3).
  - intros p js Hp. destruct (neighbourhood_ok _ _ _ _ _ _ _ _ HI Hp) as (X & h & nbs & js' & E1 & EX & EH & HL). rewrite Hp in E1. injection E1 as <-.
    destruct HI as ((Hx & Hy & Hv & Hn & HF) & Hh). assert (p < length nbrs)%nat by (apply nth_error_Some; congruence).
    destruct (nth_error vel p) as [U|] eqn:EU; [|exfalso; apply nth_error_None in EU; lia].
    destruct (shape_sums_ok omega x vel v h X U js nbs) as (K & F1 & ES & _); [congruence|auto|].
    exists h, X, U, F1. cbn [Nat.add]. repeat split; auto. eapply rate_sums_ok; exact ES.
  - destruct (L3 0%Z) as (c & C1 & C2). exists c, Ls. split; [exact L1|]. split; [exact L2|]. split; [|exact C2]. rewrite C1. tauto.
Qed.

(** a neighbourhood whose velocities are affine *)
Lemma gradient_affine : forall omega n nbrs (x y vel : list vec) (v hs : list R) geo p js g X h nbs (A G : mat) b c L, corr_inputs n nbrs x y v hs -> length vel = n ->
  geo_of omega x y v hs nbrs geo -> nth_error nbrs p = Some js -> nth_error geo p = Some g -> neighbourhood x v hs nbrs p X h nbs ->
  det3 (shape omega h X nbs) <> 0 -> affine_at A b x y (p :: js) -> affine_at G c x vel (p :: js) -> det3 A <> 0 ->
  gradient_of omega x vel v hs p js g L -> mul_nn L (of_mat A) = of_mat G.
Proof.
  intros omega n nbrs x y vel v hs geo p js g X h nbs A G b c L HI Hvel HG Hp Eg HN HD HA HU HZ (h' & X' & U & Fd1 & EH & EX & EU & ES & ->).
  destruct (geo_affine omega n nbrs x y v hs geo p js X h nbs A b HI HG Hp HN HD HA) as (g' & Eg' & EF & _). rewrite Eg in Eg'. injection Eg' as <-.
  destruct (HG p js X h nbs Hp HN) as (Y & K & F1 & g' & Eg' & EY & EK & HK & _ & Hinv & _). rewrite Eg in Eg'. injection Eg' as <-.
  destruct (Hinv HD) as [I1 I2]. pose proof HN as (js' & Ejs & EX2 & EH2 & HL). rewrite Hp in Ejs. injection Ejs as <-.
  rewrite EX in EX2. injection EX2 as ->. assert (h' = h) by (change (T RN) with R in *; congruence). subst h'.
  destruct HI as ((Hx & Hy & Hv & Hn & HF) & Hh).
  destruct (shape_sums_ok omega x vel v h X U js nbs) as (K' & F1' & ES' & HK' & HL'); [congruence|auto|].
  pose proof (rate_sums_ok _ _ _ _ _ _ _ _ _ _ ES') as R1. rewrite ES in R1. injection R1 as ->.
  assert (K' = K) as ->. { apply M3_ext. intros i j Hi Hj. rewrite HK, HK' by auto. reflexivity. }
  rewrite (HL' (of_mat G)); [|intros j XP YP Hj J1 J2; exact (affine_bond _ _ _ _ _ p j _ _ _ _ HU (or_introl eq_refl) (or_intror Hj) EX EU J1 J2)].
  rewrite (nn_assoc (of_mat G)), I1, nn_one_r. rewrite EF.
  assert (HZ' : det3 (ent (of_mat A)) <> 0) by (rewrite (det_eq3 _ _ (of_mat_ent A)); exact HZ).
  destruct (invert_regular _ HZ') as (Ai & EI & B1 & B2). rewrite EI. cbn [snd]. rewrite nn_assoc, B2. apply nn_one_r.
Qed.

(** ** histories *)
Lemma nth_steps : forall dt Ls st p o, nth_error (steps_of dt Ls st) p = Some o ->
  exists L V Q, nth_error Ls p = Some L /\ nth_error st p = Some (V, Q) /\ o = rotation_step (N:=RN) sin cos dt L V Q.
Proof.
  intros dt. induction Ls as [|L Ls IH]; intros [|[V Q] st] p o H; try (destruct p; discriminate). destruct p; cbn in H.
  - injection H as <-. exists L, V, Q. auto.
  - apply IH in H. exact H.
Qed.
Lemma steps_len : forall dt Ls (st : list (ten * ten)), length Ls = length st -> length (steps_of dt Ls st) = length st.
Proof. intros dt Ls st H. unfold steps_of. rewrite map_length, combine_length, H. apply Nat.min_id. Qed.

Section History.
  Variables (omega : R -> R -> R) (dt : R) (n : nat) (nbrs : list (list nat)) (x : list vec) (v hs : list R).
  Definition one_step (st : list (ten * ten)) (yv : list vec * list vec) : outcome (list (ten * ten)) :=
      let? (code, geo) := deformation (N:=RN) omega x (fst yv) v hs nbrs in
      if negb (Z.eqb code 0) then Err else
      let? (code, rs) := rates (N:=RN) omega sin cos dt x (snd yv) v hs nbrs geo st in
      if negb (Z.eqb code 0) then Err else Ok (map fst rs).
  (** any relation that every step of every point keeps is kept by the history *)
  Lemma one_step_points : forall y vel st st', corr_inputs n nbrs x y v hs -> length vel = n -> length st = length nbrs ->
    one_step st (y, vel) = Ok st' ->
    exists geo Ls, deformation (N:=RN) omega x y v hs nbrs = Ok (0%Z, geo) /\ length geo = length nbrs /\ geo_of omega x y v hs nbrs geo /\ length Ls = length nbrs /\
      (forall p X h nbs, neighbourhood x v hs nbrs p X h nbs -> det3 (shape omega h X nbs) <> 0) /\
      (forall p js g L, nth_error nbrs p = Some js -> nth_error geo p = Some g -> nth_error Ls p = Some L -> gradient_of omega x vel v hs p js g L) /\
      st' = map fst (steps_of dt Ls st).
  Proof.
    intros y vel st st' HI Hvel Hst H. unfold one_step in H. cbn [fst snd] in H.
    destruct (deformation_ok omega n nbrs x y v hs HI) as (code & geo & E & Lg & HG & HC). rewrite E in H. cbn [bind] in H.
    destruct (Z.eqb code 0) eqn:EC; [|discriminate]. apply Z.eqb_eq in EC. subst code. cbn [negb] in H.
    destruct (rates_ok omega dt n nbrs x y vel v hs geo HI Hvel Lg) as (c & Ls & L1 & L2 & L3 & L4).
    rewrite (L4 st Hst) in H. cbn [bind] in H. destruct (Z.eqb c 0); [|discriminate]. cbn [negb] in H. apply Ok_eq in H.
    exists geo, Ls. repeat (split; [solve [auto | apply HC; auto]|]). auto.
  Qed.
  Lemma history_inv : forall (P : ten * ten -> Prop) steps st st',
    Forall (fun yv => corr_inputs n nbrs x (fst yv) v hs /\ length (snd yv) = n) steps ->
    (forall L V Q, P (V, Q) -> P (fst (rotation_step (N:=RN) sin cos dt L V Q))) ->
    length st = length nbrs -> Forall P st -> foldM one_step st steps = Ok st' -> length st' = length nbrs /\ Forall P st'.
  Proof.
    intros P steps. induction steps as [|[y vel] steps IH]; intros st st' HF HP Hl H0 H.
    - cbn in H. injection H as <-. auto.
    - apply Forall_cons_iff in HF as [[HI Hvel] HF]. cbn [fst snd] in *. cbn [foldM] in H. apply bind_Ok in H as [st1 [H1 H]].
      destruct (one_step_points y vel st st1 HI Hvel Hl H1) as (geo & Ls & _ & _ & _ & L1 & _ & _ & ->).
      apply (IH (map fst (steps_of dt Ls st)) st'); auto.
      + rewrite map_length, steps_len; congruence.
      + rewrite Forall_forall in H0 |- *. intros o Ho. apply in_map_iff in Ho as (o1 & <- & Ho). apply In_nth_error in Ho as [p Hp].
        destruct (nth_steps _ _ _ _ _ Hp) as (L & V & Q & _ & E2 & ->). apply HP. apply H0. eapply nth_error_In; eauto.
  Qed.

  (** a spinning body *)
  Lemma spin_gradient : forall (A : mat) (w : vec), of_mat (fun i j => prod (cross_of w) A i j) = mul_nn (hat w) (of_mat A).
  Proof. intros A w. apply M3_ext. intros i j Hi Hj. rewrite of_mat_ent, nn_ent by auto. unfold prod, sum3. rewrite !of_mat_ent by (auto; lia). rewrite !hat_cross by (auto; lia). reflexivity. Qed.
  Lemma step_spin : forall (w : vec) Q, fst (rotation_step (N:=RN) sin cos dt (hat w) mone Q) = (mone, mul_nn (qmatrix (N:=RN) sin cos dt w) Q) /\ snd (rotation_step (N:=RN) sin cos dt (hat w) mone Q) = mzero.
  Proof.
    intros w Q. assert (EA : angular (hat w) mone = w).
    { unfold angular. cbv zeta. destruct (invert (trace_minus mone)) as [[rc d] ti]. apply v3_ext; cbn; to_R; change (T RN) with R in *; unfold half; cbn; lra. }
    split.
    - rewrite (surjective_pairing (fst _)), step_stretch, step_rotation, EA. f_equal.
      rewrite nn_one_l, nn_one_r. mext.
    - rewrite step_rate. cbv zeta. generalize (snd (fst (rotation_step (N:=RN) sin cos dt (hat w) mone Q))). intros Q1.
      replace (rate_of_deformation (hat w)) with (mzero (N:=RN)); [mext|]. apply M3_ext. intros i j Hi Hj. ij i j Hi Hj; cbn; unfold half; cbn; to_R; change (T RN) with R in *; lra.
  Qed.

  (** growth across the axis *)
  Definition across (w : vec) : ten := mscale (N:=RN) (- / vdot w w) (mul_nn (hat w) (hat w)).
  Lemma across_ent : forall w : vec, vdot w w <> 0 -> forall i j, (i < 3)%nat -> (j < 3)%nat -> ent (across w) i j = kron i j - dir2 w i j.
  Proof.
    intros w Hw i j Hi Hj. transitivity (- / vdot w w * ent (mul_nn (hat w) (hat w)) i j).
    - unfold across. generalize (mul_nn (hat w) (hat w)) (- / vdot w w). intros m k. ij i j Hi Hj; cbn; rring.
    - rewrite hat_sq by auto. unfold dir2. revert Hw. generalize (vdot w w) (comp w i) (comp w j). intros d a b Hd. change (T RN) with R in *. field. exact Hd.
  Qed.
  Lemma hat_four : forall w : vec, mul_nn (mul_nn (hat w) (hat w)) (mul_nn (hat w) (hat w)) = mscale (N:=RN) (- vdot w w) (mul_nn (hat w) (hat w)).
  Proof. intros. mext. Qed.
  Lemma across_idem : forall w : vec, vdot w w <> 0 -> mul_nn (across w) (across w) = across w.
  Proof.
    intros w Hw. unfold across. transitivity (mscale (N:=RN) (- / vdot w w * (- / vdot w w)) (mul_nn (mul_nn (hat w) (hat w)) (mul_nn (hat w) (hat w)))).
    - generalize (mul_nn (hat w) (hat w)) (- / vdot w w). intros m k. mext.
    - rewrite hat_four. generalize (mul_nn (hat w) (hat w)). intros m.
      transitivity (mscale (N:=RN) (- / vdot w w * (- / vdot w w) * (- vdot w w)) m); [generalize (- / vdot w w) (- vdot w w); intros; mext|].
      f_equal. revert Hw. generalize (vdot w w). intros d Hd. change (T RN) with R in *. field. exact Hd.
  Qed.
  Lemma q_across : forall w : vec, tiny < vdot w w -> mul_nn (qmatrix (N:=RN) sin cos dt w) (mul_nn (across w) (mtrans (qmatrix (N:=RN) sin cos dt w))) = mscale (N:=RN) (1 + excess dt w) (across w).
  Proof.
    intros w Hw. assert (Hd : vdot w w <> 0) by (pose proof tiny_pos; change (T RN) with R in *; lra).
    assert (EG : mul_nn (qmatrix (N:=RN) sin cos dt w) (mtrans (qmatrix (N:=RN) sin cos dt w)) = madd mone (mscale (N:=RN) (excess dt w) (across w))).
    { apply M3_ext. intros i j Hi Hj. rewrite <- nt_trans. destruct (q_excess dt w) as [G _]. rewrite G by auto. rewrite <- (across_ent w Hd) by auto. rewrite <- kron_one by auto.
      generalize (across w) (excess dt w). intros m k. ij i j Hi Hj; cbn; rring. }
    assert (EC : mul_nn (qmatrix (N:=RN) sin cos dt w) (across w) = mul_nn (across w) (qmatrix (N:=RN) sin cos dt w)).
    { rewrite (qmatrix_poly dt w Hw). unfold across, qpoly. generalize (sin (dt * vlen w) / vlen w) (- (1 - cos (dt * vlen w)) / vdot w w) (- / vdot w w). intros a b c. mext. }
    rewrite <- nn_assoc, EC, nn_assoc, EG. rewrite nn_madd, nn_one_r.
    transitivity (madd (across w) (mscale (N:=RN) (excess dt w) (mul_nn (across w) (across w)))); [generalize (across w) (excess dt w); intros; mext|].
    rewrite (across_idem w Hd). generalize (across w) (excess dt w). intros. mext.
  Qed.
  Definition grown (w : vec) (k : nat) (o : ten * ten) : Prop :=
    fst o = mone /\ det3 (ent (snd o)) = (1 + excess dt w) ^ k /\
    mul_nn (snd o) (mtrans (snd o)) = madd mone (mscale (N:=RN) ((1 + excess dt w) ^ k - 1) (across w)).
  Lemma grown_step : forall w k Q, grown w k (mone, Q) -> grown w (S k) (fst (rotation_step (N:=RN) sin cos dt (hat w) mone Q)).
  Proof.
    intros w k Q (_ & HD & HG). destruct (step_spin w Q) as [E _]. rewrite E. unfold grown. cbn [fst snd] in *. split; [reflexivity|]. split.
    - rewrite det_nn, HD. destruct (q_excess dt w) as [_ ->]. simpl. ring.
    - destruct (Rle_dec (vdot w w) tiny) as [Hs|Hs].
      + rewrite (qmatrix_small dt w Hs), nn_one_l, HG. assert (excess dt w = 0) as -> by (unfold excess; rewrite <- tiny_eq; destruct (Rle_dec _ _); [reflexivity|contradiction]).
        f_equal. f_equal. rewrite Rplus_0_r, !pow1. reflexivity.
      + apply Rnot_le_lt in Hs. rewrite trans_nn, nn_assoc, <- (nn_assoc Q), HG. pose proof (q_across w Hs) as HA.
        assert (Hd : vdot w w <> 0) by (pose proof tiny_pos; change (T RN) with R in *; lra).
        assert (EG : mul_nn (qmatrix (N:=RN) sin cos dt w) (mtrans (qmatrix (N:=RN) sin cos dt w)) = madd mone (mscale (N:=RN) (excess dt w) (across w))).
        { apply M3_ext. intros i j Hi Hj. rewrite <- nt_trans. destruct (q_excess dt w) as [G _]. rewrite G by auto. rewrite <- (across_ent w Hd) by auto. rewrite <- kron_one by auto.
          generalize (across w) (excess dt w). intros m e. ij i j Hi Hj; cbn; rring. }
        set (a := (1 + excess dt w) ^ k - 1).
        transitivity (madd (mul_nn (qmatrix (N:=RN) sin cos dt w) (mtrans (qmatrix (N:=RN) sin cos dt w)))
           (mscale (N:=RN) a (mul_nn (qmatrix (N:=RN) sin cos dt w) (mul_nn (across w) (mtrans (qmatrix (N:=RN) sin cos dt w)))))).
        { clearbody a. clear HA EG. generalize (qmatrix (N:=RN) sin cos dt w) (across w). intros q m.
          transitivity (mul_nn q (madd (mtrans q) (mscale (N:=RN) a (mul_nn m (mtrans q))))); [f_equal; mext|]. rewrite nn_madd. f_equal. generalize (mul_nn m (mtrans q)). intros. mext. }
        rewrite HA, EG. replace ((1 + excess dt w) ^ S k - 1) with (excess dt w + a * (1 + excess dt w)) by (unfold a; simpl; ring).
        clearbody a. generalize (across w) (excess dt w). intros. mext.
  Qed.

  Lemma spin_run : forall (w : vec) steps,
    (forall p X h nbs, neighbourhood x v hs nbrs p X h nbs -> det3 (shape omega h X nbs) <> 0) ->
    Forall (fun yv => corr_inputs n nbrs x (fst yv) v hs /\ exists A b u, det3 A <> 0 /\ affine_body A b x (fst yv) /\ spinning w u (fst yv) (snd yv)) steps ->
    forall k st, length st = length nbrs -> Forall (grown w k) st ->
    exists st', foldM one_step st steps = Ok st' /\ length st' = length nbrs /\ Forall (grown w (length steps + k)) st'.
  Proof.
    intros w steps HS. induction steps as [|[y vel] steps IH]; intros HF k st Hl H0.
    - exists st. auto.
    - apply Forall_cons_iff in HF as [(HI & A & b & u & HA & Hy & Hv) HF]. cbn [fst snd] in *.
      assert (Hvel : length vel = n).
      { destruct HI as ((Hx & Hy' & _) & _). rewrite <- Hy'. symmetry. clear -Hv. induction Hv; simpl; auto. }
      destruct (deformation_ok omega n nbrs x y v hs HI) as (code & geo & E & Lg & HG & HC).
      assert (code = 0%Z) as -> by (apply HC; exact HS).
      destruct (rates_ok omega dt n nbrs x y vel v hs geo HI Hvel Lg) as (c & Ls & L1 & L2 & L3 & L4).
      assert (AF : forall pts, affine_at A b x y pts).
      { intros pts p X Y _ EX EY. clear -Hy EX EY. revert p EX EY. induction Hy as [|X0 Y0 x y H0 Hy IHy]; intros [|p] EX EY; try discriminate; cbn in *; [injection EX as <-; injection EY as <-; auto|eauto]. }
      assert (AV : forall pts, affine_at (fun i j => prod (cross_of w) A i j) (vadd (vcross w b) u) x vel pts).
      { intros pts p X U _ EX EU. assert (exists Y, nth_error y p = Some Y /\ U = vadd (vcross w Y) u) as (Y & EY & ->).
        { clear -Hv EU. revert p EU. induction Hv as [|Y0 U0 y vel H0 Hv IHv]; intros [|p] EU; try discriminate; cbn in *; [injection EU as <-; eauto|eauto]. }
        pose proof (AF (p :: nil) p X Y (or_introl eq_refl) EX EY) as HYc.
        pose proof (HYc 0%nat ltac:(lia)) as H0'. pose proof (HYc 1%nat ltac:(lia)) as H1'. pose proof (HYc 2%nat ltac:(lia)) as H2'.
        intros i Hi. cbn [comp] in *. unfold image, prod, sum3 in *. destruct i as [|[|[|i]]]; [| | |exfalso; lia]; cbn [comp vx vy vz vadd vcross cross_of] in *; to_R; change (T RN) with R in *; rewrite ?H0', ?H1', ?H2'; ring. }
      assert (HF0 : forall p g, nth_error geo p = Some g -> snd g = of_mat A).
      { intros p g Hg. assert (p < length nbrs)%nat by (rewrite <- Lg; apply nth_error_Some; congruence).
        destruct (nth_error nbrs p) as [js|] eqn:Ejs; [|exfalso; apply nth_error_None in Ejs; lia].
        destruct (neighbourhood_ok _ _ _ _ _ _ _ _ HI Ejs) as (X & h & nbs & HN).
        destruct (geo_affine omega n nbrs x y v hs geo p js X h nbs A b HI HG Ejs HN (HS _ _ _ _ HN) (AF _)) as (g' & Eg' & EF & _). rewrite Hg in Eg'. injection Eg' as <-. exact EF. }
      assert (HA' : det3 (ent (of_mat A)) <> 0) by (rewrite (det_eq3 _ _ (of_mat_ent A)); exact HA).
      assert (c = 0%Z) as ->. { apply L3. intros p g Hg. rewrite (HF0 p g Hg). exact HA'. }
      assert (HL : forall p L, nth_error Ls p = Some L -> L = hat w).
      { intros p L HLp. assert (p < length nbrs)%nat by (rewrite <- L1; apply nth_error_Some; congruence).
        destruct (nth_error nbrs p) as [js|] eqn:Ejs; [|exfalso; apply nth_error_None in Ejs; lia].
        destruct (nth_error geo p) as [g|] eqn:Eg; [|exfalso; apply nth_error_None in Eg; lia].
        destruct (neighbourhood_ok _ _ _ _ _ _ _ _ HI Ejs) as (X & h & nbs & HN).
        pose proof (gradient_affine omega n nbrs x y vel v hs geo p js g X h nbs A _ b _ L HI Hvel HG Ejs Eg HN (HS _ _ _ _ HN) (AF _) (AV _) HA (L2 _ _ _ _ Ejs Eg HLp)) as HLA.
        rewrite spin_gradient in HLA. destruct (invert_regular _ HA') as (Ai & _ & B1 & _).
        apply (f_equal (fun m => mul_nn m Ai)) in HLA. rewrite !nn_assoc, B1, !nn_one_r in HLA. exact HLA. }
      destruct (IH HF (S k) (map fst (steps_of dt Ls st))) as (st' & E1 & E2 & E3).
      + rewrite map_length, steps_len; congruence.
      + rewrite Forall_forall in H0 |- *. intros o Ho. apply in_map_iff in Ho as (o1 & <- & Ho). apply In_nth_error in Ho as [p Hp].
        destruct (nth_steps _ _ _ _ _ Hp) as (L & V & Q & EL & E2 & ->). rewrite (HL p L EL).
        pose proof (H0 (V, Q) (nth_error_In _ _ E2)) as HV. pose proof HV as (EV & _). cbn [fst] in EV. subst V. apply grown_step. exact HV.
      + exists st'. split; [|split; [exact E2|]].
        * cbn [foldM]. unfold one_step at 1. cbn [fst snd]. rewrite E. cbn [bind Z.eqb negb]. rewrite (L4 st Hl). cbn [bind Z.eqb negb]. exact E1.
        * cbn [length]. replace (S (length steps) + k)%nat with (length steps + S k)%nat by lia. exact E3.
  Qed.
  Lemma history_foldM : forall steps st, rotation_history (N:=RN) omega sin cos dt x v hs nbrs steps st = foldM one_step st steps.
  Proof. reflexivity. Qed.
End History.
