(** * Forces of the correspondence materials *)
From Coq Require Import Reals Lra Lia.
From Verif Require Import Base Num ModelNeigh SpecDamage ModelForce ModelCorr SpecCorr ProofData ProofDamage ProofForce ProofKernels ProofFrame ProofMaterial ProofCorr ProofCorr2 ProofCorr3.
From Verif Require Import SpecForce.
Local Open Scope R_scope.
Local Notation vec := (V3 RN).
Local Notation ten := (M3 RN).

(** ** bonds without force leave everything alone *)
Lemma upd_same : forall A (l : list A) i a l', nth_error l i = Some a -> upd l i a = Some l' -> l' = l.
Proof.
  induction l; intros i b l' H U; [destruct i; discriminate|]. destruct i; simpl in *.
  - injection H as ->. now injection U as <-.
  - destruct (upd l i b) eqn:E; [|discriminate]. injection U as <-. f_equal. eauto.
Qed.
Lemma add_zero_at : forall (f f' : list vec) i k, add_at f i (vmulr vzero k) = Ok f' -> f' = f.
Proof.
  intros f f' i k H. unfold add_at in H. apply bind_Ok in H as [a [H1 H2]]. apply at_ub_Ok in H1.
  replace (vadd a (vmulr vzero k)) with a in H2 by (destruct a; apply v3_ext; cbn; rring).
  unfold upd_ub in H2. destruct (upd f i a) eqn:E; [|discriminate]. injection H2 as <-. eapply upd_same; eauto.
Qed.
Lemma sub_zero_at : forall (f f' : list vec) i k, sub_at f i (vmulr vzero k) = Ok f' -> f' = f.
Proof.
  intros f f' i k H. unfold sub_at in H. apply bind_Ok in H as [a [H1 H2]]. apply at_ub_Ok in H1.
  replace (vsub a (vmulr vzero k)) with a in H2 by (destruct a; apply v3_ext; cbn; rring).
  unfold upd_ub in H2. destruct (upd f i a) eqn:E; [|discriminate]. injection H2 as <-. eapply upd_same; eauto.
Qed.
Lemma run_idle : forall D S (K : kernel RN D S) nbrs f f' out,
  (forall p k j js d fb s, nth_error nbrs p = Some js -> pre _ _ K p (offset nbrs p) js = Ok d -> bond_at nbrs p k j ->
     bond _ _ K d p k j = Ok (fb, s) -> fb = vzero) ->
  run_kernel K nbrs f = Ok (f', out) -> f' = f.
Proof.
  intros D S K nbrs f f' out H0 H. apply (run_inv K nbrs (fun h => h = f)) in H; auto.
  intros h h2 p k j d fb s vn vs (js & f1 & Q1 & Q2 & Q3 & Q4 & Q5 & E1 & E2) ->.
  rewrite (H0 p k j js d fb s Q1 Q2 Q3 Q4) in E1, E2. apply add_zero_at in E1. subst. now apply sub_zero_at in E2.
Qed.
Lemma bond_at_js : forall nbrs p k j js, bond_at nbrs p k j -> nth_error nbrs p = Some js -> In j js.
Proof. intros nbrs p k j js (js' & n & H1 & H2 & _) H. rewrite H in H1. injection H1 as <-. eapply nth_error_In; eauto. Qed.

Lemma hourglass_idle : forall bulk coef n nbrs (x y : list vec) (v hs : list R) geo, corr_inputs n nbrs x y v hs -> length geo = length nbrs ->
  (forall p js, nth_error nbrs p = Some js -> exists A b g, affine_at A b x y (p :: js) /\ nth_error geo p = Some g /\ snd g = of_mat A) ->
  exists out, run_kernel (hourglass (N:=RN) bulk coef x y v hs geo) nbrs (repeat vzero n) = Ok (repeat vzero n, out).
Proof.
  intros bulk coef n nbrs x y v hs geo HI Hg HA.
  pose proof (hourglass_total RN bulk coef n nbrs x y v hs geo HI Hg) as HT. rewrite <- (repeat_length (@vzero RN) n) in HT at 1.
  destruct (run_total _ nbrs (repeat vzero n) HT) as (f' & out & E & _). exists out. rewrite E. f_equal. f_equal.
  eapply run_idle; [|exact E]. intros p k j js d fb s Hp Hd Hb H. destruct (HA p js Hp) as (A & b & [g1 g2] & HF & Eg & EF). cbn [snd] in EF. subst g2.
  cbn [pre hourglass] in Hd. split_bind Hd. injection Hd as <-. cbn [bond hourglass] in H. split_bind H. apply Ok_pair in H as [-> _].
  apply at_ub_Ok in E1. rewrite Eg in E1. injection E1 as <-. cbn [snd].
  apply at_ub_Ok in E2, E3, E4, E5.
  pose proof (affine_bond A b x y (p :: js) p j _ _ _ _ HF (or_introl eq_refl) (or_intror (bond_at_js _ _ _ _ _ Hb Hp)) E2 E3 E4 E5) as EB.
  match goal with |- context [vdot ?h ?d] => assert (EZ : vdot h d = 0) end.
  { match goal with |- vdot (vsub ?e ?q) ?d = 0 => assert (EE : vsub e q = vzero) end.
    { revert EB. destruct a2 as [y0 y1 y2], a4 as [q0 q1 q2]. intros EB. unfold vsub at 1 in EB. unfold mapply in EB. injection EB as B0 B1 B2. revert B0 B1 B2.
      destruct a3 as [d0 d1 d2], a1 as [e0 e1 e2]. unfold of_mat. cbn. to_R. intros B0 B1 B2. apply v3_ext; cbn; to_R; change (T RN) with R in *; nra. }
    rewrite EE. unfold vdot. cbn. rring. }
  rewrite EZ. generalize (vlen (vsub a3 a1)) (vlen (vsub a4 a2)). intros l1 l2. generalize (vsub a4 a2). intros [e0 e1 e2].
  apply v3_ext; cbn; to_R; unfold Rdiv; rring.
Qed.
Lemma hourglass_parallel : forall bulk coef nbrs (x y : list vec) (v hs : list R) geo,
  parallel_on (hourglass (N:=RN) bulk coef x y v hs geo) nbrs y.
Proof.
  intros bulk coef nbrs x y v hs geo p k j js d fb s Hp Hd Hb H. cbn [pre hourglass] in Hd. split_bind Hd. injection Hd as <-.
  cbn [bond hourglass] in H. split_bind H. apply Ok_pair in H as [-> _].
  rewrite (nth_at_ub _ _ _ _ vzero E4), (nth_at_ub _ _ _ _ vzero E2).
  generalize (vsub a3 a1). intros [d0 d1 d2]. 
  match goal with |- context [v3 (mul ?m _) _ _] => generalize m; intros mm end. apply v3_ext; cbn; rring.
Qed.

(** ** conservation summed over the bonds of a point *)
Section Delta.
  Context {D S : Type} (K : kernel RN D S) (g : nat -> vec -> R).
  Fixpoint bond_delta (d : D) (p k : nat) (js : list nat) : R :=
    match js with
    | [] => 0
    | j :: js' =>
      match bond _ _ K d p k j, vols _ _ K p k j with
      | Ok (fb, _), Ok (vn, vs) => g p (vmulr fb vn) - g j (vmulr fb vs) + bond_delta d p (1 + k) js'
      | _, _ => 0
      end
    end.
  Hypothesis Ha : forall i, additive (g i).
  Lemma bond_loop_delta : forall d p js k f f' ss, bond_loop K d p k js f = Ok (f', ss) -> gsum g 0 f' = gsum g 0 f + bond_delta d p k js.
  Proof.
    intros d p. induction js as [|j js IH]; intros k f f' ss H; simpl in H |- *.
    - injection H as <- _. ring.
    - apply bind_Ok in H as [[fb s] [Eb H]]. apply bind_Ok in H as [[vn vs] [Ev H]].
      apply bind_Ok in H as [f1 [E1 H]]. apply bind_Ok in H as [f2 [E2 H]].
      apply bind_Ok in H as [[f3 ss'] [E3 H]]. injection H as <- _.
      rewrite Eb, Ev, (IH _ _ _ _ E3), (gsum_sub g _ _ _ _ (Ha j) E2), (gsum_add g _ _ _ _ (Ha p) E1). ring.
  Qed.
  Lemma point_loop_delta : forall nbrs, (forall p js d, nth_error nbrs p = Some js -> pre _ _ K p (offset nbrs p) js = Ok d -> bond_delta d p (offset nbrs p) js = 0) ->
    forall todo done, nbrs = done ++ todo -> forall f f' out, point_loop K (length done) (num_bonds done) todo f = Ok (f', out) -> gsum g 0 f' = gsum g 0 f.
  Proof.
    intros nbrs HZ. induction todo as [|js todo IH]; intros done E f f' out H; simpl in H.
    - injection H as <- _. auto.
    - apply bind_Ok in H as [d [Ed H]]. apply bind_Ok in H as [[f1 ss] [E1 H]]. apply bind_Ok in H as [[f2 r] [E2 H]].
      injection H as <- _.
      assert (Hp : nth_error nbrs (length done) = Some js) by (rewrite E; apply nth_app_here).
      assert (Ho : offset nbrs (length done) = num_bonds done) by (rewrite E; apply offset_app).
      rewrite <- Ho in Ed, E1. transitivity (gsum g 0 f1).
      + eapply (IH (done ++ [js])); [subst; now rewrite <- app_assoc|].
        rewrite app_length. simpl. rewrite Nat.add_1_r, num_bonds_app.
        replace (num_bonds done + num_bonds [js])%nat with (length js + num_bonds done)%nat by (unfold num_bonds; simpl; lia). eauto.
      + rewrite (bond_loop_delta _ _ _ _ _ _ _ E1), (HZ _ _ _ Hp Ed). ring.
  Qed.
  Lemma run_delta : forall nbrs, (forall p js d, nth_error nbrs p = Some js -> pre _ _ K p (offset nbrs p) js = Ok d -> bond_delta d p (offset nbrs p) js = 0) ->
    forall f f' out, run_kernel K nbrs f = Ok (f', out) -> gsum g 0 f' = gsum g 0 f.
  Proof. intros nbrs HZ f f' out. exact (point_loop_delta nbrs HZ nbrs [] eq_refl f f' out). Qed.
End Delta.

(** ** moment of the correspondence force *)
Lemma Ok_eq : forall A (a b : A), Ok a = Ok b -> a = b.
Proof. intros A a b H. now injection H. Qed.
Definition axial (a : ten) : vec := v3 (N:=RN) (m5 a - m7 a) (m6 a - m2 a) (m1 a - m3_ a).
Lemma axial_sym : forall a : ten, mtrans a = a -> axial a = vzero.
Proof.
  intros [a0 a1 a2 a3 a4 a5 a6 a7 a8] H. injection H as H1 H2 H3 H4 H5 H6. unfold axial. cbn. apply v3_ext; cbn; to_R; change (T RN) with R in *; lra.
Qed.

Section Pr.
  Variable pr : vec -> R.
  Hypothesis P1 : forall a b, pr (vadd a b) = pr a + pr b.
  Hypothesis P2 : forall a b, pr (vsub a b) = pr a - pr b.
  Hypothesis P3 : forall k a, pr (vscale (N:=RN) k a) = k * pr a.

  Lemma corr_delta : forall (omega : R -> R -> R) (x y : list vec) (v hs : list R) geo stress dmg p X Y h (B : ten) vp,
    nth_error v p = Some vp -> nth p y vzero = Y ->
    forall js k accK accF K F1,
    foldM (fun acc j =>
        let? vj := at_ub v j in let? XP := at_ub x j in let? YP := at_ub y j in
        let dX := vsub XP X in let dY := vsub YP Y in
        let temp := mul (n:=RN) (mul (n:=RN) (sub (ofZ 1) (ofZ 0)) (omega (vlen dX) h)) vj in
        Ok (madd (fst acc) (outer temp dX dX), madd (snd acc) (outer temp dY dX))) (accK, accF) js = Ok (K, F1) ->
    bond_delta (corr_force (N:=RN) omega x v hs geo stress dmg) (fun i a => nth i v 0 * pr (vcross (nth i y vzero) a)) (X, h, B) p k js =
    - vp * pr (axial (mul_nt F1 B)) + vp * pr (axial (mul_nt accF B)).
  Proof.
    intros omega x y v hs geo stress dmg p X Y h B vp Hv HY. induction js as [|j js IH]; intros k accK accF K F1 H; cbn [foldM] in H.
    - injection H as _ <-. cbn. ring.
    - apply bind_Ok in H as [s [E H]]. apply bind_Ok in E as [vj [E1 E]]. apply bind_Ok in E as [XP [E2 E]]. apply bind_Ok in E as [YP [E3 E]].
      apply Ok_eq in E. cbv zeta in E. subst s. cbn [bond_delta bond vols corr_force]. rewrite E2. cbn [bind]. rewrite (E1 : at_ub (A:=T RN) v j = Ok vj). cbn [bind].
      unfold cell_volumes. rewrite (E1 : at_ub (A:=T RN) v j = Ok vj), (at_of _ v p vp Hv : at_ub (A:=T RN) v p = Ok vp). cbn [bind].
      change (S k) with (1 + k)%nat. rewrite (IH (1 + k)%nat _ _ _ _ H). cbn [snd].
      pose proof (nth_error_nth v p 0 Hv) as N1. pose proof (nth_error_nth v j 0 (proj1 (at_ub_Ok _ _ _) E1)) as N2.
      change (nth p v 0) with (nth (A:=R) p v 0). rewrite N1, N2, HY, (nth_at_ub _ _ _ _ vzero E3).
      generalize (pr (axial (mul_nt F1 B))); intros total.
      set (w := omega (vlen (vsub XP X)) h). destruct (vsub XP X) as [d0 d1 d2]. 
      match goal with |- context [vcross Y (vmulr ?t _)] => set (tt := t) end.
      replace (vp * pr (vcross Y (vmulr tt vj)) - vj * pr (vcross YP (vmulr tt vp))) with (- vp * pr (vscale (N:=RN) vj (vcross (vsub YP Y) tt))).
      2:{ rewrite P3. replace (vcross Y (vmulr (N:=RN) tt vj)) with (vscale (N:=RN) vj (vcross Y tt)) by (destruct Y, tt; apply v3_ext; cbn; rring).
          replace (vcross YP (vmulr (N:=RN) tt vp)) with (vscale (N:=RN) vp (vcross YP tt)) by (destruct YP, tt; apply v3_ext; cbn; rring).
          replace (vcross (vsub YP Y) tt) with (vsub (vcross YP tt) (vcross Y tt)) by (destruct YP, Y, tt; apply v3_ext; cbn; rring).
          rewrite !P3, P2. ring. }
      replace (axial (mul_nt (madd accF (outer (N:=RN) (mul (n:=RN) (mul (n:=RN) (sub (ofZ 1) (ofZ 0)) w) vj) (vsub YP Y) (v3 (N:=RN) d0 d1 d2))) B))
        with (vadd (axial (mul_nt accF B)) (vscale (N:=RN) vj (vcross (vsub YP Y) tt))).
      2:{ unfold tt. destruct (vsub YP Y) as [e0 e1 e2], B, accF. apply v3_ext; cbn; rring. }
      rewrite P1. ring.
  Qed.
End Pr.

(** inverse and transposes *)
Lemma shape_sums_sym : forall (omega : R -> R -> R) h X nbs (K : ten), eq3 (ent K) (shape omega h X nbs) -> mtrans K = K.
Proof.
  intros omega h X nbs K H. apply symmetric_iff. intros i j Hi Hj. unfold transp. rewrite !H by auto. unfold shape. apply sum_over_ext. intros; ring.
Qed.
Lemma inv_sym : forall K Ki : ten, mtrans K = K -> mul_nn K Ki = mone -> mul_nn Ki K = mone -> mtrans Ki = Ki.
Proof.
  intros K Ki HS H1 H2. symmetry. apply (nn_inv_unique K); [exact H1|]. rewrite <- HS at 1. rewrite <- trans_nn. rewrite H1. mext.
Qed.

(** what the force loop multiplies the bonds with *)
Lemma piola_ok : forall F s P : ten, piola (N:=RN) F s = Ok P -> det3 (ent F) <> 0 /\ mul_nt P F = mscale (N:=RN) (det3 (ent F)) s /\ piola_of (ent F) (ent s) (ent P).
Proof.
  intros F s P H. unfold piola in H. pose proof (invert_code F) as HC. destruct (Reqb (det3 (ent F)) 0) eqn:ER.
  - apply Reqb_true in ER. rewrite (invert_singular F ER) in H. discriminate.
  - apply Reqb_false in ER. destruct (invert_regular F ER) as (G & EI & H1 & H2). rewrite EI in H. cbn [Z.eqb] in H. injection H as <-.
    assert (EQ : mul_nt (matmul (N:=RN) false true (det3 (ent F)) s G) F = mscale (N:=RN) (det3 (ent F)) s).
    { generalize (det3 (ent F)). intros J.
      assert (EJ : matmul (N:=RN) false true J s G = mscale (N:=RN) J (mul_nn s (mtrans G))).
      { apply M3_ext. intros i j Hi Hj. rewrite matmul_ent by auto. ij i j Hi Hj; unfold sum3; cbn; rring. }
      rewrite EJ, nt_trans.
      replace (mul_nn (mscale (N:=RN) J (mul_nn s (mtrans G))) (mtrans F)) with (mscale (N:=RN) J (mul_nn s (mul_nn (mtrans G) (mtrans F)))) by mext.
      rewrite <- trans_nn, H1. replace (mtrans mone) with (@mone RN) by mext. now rewrite nn_one_r. }
    split; [exact ER|]. split; [exact EQ|]. intros i j Hi Hj.
    revert EQ. generalize (matmul (N:=RN) false true (det3 (ent F)) s G). intros P EQ.
    revert EQ. generalize (det3 (ent F)). intros J EQ.
    transitivity (ent (mul_nt P F) i j); [|rewrite EQ]; unfold sum3; clear EQ; ij i j Hi Hj; cbn; rring.
Qed.
Lemma corr_balance : forall F1 F K Ki s P J : ten, mtrans K = K -> mul_nn K Ki = mone -> mul_nn Ki K = mone -> F = mul_nn F1 Ki ->
  mul_nt P F = J -> mtrans J = J -> mtrans (mul_nt F1 (mul_nn P Ki)) = mul_nt F1 (mul_nn P Ki).
Proof.
  intros F1 F K Ki s P J HK H1 H2 HF HJ HS.
  assert (E : mul_nt F1 (mul_nn P Ki) = J).
  { rewrite nt_trans, trans_nn, (inv_sym K Ki HK H1 H2), <- nn_assoc, <- HF. rewrite <- HS, <- HJ, nt_trans, trans_nn, trans_trans. reflexivity. }
  now rewrite E.
Qed.

Lemma corr_force_total : forall omega n nbrs (x y : list vec) (v hs : list R) geo stress dmg, corr_inputs n nbrs x y v hs -> length geo = length nbrs -> length stress = length nbrs ->
  (forall p g, nth_error geo p = Some g -> det3 (ent (snd g)) <> 0) -> total_on (corr_force (N:=RN) omega x v hs geo stress dmg) nbrs n.
Proof.
  intros omega n nbrs x y v hs geo stress dmg (HC & Hh) Hg Hs HD. unfold per_point in Hh. change (T RN) with R in *. pose proof HC as (C1 & C2 & C3 & C4 & C5). split.
  - intros p js Hp. assert (p < length nbrs)%nat by (apply nth_error_Some; congruence). cbn [pre corr_force].
    destruct (nth_error hs p) as [h|] eqn:EH; [|exfalso; apply nth_error_None in EH; change (T RN) with R in *; lia].
    destruct (nth_error geo p) as [[g1 g2]|] eqn:EG; [|exfalso; apply nth_error_None in EG; lia].
    destruct (nth_error stress p) as [s|] eqn:ES; [|exfalso; apply nth_error_None in ES; lia].
    destruct (nth_error x p) as [X|] eqn:EX; [|exfalso; apply nth_error_None in EX; lia].
    rewrite (at_of _ hs p h EH : at_ub (A:=T RN) hs p = Ok h), (at_of _ _ _ _ EG), (at_of _ _ _ _ ES), (at_of _ _ _ _ EX). cbn [bind fst snd].
    pose proof (HD p (g1, g2) EG) as ND. cbn [snd] in ND. destruct (invert_regular g2 ND) as (Fi & EI & _). unfold piola. rewrite EI. cbn [Z.eqb bind]. eauto.
  - intros p js d k j Hp Hd Hb. destruct (cell_volumes_ok n nbrs x y v p k j HC Hb) as [r Er].
    pose proof (bond_at_bound _ _ _ _ Hb) as [B1 B2]. pose proof (bond_at_In _ _ _ _ (fun j => (j < n)%nat) Hb C5) as Q. cbv beta in Q.
    split; [|split; [exists r; exact Er|lia]]. destruct d as [[X h] M]. cbn [bond corr_force].
    destruct (nth_error x j) as [XP|] eqn:EX; [|exfalso; apply nth_error_None in EX; lia].
    destruct (nth_error v j) as [vj|] eqn:EV; [|exfalso; apply nth_error_None in EV; change (T RN) with R in *; lia].
    rewrite (at_of _ _ _ _ EX). cbn [bind]. rewrite (at_of _ v j vj EV : at_ub (A:=T RN) v j = Ok vj). cbn [bind]. eauto.
Qed.
