From Coq Require Import Reals Lra Lia.
From Verif Require Import Base Num ModelNeigh SpecDamage ModelForce SpecForce ProofData ProofDamage ProofForce ProofKernels.
Local Open Scope R_scope.
Local Notation vec := (V3 RN).

Ltac split_bind H := repeat match type of H with
    | bind (at_ub ?l ?i) _ = Ok _ => let a := fresh "a" in let E := fresh "E" in apply bind_Ok in H as [a [E H]]; try cbn beta in H
    | bind (opt_at ?l ?i) _ = Ok _ => let a := fresh "a" in let E := fresh "E" in apply bind_Ok in H as [a [E H]]; try cbn beta in H
    | bind (td_norm2 _ _ _ _ _ _ _ _ _ _ _ _) _ = Ok _ => let a := fresh "a" in let E := fresh "E" in apply bind_Ok in H as [a [E H]]; try cbn beta in H
    end.

Definition iso (L : vec -> vec) : Prop := linear L /\ forall a, vlen (L a) = vlen a.

(** bonds satisfying B have relative positions mapped by L *)
Definition related (B : nat -> Prop) (L : vec -> vec) (nbrs : list (list nat)) (y y' : list vec) : Prop :=
  length y = length y' /\
  forall p k j Y YP Y' YP', bond_at nbrs p k j -> B k ->
    at_ub y p = Ok Y -> at_ub y j = Ok YP -> at_ub y' p = Ok Y' -> at_ub y' j = Ok YP' -> vsub YP' Y' = L (vsub YP Y).

Lemma at_ub_same_len : forall A B (l : list A) (l' : list B) i a, length l = length l' -> at_ub l i = Ok a -> exists b, at_ub l' i = Ok b.
Proof.
  intros A B l l' i a H E. apply at_ub_Ok in E. apply at_ub_lt. rewrite <- H. apply nth_error_Some. congruence.
Qed.

Lemma linear_0 : forall L : vec -> vec, linear L -> L vzero = vzero.
Proof.
  intros L (_ & _ & H). replace (@vzero RN) with (vmulr (N:=RN) (@vzero RN) 0) at 1 by (apply v3_ext; cbn; to_R; ring).
  rewrite H. apply v3_ext; cbn; to_R; ring.
Qed.
Lemma L_along : forall L : vec -> vec, linear L -> forall t d len, L (along (N:=RN) t d len) = along (N:=RN) t (L d) len.
Proof. intros L (_ & _ & H) t d len. now rewrite !along_mulr, H. Qed.

Section Frame.
  Variables (B : nat -> Prop) (L : vec -> vec) (nbrs : list (list nat)) (dmg : list R) (y y' : list vec).
  Hypothesis HL : iso L.
  Hypothesis HR : related B L nbrs y y'.
  Hypothesis HB : forall k, nth_error dmg k <> Some 1 -> B k.

  Lemma intact : forall k b, at_ub dmg k = Ok b -> b <> 1 -> B k.
  Proof. intros k b E H. apply HB. apply at_ub_Ok in E. intros C. apply H. rewrite E in C. injection C as C. exact C. Qed.

  Lemma rel : forall p k j Y YP Y' YP', bond_at nbrs p k j -> B k ->
    at_ub y p = Ok Y -> at_ub y j = Ok YP -> at_ub y' p = Ok Y' -> at_ub y' j = Ok YP' ->
    vsub YP' Y' = L (vsub YP Y) /\ vlen (vsub YP' Y') = vlen (vsub YP Y).
  Proof. intros p k j Y YP Y' YP' Hb HBk E1 E2 E3 E4. rewrite (proj2 HR p k j Y YP Y' YP') by auto. split; auto. apply (proj2 HL). Qed.

  (** dilatation *)
  Lemma dil_sum_eq : forall omega h al dT x v nbV X Y Y' m p js, nth_error nbrs p = Some js -> at_ub y p = Ok Y -> at_ub y' p = Ok Y' ->
    forall post pre_js, js = pre_js ++ post -> forall acc t,
    dilatation_sum (N:=RN) omega h al dT x y v dmg nbV X Y m (offset nbrs p + length pre_js) post acc = Ok t ->
    dilatation_sum (N:=RN) omega h al dT x y' v dmg nbV X Y' m (offset nbrs p + length pre_js) post acc = Ok t.
  Proof.
    intros omega h al dT x v nbV X Y Y' m p js Hp EY EY'. induction post as [|j post IH]; intros pre_js E acc t H; cbn [dilatation_sum Nat.add] in H |- *; auto.
    assert (Hb : bond_at nbrs p (offset nbrs p + length pre_js) j).
    { exists js, (length pre_js). subst js. rewrite nth_app_here. auto. }
    apply bind_Ok in H as [vj [Ev H]]. apply bind_Ok in H as [XP [EX H]]. apply bind_Ok in H as [YP [EYP H]]. apply bind_Ok in H as [b [Eb H]].
    destruct (at_ub_same_len _ _ y y' _ _ (proj1 HR) EYP) as [YP' EYP'].
    rewrite Ev. cbn [bind]. rewrite EX. cbn [bind]. rewrite EYP'. cbn [bind]. rewrite Eb. cbn [bind].
    assert (ED : dilatation_bond (N:=RN) omega h al dT X XP Y' YP' b vj m = dilatation_bond (N:=RN) omega h al dT X XP Y YP b vj m).
    { destruct (Req_EM_T b 1) as [->|Hne].
      - unfold dilatation_bond. to_R. unfold Rdiv. ring.
      - unfold dilatation_bond. now rewrite (proj2 (rel _ _ _ _ _ _ _ Hb (intact _ _ Eb Hne) EY EYP EY' EYP')). }
    rewrite ED. specialize (IH (pre_js ++ [j])). rewrite app_length in IH. simpl in IH.
    replace (offset nbrs p + (length pre_js + 1))%nat with (S (offset nbrs p + length pre_js)) in IH by lia.
    apply IH; [subst; now rewrite <- app_assoc|exact H].
  Qed.
  Lemma dil_eq : forall omega h al deltaT x v nbV m p js t, nth_error nbrs p = Some js ->
    dilatation (N:=RN) omega h al deltaT x y v dmg nbV m p (offset nbrs p) js = Ok t ->
    dilatation (N:=RN) omega h al deltaT x y' v dmg nbV m p (offset nbrs p) js = Ok t.
  Proof.
    intros omega h al deltaT x v nbV m p js t Hp H. unfold dilatation in *.
    apply bind_Ok in H as [X [EX H]]. apply bind_Ok in H as [Y [EY H]]. apply bind_Ok in H as [mp [Em H]]. apply bind_Ok in H as [dT [ET H]].
    destruct (at_ub_same_len _ _ y y' _ _ (proj1 HR) EY) as [Y' EY'].
    rewrite EX. cbn [bind]. rewrite EY'. cbn [bind]. rewrite Em. cbn [bind]. rewrite ET. cbn [bind].
    pose proof (dil_sum_eq omega h al dT x v nbV X Y Y' mp p js Hp EY EY' js [] eq_refl 0 t) as Q. simpl in Q.
    rewrite Nat.add_0_r in Q. exact (Q H).
  Qed.
  Lemma dilatations_eq : forall omega h al deltaT x v nbV m th,
    dilatations (dilatation (N:=RN) omega h al deltaT x y v dmg nbV m) 0 0 nbrs = Ok th ->
    dilatations (dilatation (N:=RN) omega h al deltaT x y' v dmg nbV m) 0 0 nbrs = Ok th.
  Proof.
    intros omega h al deltaT x v nbV m.
    assert (G : forall todo done, nbrs = done ++ todo -> forall th,
      dilatations (dilatation (N:=RN) omega h al deltaT x y v dmg nbV m) (length done) (num_bonds done) todo = Ok th ->
      dilatations (dilatation (N:=RN) omega h al deltaT x y' v dmg nbV m) (length done) (num_bonds done) todo = Ok th).
    { induction todo as [|js todo IH]; intros done E th H; simpl in *; auto.
      apply bind_Ok in H as [t [Et H]]. apply bind_Ok in H as [r [Er H]].
      assert (Hp : nth_error nbrs (length done) = Some js) by (rewrite E; apply nth_app_here).
      assert (Ho : offset nbrs (length done) = num_bonds done) by (rewrite E; apply offset_app).
      rewrite <- Ho in Et. rewrite <- Ho. rewrite (dil_eq _ _ _ _ _ _ _ _ _ _ _ Hp Et). cbn [bind]. rewrite Ho.
      specialize (IH (done ++ [js])). rewrite app_length in IH. simpl in IH. rewrite Nat.add_1_r, num_bonds_app in IH.
      replace (num_bonds done + num_bonds [js])%nat with (length js + num_bonds done)%nat in IH by (unfold num_bonds; simpl; lia).
      rewrite (IH) with (th := r); [exact H| |exact Er]. subst; now rewrite <- app_assoc. }
    exact (G nbrs [] eq_refl).
  Qed.

  (** linear peridynamic solid *)
  Definition lpsRD (p : nat) (d1 d2 : vec * vec * R * R * option R) : Prop :=
    let '(X, Y, mp, th, dT) := d1 in
    exists Y', d2 = (X, Y', mp, th, dT) /\ at_ub y p = Ok Y /\ at_ub y' p = Ok Y'.
  Lemma lps_matching : forall omega K MU h al dT x v m theta part,
    matching (lps (N:=RN) omega K MU h al dT x y v m theta dmg part) (lps (N:=RN) omega K MU h al dT x y' v m theta dmg part)
      L lpsRD (fun _ _ _ => True) nbrs.
  Proof.
    intros omega K MU h al dT x v m theta part. split; [|split].
    - intros p js d1 Hp H. cbn [pre bond vols lps bond_based visco elastic_plastic hardening fst snd] in H. split_bind H. injection H as <-.
      destruct (at_ub_same_len _ _ y y' _ _ (proj1 HR) E0) as [Y' EY'].
      exists (a, Y', a1, a2, a3). split; [|exists Y'; auto]. cbn [pre bond vols lps bond_based visco elastic_plastic hardening fst snd]. rewrite E. cbn [bind]. rewrite EY'. cbn [bind]. rewrite E1. cbn [bind]. rewrite E2. cbn [bind]. rewrite E3. reflexivity.
    - intros p k j [[[[X Y] mp] th] t] d2 fb s Hb (Y' & -> & EY & EY') H. cbn [pre bond vols lps bond_based visco elastic_plastic hardening fst snd] in H. split_bind H. injection H as <- <-.
      destruct (at_ub_same_len _ _ y y' _ _ (proj1 HR) E0) as [YP' EYP']. exists tt. split; auto.
      cbn [pre bond vols lps bond_based visco elastic_plastic hardening fst snd]. rewrite E. cbn [bind]. rewrite EYP'. cbn [bind]. rewrite E1. cbn [bind]. f_equal. f_equal.
      destruct (Req_EM_T a1 1) as [->|Hne].
      + rewrite !along_0 by (unfold lps_t; to_R; ring). symmetry. apply linear_0, HL.
      + destruct (rel _ _ _ _ _ _ _ Hb (intact _ _ E1 Hne) EY E0 EY' EYP') as [R1 R2].
        rewrite L_along by apply HL. rewrite R2, R1. reflexivity.
    - auto.
  Qed.

  (** bond-based solid *)
  Definition bbRD (p : nat) (d1 d2 : vec * vec) : Prop :=
    fst d1 = fst d2 /\ at_ub y p = Ok (snd d1) /\ at_ub y' p = Ok (snd d2).
  Lemma bb_matching : forall K h pl ht x v,
    matching (bond_based (N:=RN) K h pl ht x y v dmg) (bond_based (N:=RN) K h pl ht x y' v dmg) L bbRD (fun _ _ _ => True) nbrs.
  Proof.
    intros K h pl ht x v. split; [|split].
    - intros p js d1 Hp H. cbn [pre bond vols lps bond_based visco elastic_plastic hardening fst snd] in H. split_bind H. injection H as <-.
      destruct (at_ub_same_len _ _ y y' _ _ (proj1 HR) E0) as [Y' EY'].
      exists (a, Y'). split; [|unfold bbRD; auto]. cbn [pre bond vols lps bond_based visco elastic_plastic hardening fst snd]. rewrite E. cbn [bind]. rewrite EY'. reflexivity.
    - intros p k j [X Y] [X2 Y'] fb s Hb (EXX & EY & EY') H. cbn [fst] in EXX. subst X2. cbn [pre bond vols lps bond_based visco elastic_plastic hardening fst snd] in *. split_bind H. injection H as <- <-.
      destruct (at_ub_same_len _ _ y y' _ _ (proj1 HR) E0) as [YP' EYP']. exists tt. split; auto.
      rewrite E. cbn [bind]. rewrite EYP'. cbn [bind]. rewrite E1. cbn [bind]. f_equal. f_equal.
      destruct (Req_EM_T a1 1) as [->|Hne].
      + rewrite !along_0 by (unfold bb_t; to_R; ring). symmetry. apply linear_0, HL.
      + destruct (rel _ _ _ _ _ _ _ Hb (intact _ _ E1 Hne) EY E0 EY' EYP') as [R1 R2].
        rewrite L_along by apply HL. rewrite R2, R1. reflexivity.
    - auto.
  Qed.

  (** viscoelastic solid; the old configuration may move by another map *)
  Section Visco.
    Variables (L0 : vec -> vec) (yN yN' : list vec).
    Hypothesis HL0 : iso L0.
    Hypothesis HR0 : related B L0 nbrs yN yN'.
    Definition vRD (p : nat) (d1 d2 : vec * vec * vec * R * R * R) : Prop :=
      let '(X, YN, Y, mp, t0, t1) := d1 in
      exists YN' Y', d2 = (X, YN', Y', mp, t0, t1) /\ at_ub y p = Ok Y /\ at_ub y' p = Ok Y' /\ at_ub yN p = Ok YN /\ at_ub yN' p = Ok YN'.
    Lemma visco_matching : forall ex K MU lam tau dt x v m t0 t1 edb,
      matching (visco (N:=RN) ex K MU lam tau dt x yN y v m t0 t1 dmg edb) (visco (N:=RN) ex K MU lam tau dt x yN' y' v m t0 t1 dmg edb)
        L vRD (fun k s1 s2 => B k -> s1 = s2) nbrs.
    Proof.
      intros ex K MU lam tau dt x v m t0 t1 edb. split; [|split].
      - intros p js d1 Hp H. cbn [pre bond vols lps bond_based visco elastic_plastic hardening fst snd] in H. split_bind H. injection H as <-.
        destruct (at_ub_same_len _ _ y y' _ _ (proj1 HR) E1) as [Y' EY'].
        destruct (at_ub_same_len _ _ yN yN' _ _ (proj1 HR0) E0) as [YN' EYN'].
        exists (a, YN', Y', a2, a3, a4). split; [|exists YN', Y'; auto]. cbn [pre bond vols lps bond_based visco elastic_plastic hardening fst snd]. rewrite E. cbn [bind]. rewrite EYN'. cbn [bind]. rewrite EY'. cbn [bind].
        rewrite E2. cbn [bind]. rewrite E3. cbn [bind]. rewrite E4. reflexivity.
      - intros p k j [[[[[X YN] Y] mp] u0] u1] d2 fb s Hb (YN' & Y' & -> & EY & EY' & EYN & EYN') H. cbn [pre bond vols lps bond_based visco elastic_plastic hardening fst snd] in H. split_bind H.
        injection H as <- <-.
        destruct (at_ub_same_len _ _ y y' _ _ (proj1 HR) E1) as [YP' EYP'].
        destruct (at_ub_same_len _ _ yN yN' _ _ (proj1 HR0) E0) as [YPN' EYPN'].
        assert (G : B k -> vsub YP' Y' = L (vsub a1 Y) /\ vlen (vsub YP' Y') = vlen (vsub a1 Y) /\ vlen (vsub YPN' YN') = vlen (vsub a0 YN)).
        { intros Bk. destruct (rel _ _ _ _ _ _ _ Hb Bk EY E1 EY' EYP') as [R1 R2]. repeat split; auto.
          rewrite (proj2 HR0 p k j YN a0 YN' YPN' Hb Bk EYN E0 EYN' EYPN'). apply (proj2 HL0). }
        cbn [pre bond vols lps bond_based visco elastic_plastic hardening fst snd]. rewrite E. cbn [bind]. rewrite EYPN'. cbn [bind]. rewrite EYP'. cbn [bind]. rewrite E2. cbn [bind]. rewrite E3. cbn [bind].
        destruct (Req_EM_T a2 1) as [->|Hne].
        + eexists. split.
          * f_equal. f_equal. rewrite !along_0 by (to_R; ring). symmetry. apply linear_0, HL.
          * intros Bk. destruct (G Bk) as (R1 & R2 & R3). rewrite R2, R3. reflexivity.
        + destruct (G (intact _ _ E2 Hne)) as (R1 & R2 & R3).
          eexists. split.
          * f_equal. f_equal. rewrite L_along by apply HL. rewrite <- R1.
            rewrite R2, R3. reflexivity.
          * intros _. rewrite R2, R3. reflexivity.
      - auto.
    Qed.
  End Visco.

  (** plastic solids *)
  Definition ppRD (p : nat) (d1 d2 : @plastic_pre RN) : Prop :=
    exists Y', d2 = PP (pp_X d1) Y' (pp_m d1) (pp_theta d1) (pp_alpha d1) (pp_yield d1) (pp_norm d1) (pp_dlambda d1) (pp_lambda d1) (pp_elastic d1)
      /\ at_ub y p = Ok (pp_Y d1) /\ at_ub y' p = Ok Y'.

  Lemma ed_of_eq : forall th X XP Y YP Y' YP', vlen (vsub YP' Y') = vlen (vsub YP Y) ->
    ed_of (N:=RN) th X XP Y' YP' = ed_of (N:=RN) th X XP Y YP.
  Proof. intros. unfold ed_of. now rewrite H. Qed.

  Lemma norm_eq : forall x v edp al th X Y Y' p js, nth_error nbrs p = Some js -> at_ub y p = Ok Y -> at_ub y' p = Ok Y' ->
    forall post pre_js, js = pre_js ++ post -> forall acc t,
    td_norm2 (N:=RN) x y v dmg edp al th X Y (offset nbrs p + length pre_js) post acc = Ok t ->
    td_norm2 (N:=RN) x y' v dmg edp al th X Y' (offset nbrs p + length pre_js) post acc = Ok t.
  Proof.
    intros x v edp al th X Y Y' p js Hp EY EY'. induction post as [|j post IH]; intros pre_js E acc t H; cbn [td_norm2 Nat.add] in H |- *; auto.
    assert (Hb : bond_at nbrs p (offset nbrs p + length pre_js) j).
    { exists js, (length pre_js). subst js. rewrite nth_app_here. auto. }
    apply bind_Ok in H as [vj [Ev H]]. apply bind_Ok in H as [XP [EX H]]. apply bind_Ok in H as [YP [EYP H]]. apply bind_Ok in H as [b [Eb H]].
    apply bind_Ok in H as [ep [Ee H]].
    destruct (at_ub_same_len _ _ y y' _ _ (proj1 HR) EYP) as [YP' EYP'].
    rewrite Ev. cbn [bind]. rewrite EX. cbn [bind]. rewrite EYP'. cbn [bind]. rewrite Eb. cbn [bind]. rewrite Ee. cbn [bind].
    assert (ED : (1 - b) * al * 1 * (ed_of (N:=RN) th X XP Y' YP' - ep) = (1 - b) * al * 1 * (ed_of (N:=RN) th X XP Y YP - ep)).
    { destruct (Req_EM_T b 1) as [->|Hne]; [ring|].
      now rewrite (ed_of_eq th X XP Y YP Y' YP' (proj2 (rel _ _ _ _ _ _ _ Hb (intact _ _ Eb Hne) EY EYP EY' EYP'))). }
    specialize (IH (pre_js ++ [j])). rewrite app_length in IH. simpl in IH.
    replace (offset nbrs p + (length pre_js + 1))%nat with (S (offset nbrs p + length pre_js)) in IH by lia.
    apply IH; [subst; now rewrite <- app_assoc|]. to_R. rewrite <- H. f_equal. now rewrite ED.
  Qed.

  Lemma plastic_bond_eq : forall rm K x edp d1 d2 p k j fb s,
    (forall Y', forall t, rm (PP (pp_X d1) Y' (pp_m d1) (pp_theta d1) (pp_alpha d1) (pp_yield d1) (pp_norm d1) (pp_dlambda d1) (pp_lambda d1) (pp_elastic d1)) t = rm d1 t) ->
    bond_at nbrs p k j -> ppRD p d1 d2 -> plastic_bond (N:=RN) rm K x y dmg edp d1 p k j = Ok (fb, s) ->
    exists s2, plastic_bond (N:=RN) rm K x y' dmg edp d2 p k j = Ok (L fb, s2) /\ (B k -> s = s2).
  Proof.
    intros rm K x edp d1 d2 p k j fb s Hrm Hb (Y' & -> & EY & EY') H. unfold plastic_bond in *. split_bind H. injection H as <- <-.
    destruct (at_ub_same_len _ _ y y' _ _ (proj1 HR) E0) as [YP' EYP'].
    rewrite E. cbn [bind]. rewrite EYP'. cbn [bind]. rewrite E1. cbn [bind]. rewrite E2. cbn [bind].
    cbn [pp_X pp_Y pp_m pp_theta pp_alpha pp_yield pp_norm pp_dlambda pp_lambda pp_elastic].
    assert (G : B k -> vsub YP' Y' = L (vsub a0 (pp_Y d1)) /\ vlen (vsub YP' Y') = vlen (vsub a0 (pp_Y d1))).
    { intros Bk. exact (rel _ _ _ _ _ _ _ Hb Bk EY E0 EY' EYP'). }
    eexists. split; [f_equal; f_equal|].
    - destruct (Req_EM_T a1 1) as [->|Hne].
      + rewrite !along_0 by (to_R; ring). symmetry. apply linear_0, HL.
      + destruct (G (intact _ _ E1 Hne)) as [R1 R2]. rewrite L_along by apply HL. rewrite (ed_of_eq _ _ _ _ _ _ _ R2), R2, R1, Hrm. reflexivity.
    - intros Bk. destruct (G Bk) as [R1 R2]. rewrite (ed_of_eq _ _ _ _ _ _ _ R2), Hrm. reflexivity.
  Qed.

  Lemma ep_matching : forall K MU sigma h pl x v m theta edp lam,
    matching (elastic_plastic (N:=RN) K MU sigma h pl x y v m theta dmg edp lam) (elastic_plastic (N:=RN) K MU sigma h pl x y' v m theta dmg edp lam)
      L ppRD (fun k s1 s2 => B k -> s1 = s2) nbrs.
  Proof.
    intros K MU sigma h pl x v m theta edp lam. split; [|split].
    - intros p js d1 Hp H. cbn [pre bond vols lps bond_based visco elastic_plastic hardening fst snd] in *. unfold ep_pre in *. split_bind H.
      destruct (at_ub_same_len _ _ y y' _ _ (proj1 HR) E0) as [Y' EY'].
      rewrite E. cbn [bind]. rewrite EY'. cbn [bind]. rewrite E1. cbn [bind]. rewrite E2. cbn [bind]. rewrite E3. cbn [bind].
      pose proof (fun al acc => norm_eq x v edp al a2 a a0 Y' p js Hp E0 EY' js [] eq_refl acc a4) as Q. cbn [length] in Q. rewrite Nat.add_0_r in Q.
      rewrite (Q _ _ E4). cbn [bind].
      match type of H with (if ?b then _ else _) = _ => destruct b end; injection H as <-; (eexists; split; [reflexivity|]); exists Y'; auto.
    - intros p k j d1 d2 fb s Hb HD H. eapply plastic_bond_eq; eauto.
    - auto.
  Qed.
  Lemma hard_matching : forall up K MU Hm sigma h x v m theta scf edp lam,
    matching (hardening (N:=RN) up K MU Hm sigma h x y v m theta dmg scf edp lam) (hardening (N:=RN) up K MU Hm sigma h x y' v m theta dmg scf edp lam)
      L ppRD (fun k s1 s2 => B k -> s1 = s2) nbrs.
  Proof.
    intros up K MU Hm sigma h x v m theta scf edp lam. split; [|split].
    - intros p js d1 Hp H. cbn [pre bond vols lps bond_based visco elastic_plastic hardening fst snd] in *. unfold hard_pre in *. split_bind H.
      destruct (at_ub_same_len _ _ y y' _ _ (proj1 HR) E0) as [Y' EY'].
      rewrite E. cbn [bind]. rewrite EY'. cbn [bind]. rewrite E1. cbn [bind]. rewrite E2. cbn [bind]. rewrite E3. cbn [bind]. rewrite E4. cbn [bind].
      pose proof (fun al acc => norm_eq x v edp al a2 a a0 Y' p js Hp E0 EY' js [] eq_refl acc a5) as Q. cbn [length] in Q. rewrite Nat.add_0_r in Q.
      rewrite (Q _ _ E5). cbn [bind]. cbv zeta in *.
      match type of H with (if ?b then _ else _) = _ => destruct b end; injection H as <-; (eexists; split; [reflexivity|]); exists Y'; auto.
    - intros p k j d1 d2 fb s Hb HD H. eapply plastic_bond_eq; eauto.
    - auto.
  Qed.
End Frame.
