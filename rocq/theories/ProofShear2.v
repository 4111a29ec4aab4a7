From Coq Require Import Reals Lra Lia.
From Verif Require Import Base Num ModelNeigh SpecDamage ModelForce ModelDiffusion ModelEnergy ModelShear SpecForce SpecEnergy SpecShear ProofData ProofDamage ProofForce ProofMaterial ProofCorr ProofEnergy ProofEnergy2 ProofEnergy3 ProofEnergy4 ProofEnergy5 ProofShear.
Section Shear.
  Local Open Scope R_scope.
  Local Notation vec := (V3 RN).

  Lemma zeros : forall q k, nth k (repeat 0 q) 0 = 0.
  Proof. induction q; intros [|k]; cbn; auto. Qed.
  Lemma gamma_pos : 0 < lit (n:=RN) 1 1000000.
  Proof. change (0 < 1 / 1000000). lra. Qed.
  Lemma in_shears : forall S, In S shears <-> exists md, S = shape md.
  Proof.
    intros S. cbn. split.
    - intros [<-|[<-|[<-|[]]]]; [exists XY|exists ZX|exists YZ]; reflexivity.
    - intros [[| |] ->]; auto.
  Qed.

  (** factors of the material with and without inversion *)
  Lemma initialized : forall omega h n nbrs x y v m, cloud_ok (N:=RN) n nbrs x y v -> no_self nbrs ->
    dilatations (fun p _ js => weightedVolume (N:=RN) omega x v h p js) 0 0 nbrs = Ok m ->
    per_point (N:=RN) nbrs m /\
    shear_factors (N:=RN) omega h x v m nbrs y = Ok (pmap (factor_at omega h (lit (n:=RN) 1 1000000) x v m 0 (repeat 0 (num_bonds nbrs))) 0 0 nbrs).
  Proof.
    intros omega h n nbrs x y v m (Lx & Ly & Lv & Ln & Hj) HS E.
    destruct (intact_whole omega h n nbrs x v m ltac:(repeat split; auto) E) as [Lm _]. split; [exact Lm|].
    apply (points_closed omega h _ x v m nbrs n); auto. intros k. apply zeros.
  Qed.
  Lemma masses : forall omega h n nbrs x y v, cloud_ok (N:=RN) n nbrs x y v ->
    exists m, dilatations (fun p _ js => weightedVolume (N:=RN) omega x v h p js) 0 0 nbrs = Ok m.
  Proof.
    intros omega h n nbrs x y v (Lx & Ly & Lv & Ln & Hj).
    eexists. apply dil_pmap with (g := fun p k js => 0 + jsum (fun _ j => om omega h x p j * (ze x p j * ze x p j) * nth j v 0) 0 js).
    intros p k js Ha. unfold weightedVolume.
    assert (Hp : (p < n)%nat) by (destruct Ha as [H _]; assert ((p < length nbrs)%nat) by (apply nth_error_Some; congruence); lia).
    rewrite (at_nth vec vzero x p) by lia. cbn [bind]. apply foldM_sum. intros s j Hi.
    assert (Hjn : (j < n)%nat).
    { destruct Ha as [Ha _]. eapply Forall_forall in Hj; [|eapply nth_error_In; exact Ha]. eapply Forall_forall in Hj; eauto. }
    rewrite (at_nth (T RN) 0 v j), (at_nth vec vzero x j) by rlia. cbn [bind]. f_equal. cbv zeta.
    rewrite (dist_sqr (nth p x vzero) (nth j x vzero)). rewrite <- (vlen_dist (nth p x vzero) (nth j x vzero)). unfold om. fold (ze x p j).
    change (sqr_root (n:=RN) (Rsqr (ze x p j))) with (sqrt (Rsqr (ze x p j))). rewrite sqrt_Rsqr by (unfold ze; rewrite vlen_dist; apply dist_pos).
    reflexivity.
  Qed.

  Section Point.
    Variables (omega : R -> R -> R) (h : R) (n : nat) (nbrs : list (list nat)) (x : list vec) (v m : list R) (al : R) (p : nat) (js : list nat).
    Hypothesis (HC : cloud_ok (N:=RN) n nbrs x x v) (HS : no_self nbrs) (Hw : forall d, 0 < omega d h) (Hv : forall a, In a v -> 0 < a)
      (Hm : dilatations (fun p _ js => weightedVolume (N:=RN) omega x v h p js) 0 0 nbrs = Ok m) (Hp : nth_error nbrs p = Some js).
    Let g := lit (n:=RN) 1 1000000.
    Let dmg := repeat 0 (num_bonds nbrs).
    Let k := offset nbrs p.
    Let dv md := dev omega h g x v m al dmg md p k js.
    Let dm := dev_max omega h g x v m al dmg p k js.

    Lemma vol_pos : forall j, In j js -> 0 < nth j v 0.
    Proof.
      intros j Hi. destruct HC as (_ & _ & Lv & _ & Hj). apply Hv, nth_In.
      eapply Forall_forall in Hj; [|eapply nth_error_In; exact Hp]. eapply Forall_forall in Hj; [|exact Hi]. rlia.
    Qed.
    Lemma p_lt : (p < n)%nat.
    Proof. destruct HC as (_ & _ & _ & Ln & _). assert ((p < length nbrs)%nat) by (apply nth_error_Some; congruence). lia. Qed.
    Lemma j_lt : forall j, In j js -> (j < n)%nat.
    Proof. intros j Hi. destruct HC as (_ & _ & _ & _ & Hj). eapply Forall_forall in Hj; [|eapply nth_error_In; exact Hp]. eapply Forall_forall in Hj; eauto. Qed.
    Lemma dv_nonneg : forall md, 0 <= dv md.
    Proof.
      intros md. unfold dv, dev, dev_sum. apply jsum_nonneg. intros i j Hi. cbv beta. unfold dmg. rewrite zeros.
      pose proof (vol_pos j (nth_error_In _ _ Hi)) as V. pose proof (Hw (ze x p j)) as W. unfold om.
      set (e := ex _ _ _ _ _ _ - _). pose proof (Rle_0_sqr e) as E. unfold Rsqr in E.
      replace ((1 - 0) * omega (ze x p j) h * e * e * nth j v 0) with (omega (ze x p j) h * nth j v 0 * (e * e)) by ring.
      apply Rmult_le_pos; [|exact E]. apply Rmult_le_pos; lra.
    Qed.
    Lemma dv_pos : forall md, uneven x p js (shape md g (nth p x vzero)) -> 0 < dv md.
    Proof.
      intros md (i & j & Hi & Hj & U). destruct (dv_nonneg md) as [H|H]; [exact H|]. exfalso. apply U. clear U.
      unfold dv, dev, dev_sum in H. symmetry in H.
      assert (ED : forall j, In j js -> ex al None x (probed g x md p) p j = dil omega h g x v m al dmg md p k js * ze x p j / 3).
      { intros j' Hj'. apply In_nth_error in Hj' as [q Hq]. pose proof (vol_pos j' (nth_error_In _ _ Hq)) as V. pose proof (Hw (ze x p j')) as W.
        assert (F : (1 - nth (k + q) dmg 0) * om omega h x p j' * (ex al None x (probed g x md p) p j' - dil omega h g x v m al dmg md p k js * ze x p j' / 3) * (ex al None x (probed g x md p) p j' - dil omega h g x v m al dmg md p k js * ze x p j' / 3) * nth j' v 0 = 0).
        { refine (jsum_all_zero (fun k0 j => (1 - nth k0 dmg 0) * om omega h x p j * (ex al None x (probed g x md p) p j - dil omega h g x v m al dmg md p k js * ze x p j / 3) * (ex al None x (probed g x md p) p j - dil omega h g x v m al dmg md p k js * ze x p j / 3) * nth j v 0) js k _ H q j' Hq).
          intros i' j'' Hi'. cbv beta. unfold dmg. rewrite zeros.
          pose proof (vol_pos j'' (nth_error_In _ _ Hi')) as V'. pose proof (Hw (ze x p j'')) as W'. unfold om.
          set (e := ex _ _ _ _ _ _ - _). pose proof (Rle_0_sqr e) as E. unfold Rsqr in E.
          replace ((1 - 0) * omega (ze x p j'') h * e * e * nth j'' v 0) with (omega (ze x p j'') h * nth j'' v 0 * (e * e)) by ring.
          apply Rmult_le_pos; [|exact E]. apply Rmult_le_pos; lra. }
        unfold dmg in F. rewrite zeros in F. unfold om in F. set (e := ex _ _ _ _ _ _ - _) in F. assert (E0 : e = 0).
        { destruct (Req_dec e 0) as [|NE]; [assumption|]. exfalso.
          assert (0 < omega (ze x p j') h * nth j' v 0 * (e * e)); [|lra].
          apply Rmult_lt_0_compat; [apply Rmult_lt_0_compat; assumption|]. destruct (Rdichotomy _ _ NE); nra. }
        apply Rminus_diag_uniq. exact E0. }
      assert (LEN : forall j, In j js -> dist (shape md g (nth p x vzero) (nth p x vzero)) (shape md g (nth p x vzero) (nth j x vzero)) = ze x p j * (1 + dil omega h g x v m al dmg md p k js / 3)).
      { intros j' Hj'. specialize (ED j' Hj'). unfold ex, shift, dTat in ED.
        rewrite (probed_nth g x n (proj1 HC) md p j' (j_lt j' Hj')), (probed_nth g x n (proj1 HC) md p p p_lt), vlen_dist in ED. unfold k in *.
        transitivity (ze x p j' + dil omega h g x v m al dmg md p (offset nbrs p) js * ze x p j' / 3); [change (T RN) with R in *; lra|change (T RN) with R in *; field]. }
      rewrite (LEN i Hi), (LEN j Hj). rewrite <- !(vlen_dist (nth p x vzero)). fold (ze x p i) (ze x p j). change (T RN) with R in *. ring.
    Qed.
    Lemma mass_pos : forall S : vec -> vec, uneven x p js S -> 0 < nth p m 0.
    Proof.
      intros S (i & j & Hi & Hj & U).
      destruct (intact_whole omega h n nbrs x v m HC Hm) as [_ [_ I]]. specialize (I p js Hp). rewrite intact_closed in I.
      rewrite (nth_error_nth m p 0 I).
      assert (NN : forall i j, nth_error js i = Some j -> 0 <= (1 - nth (k + i) (repeat 0 (num_bonds nbrs)) 0) * om omega h x p j * (ze x p j * ze x p j) * nth j v 0).
      { intros i' j' Hi'. rewrite zeros. pose proof (vol_pos j' (nth_error_In _ _ Hi')) as V'. pose proof (Hw (ze x p j')) as W'. unfold om.
        replace ((1 - 0) * omega (ze x p j') h * (ze x p j' * ze x p j') * nth j' v 0) with (omega (ze x p j') h * nth j' v 0 * (ze x p j' * ze x p j')) by ring.
        apply Rmult_le_pos; [apply Rmult_le_pos; lra|]. apply (Rle_0_sqr (ze x p j')). }
      destruct (jsum_nonneg (fun k j => (1 - nth k (repeat 0 (num_bonds nbrs)) 0) * om omega h x p j * (ze x p j * ze x p j) * nth j v 0) js k NN) as [H|H]; [exact H|].
      exfalso. apply U. symmetry in H. pose proof (jsum_all_zero _ js k NN H) as A.
      assert (ZZ : forall j, In j js -> dist (nth p x vzero) (nth j x vzero) = 0).
      { intros j' Hj'. apply In_nth_error in Hj' as [q Hq]. specialize (A q j' Hq). cbv beta in A. rewrite zeros in A.
        pose proof (vol_pos j' (nth_error_In _ _ Hq)) as V'. pose proof (Hw (ze x p j')) as W'. unfold om in A.
        rewrite <- vlen_dist. fold (ze x p j'). set (z := ze x p j') in *.
        destruct (Req_dec z 0) as [|NE]; [assumption|]. exfalso.
        assert (0 < omega z h * nth j' v 0 * (z * z)); [|lra].
        apply Rmult_lt_0_compat; [apply Rmult_lt_0_compat; assumption|]. destruct (Rdichotomy _ _ NE); nra. }
      rewrite (ZZ i Hi), (ZZ j Hj). ring.
    Qed.
    Lemma dv_max : (exists md, dv md = dm) /\ forall md, dv md <= dm.
    Proof.
      unfold dm, dev_max. fold (dv XY) (dv ZX) (dv YZ). split.
      - unfold Rmax. destruct (Rle_dec (dv XY) (dv ZX)); [destruct (Rle_dec (dv ZX) (dv YZ))|destruct (Rle_dec (dv XY) (dv YZ))]; eauto.
      - pose proof (Rmax_l (dv XY) (dv ZX)). pose proof (Rmax_r (dv XY) (dv ZX)).
        pose proof (Rmax_l (Rmax (dv XY) (dv ZX)) (dv YZ)). pose proof (Rmax_r (Rmax (dv XY) (dv ZX)) (dv YZ)). intros [| |]; lra.
    Qed.
    Lemma dm_pos : (exists S, In S shears /\ uneven x p js (S g (nth p x vzero))) -> 0 < dm.
    Proof. intros (S & HI & U). apply in_shears in HI as [md ->]. pose proof (dv_pos md U). pose proof (proj2 dv_max md). lra. Qed.

    (** energy of the probes for any factors *)
    Variables (K MU : R) (pr scf : list R).
    Hypothesis (Lp : per_point (N:=RN) nbrs pr) (Ls : per_point (N:=RN) nbrs scf).
    Lemma probe_energy : forall md, exists f W th,
      multiphysics_evaluation (N:=RN) omega K MU h al None x (map (shape md g (nth p x vzero)) x) pr v m scf dmg nbrs = Ok (f, W, th) /\
      nth p W 0 = 1 / 2 * K * Rsqr (nth p th 0) + 1 / 2 * (15 * MU / nth p m 0 * nth p scf 0) * dv md.
    Proof.
      intros md. destruct (intact_whole omega h n nbrs x v m HC Hm) as [Lm _]. destruct HC as (Lx & _ & Lv & Ln & Hj).
      destruct (multi_closed omega K MU h al None n nbrs x (map (shape md g (nth p x vzero)) x) pr v m scf dmg) as (f & out & _ & E); auto.
      { repeat split; auto. now rewrite map_length. }
      { exact (repeat_length _ _). }
      { exact I. }
      exists f. eexists _, _. split; [exact E|].
      assert (Ha : at_point nbrs p k js) by (split; auto).
      rewrite (nth_error_nth _ p 0 (pmap_nth R _ nbrs p k js Ha)). rewrite (nth_error_nth _ p 0 (pmap_nth R _ nbrs p k js Ha)).
      unfold energy_at, alpha_of, Rsqr. unfold dv, dev, dil, probed. change (T RN) with R in *. ring.
    Qed.
  End Point.
End Shear.
