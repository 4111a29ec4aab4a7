From Coq Require Import Reals Lra Lia.
From Verif Require Import Base Num ModelNeigh SpecDamage ModelForce ModelDiffusion ModelEnergy SpecForce SpecEnergy ProofData ProofDamage ProofFrame ProofForce ProofMaterial ProofCorr ProofEnergy ProofEnergy2 ProofEnergy3 ProofEnergy4.

Section Sign.
  Local Open Scope R_scope.
  Local Notation vec := (V3 RN).
  Lemma jsum_all_zero : forall F js k, (forall i j, nth_error js i = Some j -> 0 <= F (k + i)%nat j) -> jsum F k js = 0 ->
    forall i j, nth_error js i = Some j -> F (k + i)%nat j = 0.
  Proof.
    intros F. induction js as [|j js IH]; intros k H0 HS i j' Hi; [destruct i; discriminate|]. cbn [jsum] in HS.
    pose proof (H0 0%nat j eq_refl) as Z. rewrite Nat.add_0_r in Z.
    assert (H1 : forall i j, nth_error js i = Some j -> 0 <= F (S k + i)%nat j) by (intros q a Hq; specialize (H0 (S q) a Hq); now replace (S k + q)%nat with (k + S q)%nat by lia).
    pose proof (jsum_nonneg F js (S k) H1) as Z2.
    destruct i as [|i]; cbn [nth_error] in Hi.
    - injection Hi as <-. rewrite Nat.add_0_r. lra.
    - replace (k + S i)%nat with (S k + i)%nat by lia. apply (IH (S k) H1); [lra|exact Hi].
  Qed.
  Section Point.
    Variables (omega : R -> R -> R) (K MU h al : R) (deltaT : option (list R)) (x : list vec) (v m dmg : list R) (nbrs : list (list nat)) (n : nat).
    Hypothesis (Lv : length v = n) (Hj : Forall (Forall (fun j => (j < n)%nat)) nbrs) (Lm : length m = length nbrs) (Ld : length dmg = num_bonds nbrs).
    Lemma energy_nonneg : 0 <= K -> 0 <= MU -> (forall d, 0 <= omega d h) -> (forall a, In a v -> 0 <= a) -> (forall a, In a m -> 0 < a) -> (forall b, In b dmg -> b <= 1) ->
      forall y p k js, at_point nbrs p k js -> 0 <= energy_at omega K MU h al deltaT x v m dmg None y p k js.
    Proof.
      intros HK HMU Hw Hv Hm Hd y p k js Ha. unfold energy_at. set (th := th_sum omega h al deltaT x v m dmg y p k js).
      assert (Hp : (p < length m)%nat) by (destruct Ha as [H _]; rewrite Lm; apply nth_error_Some; congruence).
      assert (D : 0 <= dev_sum omega h al deltaT x v dmg y th p k js).
      { apply jsum_nonneg. intros i j Hi. destruct (bond_lt dmg nbrs n Hj Ld _ _ _ Ha _ _ Hi) as [B1 B2].
        pose proof (In_nth0 (fun b => b <= 1) dmg Hd _ B2) as X1. pose proof (In_nth0 (fun b => 0 <= b) v Hv j ltac:(lia)) as X2. cbv beta in X1, X2.
        apply Rmult_le_pos; [|exact X2]. rewrite Rmult_assoc. apply Rmult_le_pos; [|apply (Rle_0_sqr (ex al deltaT x y p j - th * ze x p j / 3))].
        apply Rmult_le_pos; [lra|]. apply Hw. }
      assert (A : 0 <= alpha_of MU m None p).
      { unfold alpha_of. pose proof (In_nth0 (fun b => 0 < b) m Hm _ Hp) as X. cbv beta in X. apply Rmult_le_pos; [lra|]. left. now apply Rinv_0_lt_compat. }
      pose proof (Rle_0_sqr th) as T2. unfold Rsqr in T2. pose proof (Rmult_le_pos _ _ HK T2). pose proof (Rmult_le_pos _ _ A D). lra.
    Qed.
    Lemma energy_zero : 0 < K -> 0 < MU -> (forall d, 0 < omega d h) -> (forall a, In a v -> 0 < a) -> (forall a, In a m -> 0 < a) -> (forall b, In b dmg -> b = 0 \/ b = 1) ->
      forall y p k js, at_point nbrs p k js ->
      (energy_at omega K MU h al None x v m dmg None y p k js = 0 <-> forall i j, nth_error js i = Some j -> nth (k + i) dmg 0 <> 1 -> ex al None x y p j = 0).
    Proof.
      intros HK HMU Hw Hv Hm Hd y p k js Ha. unfold energy_at. set (th := th_sum omega h al None x v m dmg y p k js).
      assert (Hp : (p < length m)%nat) by (destruct Ha as [H _]; rewrite Lm; apply nth_error_Some; congruence).
      pose proof (In_nth0 (fun b => 0 < b) m Hm _ Hp) as Mp. cbv beta in Mp.
      assert (A : 0 < alpha_of MU m None p). { unfold alpha_of. apply Rmult_lt_0_compat; [lra|]. now apply Rinv_0_lt_compat. }
      assert (BL : forall i j, nth_error js i = Some j -> (nth (k + i) dmg 0 = 0 \/ nth (k + i) dmg 0 = 1) /\ 0 < nth j v 0).
      { intros i j Hi. destruct (bond_lt dmg nbrs n Hj Ld _ _ _ Ha _ _ Hi) as [B1 B2]. split.
        - apply (In_nth0 (fun b => b = 0 \/ b = 1)); auto.
        - apply (In_nth0 (fun b => 0 < b)); auto. lia. }
      assert (DN : forall i j, nth_error js i = Some j -> 0 <= (1 - nth (k + i) dmg 0) * om omega h x p j * (ex al None x y p j - th * ze x p j / 3) * (ex al None x y p j - th * ze x p j / 3) * nth j v 0).
      { intros i j Hi. destruct (BL _ _ Hi) as [X1 X2]. apply Rmult_le_pos; [|lra]. rewrite Rmult_assoc. apply Rmult_le_pos; [|apply (Rle_0_sqr (ex al None x y p j - th * ze x p j / 3))].
        apply Rmult_le_pos; [destruct X1 as [->| ->]; lra|]. left. apply Hw. }
      split.
      - intros E.
        assert (D : 0 <= dev_sum omega h al None x v dmg y th p k js) by (apply jsum_nonneg; exact DN).
        pose proof (Rle_0_sqr th) as T2. unfold Rsqr in T2. pose proof (Rmult_le_pos _ _ (Rlt_le _ _ HK) T2) as Z1. pose proof (Rmult_le_pos _ _ (Rlt_le _ _ A) D) as Z2.
        assert (Z3 : K * (th * th) = 0) by lra. assert (Z4 : alpha_of MU m None p * dev_sum omega h al None x v dmg y th p k js = 0) by lra.
        apply Rmult_integral in Z3 as [Z3|Z3]; [lra|]. assert (th = 0) by (apply Rmult_integral in Z3; tauto).
        apply Rmult_integral in Z4 as [Z4|Z4]; [lra|].
        intros i j Hi Hb. pose proof (jsum_all_zero _ js k DN Z4 i j Hi) as Q. cbv beta in Q. destruct (BL _ _ Hi) as [[X1|X1] X2]; [|now elim Hb].
        rewrite X1 in Q. rewrite H in Q. pose proof (Hw (ze x p j)) as W0. unfold om in Q.
        assert (Q' : omega (ze x p j) h * nth j v 0 * (ex al None x y p j * ex al None x y p j) = 0) by (etransitivity; [|exact Q]; change (T RN) with R in *; field).
        apply Rmult_integral in Q' as [Q'|Q']; [|apply Rmult_integral in Q'; tauto].
        pose proof (Rmult_lt_0_compat _ _ W0 X2). lra.
      - intros HE.
        assert (T0 : th = 0).
        { unfold th, th_sum. apply jsum_zero. intros i j Hi. destruct (BL _ _ Hi) as [[X1|X1] X2].
          - rewrite (HE i j Hi) by (rewrite X1; lra). unfold Rdiv. ring.
          - rewrite X1. unfold Rdiv. ring. }
        assert (D0 : dev_sum omega h al None x v dmg y th p k js = 0).
        { apply jsum_zero. intros i j Hi. rewrite T0. destruct (BL _ _ Hi) as [[X1|X1] X2].
          - rewrite (HE i j Hi) by (rewrite X1; lra). field.
          - rewrite X1. ring. }
        rewrite D0, T0. ring.
    Qed.
  End Point.

  (** kinetic energy *)
  Lemma ke_rate : forall t rho v w a f, length rho = length a -> length v = length a -> (forall s, length (w s) = length a) -> moves w t a -> newton rho a f ->
    derivable_pt_lim (fun s => kinetic_energy rho v (w s)) t (power v f (w t)).
  Proof.
    intros t rho v w a f Lr Lv Lw [_ HM] HN.
    assert (G : forall a rho v f q, length rho = length a -> length v = length a -> newton rho a f -> (forall s, (q + length a = length (w s))%nat) ->
      (forall i c, nth_error a i = Some c -> derivable_pt_lim (fun s => vx (nth (q + i) (w s) (@vzero RN))) t (vx c) /\ derivable_pt_lim (fun s => vy (nth (q + i) (w s) (@vzero RN))) t (vy c) /\ derivable_pt_lim (fun s => vz (nth (q + i) (w s) (@vzero RN))) t (vz c)) ->
      derivable_pt_lim (fun s => kinetic_energy rho v (skipn q (w s))) t (power v f (skipn q (w t)))).
    { clear a rho v f Lr Lv Lw HM HN. induction a as [|c a IH]; intros rho v f q Lr Lv HN HL HD.
      - destruct rho; [|discriminate]. destruct v; [|discriminate]. inversion HN; subst. cbn [power].
        eapply (derivable_pt_lim_ext (fun _ => 0)); [|apply derivable_pt_lim_const]. intros s. destruct (skipn q (w s)); reflexivity.
      - destruct rho as [|r rho]; [discriminate|]. destruct v as [|b v]; [discriminate|]. inversion HN as [|ra b' l l' HF HN' E1 E2]; subst. cbn [fst snd] in *.
        assert (SK : forall s, skipn q (w s) = nth q (w s) vzero :: skipn (S q) (w s)).
        { intros s. specialize (HL s). cbn [length] in HL. generalize (w s) HL. clear. induction q as [|q IH]; intros [|u l] H; cbn [length] in *; try lia; [reflexivity|]. cbn [skipn nth]. apply IH. lia. }
        eapply (derivable_pt_lim_ext (fun s => 1 / 2 * r * b * vdot (nth q (w s) vzero) (nth q (w s) vzero) + kinetic_energy rho v (skipn (S q) (w s)))).
        { intros s. rewrite SK. reflexivity. }
        rewrite SK. cbn [power].
        destruct (HD 0%nat c eq_refl) as (D1 & D2 & D3). rewrite Nat.add_0_r in D1, D2, D3.
        apply (derivable_pt_lim_plus (fun s => 1 / 2 * r * b * vdot (nth q (w s) vzero) (nth q (w s) vzero)) (fun s => kinetic_energy rho v (skipn (S q) (w s)))).
        + eapply lim_eq'; [apply (derivable_pt_lim_scal (fun s => vdot (nth q (w s) vzero) (nth q (w s) (@vzero RN))));
            exact (derivable_pt_lim_plus _ _ _ _ _ (derivable_pt_lim_plus _ _ _ _ _ (derivable_pt_lim_mult _ _ _ _ _ D1 D1) (derivable_pt_lim_mult _ _ _ _ _ D2 D2)) (derivable_pt_lim_mult _ _ _ _ _ D3 D3))|].
          cbv beta. generalize (nth q (w t) (@vzero RN)). intros [u1 u2 u3]. destruct c as [c1 c2 c3]. unfold vdot, vscale. cbn [vx vy vz]. to_R. change (T RN) with R in *. field.
        + apply IH; auto.
          * intros s. rewrite <- (HL s). cbn. lia.
          * intros i c' Hi. replace (S q + i)%nat with (q + S i)%nat by lia. apply (HD (S i) c' Hi). }
    apply (G a rho v f 0%nat); auto.
  Qed.
End Sign.
