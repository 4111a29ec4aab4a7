From Coq Require Import Reals Lra Lia.
From Verif Require Import Base Num ModelNeigh SpecDamage ModelForce ModelDiffusion ModelEnergy SpecForce SpecEnergy ProofData ProofDamage ProofFrame ProofForce ProofMaterial ProofCorr ProofEnergy ProofEnergy2.

Section LPS.
  Local Open Scope R_scope.
  Local Notation vec := (V3 RN).
  Variables (omega : R -> R -> R) (K MU h al : R) (deltaT : option (list R)) (x : list vec) (v m dmg : list R) (nbrs : list (list nat)) (n : nat).
  Hypothesis (Lx : length x = n) (Lv : length v = n) (Ln : (length nbrs <= n)%nat) (Hj : Forall (Forall (fun j => (j < n)%nat)) nbrs)
    (Lm : length m = length nbrs) (Ld : length dmg = num_bonds nbrs) (LT : opt_ok (per_point (N:=RN) nbrs) deltaT).
  Let ths y := pmap (th_sum omega h al deltaT x v m dmg y) 0 0 nbrs.
  Let ten scf P y := tension omega K MU h al deltaT x v m dmg nbrs scf P y.

  Lemma at_point_nth : forall p, (p < length nbrs)%nat -> at_point nbrs p (offset nbrs p) (nth p nbrs []).
  Proof. intros p H. split; [now apply nth_error_nth'|reflexivity]. Qed.

  Lemma lps_force : forall y, length y = n -> forall p k j js d fb s, nth_error nbrs p = Some js ->
    pre _ _ (lps (N:=RN) omega K MU h al deltaT x y v m (ths y) dmg None) p (offset nbrs p) js = Ok d -> bond_at nbrs p k j ->
    bond _ _ (lps (N:=RN) omega K MU h al deltaT x y v m (ths y) dmg None) d p k j = Ok (fb, s) ->
    fb = along (N:=RN) (ten None (fun _ => 0) y p k j) (vsub (nth j y vzero) (nth p y vzero)) (vlen (vsub (nth j y vzero) (nth p y vzero))).
  Proof.
    intros y Ly p k j js d fb s Hp Hd Hb H.
    assert (Ha : at_point nbrs p (offset nbrs p) js) by (split; auto).
    assert (Hpl : (p < length nbrs)%nat) by (apply nth_error_Some; congruence).
    pose proof (bond_at_bound _ _ _ _ Hb) as [_ Hk]. pose proof (bond_at_In _ _ _ _ _ Hb Hj) as Hjn. cbv beta in Hjn.
    cbn [pre lps] in Hd.
    rewrite (at_nth _ (@vzero RN) x p), (at_nth _ (@vzero RN) y p), (at_nth (T RN) 0 m p) in Hd by rlia. cbn [bind] in Hd.
    unfold ths in Hd. pose proof (th_nth omega h al deltaT x v m dmg nbrs y _ _ _ Ha) as Eth.
    apply bind_Ok in Hd as (q & E1 & Hd). pose proof (eq_trans (eq_sym E1) Eth) as E2; injection E2 as E2; subst q; clear E1.
    rewrite (opt_dT deltaT nbrs LT _ _ _ Ha) in Hd. cbn [bind] in Hd. injection Hd as <-.
    cbn [bond lps] in H. rewrite (at_nth _ (@vzero RN) x j), (at_nth _ (@vzero RN) y j), (at_nth (T RN) 0 dmg k) in H by rlia. cbn [bind] in H.
    cbv zeta in H. apply Ok_pair in H as [-> _]. f_equal. unfold ten, tension, lps_t. cbv zeta. rewrite thermal_shift.
    rewrite (nth_error_nth nbrs p [] Hp). fold (ze x p j). unfold om, ex, alpha_of. fold (ze x p j). rrd.
  Qed.
  Lemma lps_run : forall y, length y = n -> exists f out, run_kernel (lps (N:=RN) omega K MU h al deltaT x y v m (ths y) dmg None) nbrs (repeat vzero n) = Ok (f, out).
  Proof.
    intros y Ly.
    destruct (run_total (lps (N:=RN) omega K MU h al deltaT x y v m (ths y) dmg None) nbrs (repeat vzero n)) as (f & out & H & _); [|eauto].
    rewrite repeat_length.
    assert (Lth : length (ths y) = length nbrs) by apply pmap_len.
    split.
    - intros p js Hp. assert (Hpl : (p < length nbrs)%nat) by (apply nth_error_Some; congruence). cbn [pre lps].
      rewrite (at_nth _ (@vzero RN) x p), (at_nth _ (@vzero RN) y p), (at_nth (T RN) 0 m p), (at_nth (T RN) 0 (ths y) p) by rlia. cbn [bind].
      rewrite (opt_dT deltaT nbrs LT p (offset nbrs p) js) by (split; auto). cbn [bind]. eauto.
    - intros p js d k j Hp Hd Hb. assert (Hpl : (p < length nbrs)%nat) by (apply nth_error_Some; congruence).
      pose proof (bond_at_bound _ _ _ _ Hb) as [_ Hk]. pose proof (bond_at_In _ _ _ _ _ Hb Hj) as Hjn. cbv beta in Hjn.
      destruct d as [[[[X Y] mp] th] dT]. cbn [bond lps vols].
      rewrite (at_nth _ (@vzero RN) x j), (at_nth _ (@vzero RN) y j), (at_nth (T RN) 0 dmg k) by rlia. cbn [bind].
      unfold bond_volumes, cell_volumes. rewrite (at_nth (T RN) 0 v j), (at_nth (T RN) 0 v p) by rlia. cbn [bind].
      repeat split; eauto; lia.
  Qed.

  Lemma coupled_force : forall scf pr y, length scf = length nbrs -> length pr = length nbrs -> length y = n -> forall p k j js d fb s, nth_error nbrs p = Some js ->
    pre _ _ (coupled (N:=RN) omega K MU h al deltaT x y pr v m (ths y) scf dmg) p (offset nbrs p) js = Ok d -> bond_at nbrs p k j ->
    bond _ _ (coupled (N:=RN) omega K MU h al deltaT x y pr v m (ths y) scf dmg) d p k j = Ok (fb, s) ->
    fb = along (N:=RN) (ten (Some scf) (fun p => nth p pr 0) y p k j) (vsub (nth j y vzero) (nth p y vzero)) (vlen (vsub (nth j y vzero) (nth p y vzero))).
  Proof.
    intros scf pr y Ls Lp Ly p k j js d fb s Hp Hd Hb H.
    assert (Ha : at_point nbrs p (offset nbrs p) js) by (split; auto).
    assert (Hpl : (p < length nbrs)%nat) by (apply nth_error_Some; congruence).
    pose proof (bond_at_bound _ _ _ _ Hb) as [_ Hk]. pose proof (bond_at_In _ _ _ _ _ Hb Hj) as Hjn. cbv beta in Hjn.
    cbn [pre coupled] in Hd.
    rewrite (at_nth _ (@vzero RN) x p), (at_nth _ (@vzero RN) y p), (at_nth (T RN) 0 m p), (at_nth (T RN) 0 scf p), (at_nth (T RN) 0 pr p) in Hd by rlia. cbn [bind] in Hd.
    unfold ths in Hd. pose proof (th_nth omega h al deltaT x v m dmg nbrs y _ _ _ Ha) as Eth.
    apply bind_Ok in Hd as (q & E1 & Hd). pose proof (eq_trans (eq_sym E1) Eth) as E2; injection E2 as E2; subst q; clear E1.
    rewrite (opt_dT deltaT nbrs LT _ _ _ Ha) in Hd. cbn [bind] in Hd. injection Hd as <-.
    cbn [bond coupled] in H. rewrite (at_nth _ (@vzero RN) x j), (at_nth _ (@vzero RN) y j), (at_nth (T RN) 0 dmg k) in H by rlia. cbn [bind] in H.
    cbv zeta in H. apply Ok_pair in H as [-> _]. f_equal. unfold ten, tension, coupled_t. cbv zeta. rewrite thermal_shift.
    rewrite (nth_error_nth nbrs p [] Hp). fold (ze x p j). unfold om, ex, alpha_of. fold (ze x p j). rrd.
  Qed.
  Lemma coupled_run : forall scf pr y, length scf = length nbrs -> length pr = length nbrs -> length y = n ->
    exists f out, run_kernel (coupled (N:=RN) omega K MU h al deltaT x y pr v m (ths y) scf dmg) nbrs (repeat vzero n) = Ok (f, out).
  Proof.
    intros scf pr y Ls Lp Ly.
    destruct (run_total (coupled (N:=RN) omega K MU h al deltaT x y pr v m (ths y) scf dmg) nbrs (repeat vzero n)) as (f & out & H & _); [|eauto].
    rewrite repeat_length.
    assert (Lth : length (ths y) = length nbrs) by apply pmap_len.
    split.
    - intros p js Hp. assert (Hpl : (p < length nbrs)%nat) by (apply nth_error_Some; congruence). cbn [pre coupled].
      rewrite (at_nth _ (@vzero RN) x p), (at_nth _ (@vzero RN) y p), (at_nth (T RN) 0 m p), (at_nth (T RN) 0 (ths y) p), (at_nth (T RN) 0 scf p), (at_nth (T RN) 0 pr p) by rlia. cbn [bind].
      rewrite (opt_dT deltaT nbrs LT p (offset nbrs p) js) by (split; auto). cbn [bind]. eauto.
    - intros p js d k j Hp Hd Hb. assert (Hpl : (p < length nbrs)%nat) by (apply nth_error_Some; congruence).
      pose proof (bond_at_bound _ _ _ _ Hb) as [_ Hk]. pose proof (bond_at_In _ _ _ _ _ Hb Hj) as Hjn. cbv beta in Hjn.
      destruct d as [[[X Y] [[[mp th] sc] P]] dT]. cbn [bond coupled vols].
      rewrite (at_nth _ (@vzero RN) x j), (at_nth _ (@vzero RN) y j), (at_nth (T RN) 0 dmg k) by rlia. cbn [bind].
      unfold cell_volumes. rewrite (at_nth (T RN) 0 v j), (at_nth (T RN) 0 v p) by rlia. cbn [bind].
      repeat split; eauto; lia.
  Qed.

  (** energies and potentials *)
  Definition md_sum (p k : nat) (js : list nat) : R := jsum (fun k j => (1 - nth k dmg 0) * om omega h x p j * (ze x p j * ze x p j) * nth j v 0) k js.
  Lemma intact_closed : forall p js k, intact_volume omega h x v dmg p k js = md_sum p k js.
  Proof.
    intros p. induction js as [|j js IH]; intros k; cbn [intact_volume]; [reflexivity|]. cbv zeta. rewrite IH. unfold md_sum. cbn [jsum].
    rewrite <- (vlen_dist (nth p x vzero) (nth j x vzero)). fold (ze x p j). unfold om, Rsqr. rring.
  Qed.
  Lemma energy_potential : forall scf P y p k js, at_point nbrs p k js -> nth p m 0 <> 0 ->
    (forall i, (i < length dmg)%nat -> nth i dmg 0 = 0 \/ nth i dmg 0 = 1) ->
    potential omega K MU h al deltaT x v m dmg scf P y p k js =
    energy_at omega K MU h al deltaT x v m dmg scf y p k js - P p * th_sum omega h al deltaT x v m dmg y p k js
    + alpha_of MU m scf p * (th_sum omega h al deltaT x v m dmg y p k js * th_sum omega h al deltaT x v m dmg y p k js) * (nth p m 0 - md_sum p k js) / 18.
  Proof.
    intros scf P y p k js Ha Mp HD. unfold potential, energy_at. set (th := th_sum omega h al deltaT x v m dmg y p k js). set (A := alpha_of MU m scf p).
    assert (E : dev_sum omega h al deltaT x v dmg y th p k js =
       jsum (fun k j => (1 - nth k dmg 0) * (1 - nth k dmg 0) * om omega h x p j * nth j v 0 * (ex al deltaT x y p j * ex al deltaT x y p j)) k js
       - 2 / 9 * nth p m 0 * (th * th) + th * th / 9 * md_sum p k js).
    { assert (Eth : jsum (fun k j => 3 * om omega h x p j * (1 - nth k dmg 0) * ze x p j * ex al deltaT x y p j * nth j v 0) k js = nth p m 0 * th).
      { unfold th, th_sum. rewrite <- jsum_scal. apply jsum_ext. intros i j _. field. exact Mp. }
      replace (2 / 9 * nth p m 0 * (th * th)) with (2 / 9 * th * (nth p m 0 * th)) by ring. rewrite <- Eth. unfold md_sum, Rminus. rewrite Ropp_mult_distr_l.
      rewrite <- !jsum_scal, <- !jsum_plus. unfold dev_sum. apply jsum_ext. intros i j Hi.
      destruct (bond_lt dmg nbrs n Hj Ld _ _ _ Ha _ _ Hi) as [_ B]. destruct (HD _ B) as [D|D]; rewrite D; field. }
    rewrite E. field.
  Qed.
End LPS.
