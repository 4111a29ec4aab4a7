From Coq Require Import Reals Lra Lia.
From Verif Require Import Base Num ModelNeigh SpecDamage ModelForce ModelDiffusion ModelEnergy SpecForce SpecEnergy ProofData ProofDamage ProofFrame ProofForce ProofMaterial ProofCorr ProofEnergy.

Ltac rlia := change (T RN) with R in *; lia.
Ltac rrd := to_R; change (T RN) with R in *; unfold Rdiv; ring.
Section LPS.
  Local Open Scope R_scope.
  Local Notation vec := (V3 RN).
  Lemma at_nth : forall A (d : A) l i, (i < length l)%nat -> at_ub l i = Ok (nth i l d).
  Proof. intros A d l i H. unfold at_ub. rewrite (nth_error_nth' l d H). reflexivity. Qed.
  Lemma vlen_swap : forall a b : vec, vlen (vsub a b) = vlen (vsub b a).
  Proof. intros [a1 a2 a3] [b1 b2 b3]. unfold vlen. f_equal. unfold vdot, vsub. cbn. rring. Qed.
  Lemma bonds_of : forall nbrs p k js, at_point nbrs p k js -> forall n j, nth_error js n = Some j -> bond_at nbrs p (k + n) j.
  Proof. intros nbrs p k js [H ->] n j Hn. exists js, n. auto. Qed.

  Variables (omega : R -> R -> R) (K MU h al : R) (deltaT : option (list R)) (x : list vec) (v m dmg : list R) (nbrs : list (list nat)) (n : nat).
  Hypothesis (Lx : length x = n) (Lv : length v = n) (Ln : (length nbrs <= n)%nat) (Hj : Forall (Forall (fun j => (j < n)%nat)) nbrs)
    (Lm : length m = length nbrs) (Ld : length dmg = num_bonds nbrs) (LT : opt_ok (per_point (N:=RN) nbrs) deltaT).

  Definition ze (p j : nat) : R := vlen (vsub (nth j x vzero) (nth p x (@vzero RN))).
  Definition dTat (p : nat) : option R := match deltaT with None => None | Some l => Some (nth p l 0) end.
  Definition shift (p : nat) : R := match dTat p with None => 0 | Some t => al * t end.
  Definition ex (y : list vec) (p j : nat) : R := vlen (vsub (nth j y vzero) (nth p y (@vzero RN))) - ze p j - shift p * ze p j.
  Definition om (p j : nat) : R := omega (ze p j) h.
  Definition th_sum (y : list vec) (p k : nat) (js : list nat) : R :=
    jsum (fun k j => 3 * om p j * (1 - nth k dmg 0) * ze p j * ex y p j * nth j v 0 / nth p m 0) k js.
  Definition dev_sum (y : list vec) (th : R) (p k : nat) (js : list nat) : R :=
    jsum (fun k j => (1 - nth k dmg 0) * om p j * (ex y p j - th * ze p j / 3) * (ex y p j - th * ze p j / 3) * nth j v 0) k js.
  Definition alpha_of (scf : option (list R)) (p : nat) : R :=
    match scf with None => 15 * MU / nth p m 0 | Some c => 15 * MU / nth p m 0 * nth p c 0 end.
  Definition energy_at (scf : option (list R)) (y : list vec) (p k : nat) (js : list nat) : R :=
    1 / 2 * K * th_sum y p k js * th_sum y p k js + 1 / 2 * alpha_of scf p * dev_sum y (th_sum y p k js) p k js.

  Lemma thermal_shift : forall e p z, thermal (N:=RN) e al (dTat p) z = e - shift p * z.
  Proof. intros e p z. unfold thermal, shift. destruct (dTat p); rring. Qed.
  Lemma opt_dT : forall p k js, at_point nbrs p k js -> opt_at (N:=RN) deltaT p = Ok (dTat p).
  Proof.
    intros p k js [H _]. assert (Hp : (p < length nbrs)%nat) by (apply nth_error_Some; congruence).
    unfold dTat, opt_at. destruct deltaT as [l|]; [|reflexivity]. cbn in LT. unfold per_point in LT. rewrite (at_nth (T RN) 0 l p); [reflexivity|].
    eapply Nat.lt_le_trans; [exact Hp|]. rewrite <- LT. reflexivity.
  Qed.
  Lemma point_lt : forall p k js, at_point nbrs p k js -> (p < n)%nat /\ (p < length m)%nat.
  Proof. intros p k js [H _]. assert (Hp : (p < length nbrs)%nat) by (apply nth_error_Some; congruence). lia. Qed.
  Lemma bond_lt : forall p k js, at_point nbrs p k js -> forall i j, nth_error js i = Some j -> (j < n)%nat /\ (k + i < length dmg)%nat.
  Proof.
    intros p k js H i j E. pose proof (bonds_of _ _ _ _ H _ _ E) as Hb. split.
    - exact (bond_at_In _ _ _ _ _ Hb Hj).
    - rewrite Ld. apply (bond_at_bound _ _ _ _ Hb).
  Qed.

  Lemma dilatation_closed : forall y, length y = n -> forall p k js, at_point nbrs p k js ->
    dilatation (N:=RN) omega h al deltaT x y v dmg None m p k js = Ok (th_sum y p k js).
  Proof.
    intros y Ly p k js Ha. destruct (point_lt _ _ _ Ha) as [Hp Hpm]. unfold dilatation.
    rewrite (at_nth _ (@vzero RN) x p), (at_nth _ (@vzero RN) y p), (at_nth (T RN) 0 m p), (opt_dT _ _ _ Ha) by rlia. cbn [bind].
    assert (G : forall js k acc, (forall i j, nth_error js i = Some j -> (j < n)%nat /\ (k + i < length dmg)%nat) ->
       dilatation_sum (N:=RN) omega h al (dTat p) x y v dmg None (nth p x vzero) (nth p y vzero) (nth p m 0) k js acc = Ok (acc + th_sum y p k js)).
    { clear js k Ha. induction js as [|j js IH]; intros k acc HB; cbn [dilatation_sum].
      - unfold th_sum. cbn [jsum]. f_equal. rring.
      - destruct (HB 0%nat j eq_refl) as [B1 B2]. rewrite Nat.add_0_r in B2.
        rewrite (at_nth (T RN) 0 v j), (at_nth _ (@vzero RN) x j), (at_nth _ (@vzero RN) y j), (at_nth (T RN) 0 dmg k) by rlia. cbn [bind].
        etransitivity; [apply IH|].
        + intros i j' Hi. specialize (HB (S i) j' Hi). now replace (1 + k + i)%nat with (k + S i)%nat by lia.
        + f_equal. change (1 + k)%nat with (S k). unfold th_sum. cbn [jsum]. unfold dilatation_bond. cbv zeta. rewrite thermal_shift. fold (ze p j). unfold ex, om. fold (ze p j). rrd. }
    etransitivity; [apply G; exact (bond_lt _ _ _ Ha)|]. f_equal. rring.
  Qed.
  Lemma dilatations_closed : forall y, length y = n ->
    dilatations (dilatation (N:=RN) omega h al deltaT x y v dmg None m) 0 0 nbrs = Ok (pmap (th_sum y) 0 0 nbrs).
  Proof. intros y Ly. apply dil_pmap. intros p k js Ha. now apply dilatation_closed. Qed.
  Lemma th_nth : forall y p k js, at_point nbrs p k js -> at_ub (pmap (th_sum y) 0 0 nbrs) p = Ok (th_sum y p k js).
  Proof. intros y p k js Ha. unfold at_ub. now rewrite (pmap_nth _ _ _ _ _ _ Ha). Qed.

  Lemma energy_closed : forall scf y, length y = n -> opt_ok (per_point (N:=RN) nbrs) scf -> forall p k js, at_point nbrs p k js ->
    energy_density (N:=RN) omega K MU h al deltaT x y v m (pmap (th_sum y) 0 0 nbrs) dmg scf p k js = Ok (energy_at scf y p k js).
  Proof.
    intros scf y Ly Ls p k js Ha. destruct (point_lt _ _ _ Ha) as [Hp Hpm]. unfold energy_density.
    rewrite (at_nth _ (@vzero RN) x p), (at_nth _ (@vzero RN) y p) by rlia. cbn [bind]. etransitivity; [apply f_equal2; [exact (th_nth y p k js Ha)|reflexivity]|].
    cbn [bind]. rewrite (at_nth (T RN) 0 m p) by rlia. cbn [bind].
    set (th := th_sum y p k js).
    assert (ES : opt_at (N:=RN) scf p = Ok (match scf with None => None | Some c => Some (nth p c 0) end)).
    { destruct scf as [c|]; [|reflexivity]. cbn [opt_ok] in Ls. unfold opt_at, per_point in *. rewrite (at_nth (T RN) 0 c p); [reflexivity|].
      eapply Nat.lt_le_trans; [exact Hpm|]. rewrite Lm. rewrite <- Ls. reflexivity. }
    etransitivity; [apply f_equal2; [exact ES|reflexivity]|]. cbn [bind]. rewrite (opt_dT _ _ _ Ha). cbn [bind].
    assert (G : forall th js k acc, (forall i j, nth_error js i = Some j -> (j < n)%nat /\ (k + i < length dmg)%nat) ->
       energy_sum (N:=RN) omega h al (dTat p) x y v dmg (nth p x vzero) (nth p y vzero) th k js acc = Ok (acc + dev_sum y th p k js)).
    { clear - Lx Lv Ly. intros th. induction js as [|j js IH]; intros k acc HB; cbn [energy_sum].
      - unfold dev_sum. cbn [jsum]. f_equal. rring.
      - destruct (HB 0%nat j eq_refl) as [B1 B2]. rewrite Nat.add_0_r in B2.
        rewrite (at_nth (T RN) 0 v j), (at_nth _ (@vzero RN) x j), (at_nth _ (@vzero RN) y j), (at_nth (T RN) 0 dmg k) by rlia. cbn [bind].
        etransitivity; [apply IH|].
        + intros i j' Hi. specialize (HB (S i) j' Hi). now replace (1 + k + i)%nat with (k + S i)%nat by lia.
        + f_equal. change (1 + k)%nat with (S k). unfold dev_sum. cbn [jsum]. unfold energy_bond. cbv zeta. rewrite thermal_shift.
          rewrite (vlen_swap (nth p x vzero) (nth j x vzero)), (vlen_swap (nth p y vzero) (nth j y vzero)). fold (ze p j). unfold ex, om. fold (ze p j). rrd. }
    etransitivity; [apply f_equal2; [exact (G th js k _ (bond_lt _ _ _ Ha))|reflexivity]|]. cbn [bind]. f_equal.
    unfold energy_at. fold th. unfold alpha_of. destruct scf; to_R; change (T RN) with R in *; change (IZR 0) with 0; unfold Rdiv; rring.
  Qed.
  Lemma energies_closed : forall scf y, length y = n -> opt_ok (per_point (N:=RN) nbrs) scf ->
    dilatations (energy_density (N:=RN) omega K MU h al deltaT x y v m (pmap (th_sum y) 0 0 nbrs) dmg scf) 0 0 nbrs = Ok (pmap (energy_at scf y) 0 0 nbrs).
  Proof. intros scf y Ly Ls. apply dil_pmap. intros p k js Ha. now apply energy_closed. Qed.

  (** tension of a bond *)
  Definition tension (scf : option (list R)) (P : nat -> R) (y : list vec) (p k j : nat) : R :=
    let th := th_sum y p (offset nbrs p) (nth p nbrs []) in
    (1 - nth k dmg 0) * ((om p j * th * (3 * K / nth p m 0 - alpha_of scf p / 3) - 3 * om p j / nth p m 0 * P p) * ze p j
                         + (1 - nth k dmg 0) * om p j * alpha_of scf p * ex y p j).

  (** the potential of a point and its rate *)
  Definition potential (scf : option (list R)) (P : nat -> R) (y : list vec) (p k : nat) (js : list nat) : R :=
    (K / 2 - alpha_of scf p * nth p m 0 / 18) * (th_sum y p k js * th_sum y p k js) - P p * th_sum y p k js
    + alpha_of scf p / 2 * jsum (fun k j => (1 - nth k dmg 0) * (1 - nth k dmg 0) * om p j * nth j v 0 * (ex y p j * ex y p j)) k js.
  Lemma ex_rate : forall y t w p j, moves y t w -> length w = n -> (p < n)%nat -> (j < n)%nat -> nth p (y t) vzero <> nth j (y t) vzero ->
    derivable_pt_lim (fun s => ex (y s) p j) t (lrate (y t) w p j).
  Proof.
    intros y t w p j HM Lw Hp Hjn HN. unfold ex.
    eapply lim_eq'; [apply (derivable_pt_lim_minus (fun s => vlen (vsub (nth j (y s) vzero) (nth p (y s) (@vzero RN))) - ze p j) (fun _ => shift p * ze p j));
      [apply (derivable_pt_lim_minus (fun s => vlen (vsub (nth j (y s) vzero) (nth p (y s) (@vzero RN)))) (fun _ => ze p j)); [eapply length_rate; eauto|apply derivable_pt_lim_const]
      |apply derivable_pt_lim_const]|]. ring.
  Qed.
  Lemma potential_rate : forall scf P y t w, moves y t w -> length w = n -> apart nbrs (y t) -> (forall p, (p < length nbrs)%nat -> nth p m 0 <> 0) ->
    forall p k js, at_point nbrs p k js ->
    derivable_pt_lim (fun s => potential scf P (y s) p k js) t (jsum (fun k j => nth j v 0 * tension scf P (y t) p k j * lrate (y t) w p j) k js).
  Proof.
    intros scf P y t w HM Lw HA Hm p k js Ha.
    assert (Ly : forall s, length (y s) = n) by (intros s; rewrite (proj1 HM s); exact Lw).
    destruct (point_lt _ _ _ Ha) as [Hp Hpm]. assert (Mp : nth p m 0 <> 0) by (apply Hm; lia).
    assert (HE : forall i j, nth_error js i = Some j -> derivable_pt_lim (fun s => ex (y s) p j) t (lrate (y t) w p j)).
    { intros i j Hi. destruct (bond_lt _ _ _ Ha _ _ Hi) as [B1 _]. apply ex_rate; auto.
      pose proof (bonds_of _ _ _ _ Ha _ _ Hi) as Hb. eapply HA; [exact Hb| |]; apply nth_error_nth'; rewrite Ly; auto. }
    set (c := fun k j => 3 * om p j * (1 - nth k dmg 0) * ze p j * nth j v 0 / nth p m 0).
    set (q := fun k j => (1 - nth k dmg 0) * (1 - nth k dmg 0) * om p j * nth j v 0).
    assert (D1 : derivable_pt_lim (fun s => th_sum (y s) p k js) t (jsum (fun k j => c k j * lrate (y t) w p j) k js)).
    { apply (jsum_deriv (fun s k j => 3 * om p j * (1 - nth k dmg 0) * ze p j * ex (y s) p j * nth j v 0 / nth p m 0)).
      intros i j Hi. eapply (derivable_pt_lim_ext (fun s => c (k + i)%nat j * ex (y s) p j)); [intros s; unfold c; field; exact Mp|].
      apply (derivable_pt_lim_scal (fun s => ex (y s) p j)). eauto. }
    assert (D2 : derivable_pt_lim (fun s => jsum (fun k j => q k j * (ex (y s) p j * ex (y s) p j)) k js) t (jsum (fun k j => q k j * (2 * ex (y t) p j * lrate (y t) w p j)) k js)).
    { apply (jsum_deriv (fun s k j => q k j * (ex (y s) p j * ex (y s) p j))). intros i j Hi.
      apply (derivable_pt_lim_scal (fun s => ex (y s) p j * ex (y s) p j)).
      eapply lim_eq'; [apply (derivable_pt_lim_mult (fun s => ex (y s) p j) (fun s => ex (y s) p j)); eauto|]. ring. }
    unfold potential. set (A := K / 2 - alpha_of scf p * nth p m 0 / 18). set (B := alpha_of scf p).
    eapply lim_eq'.
    - apply (derivable_pt_lim_plus (fun s => A * (th_sum (y s) p k js * th_sum (y s) p k js) - P p * th_sum (y s) p k js)
               (fun s => B / 2 * jsum (fun k j => q k j * (ex (y s) p j * ex (y s) p j)) k js)).
      + apply (derivable_pt_lim_minus (fun s => A * (th_sum (y s) p k js * th_sum (y s) p k js)) (fun s => P p * th_sum (y s) p k js)).
        * apply (derivable_pt_lim_scal (fun s => th_sum (y s) p k js * th_sum (y s) p k js)).
          apply (derivable_pt_lim_mult (fun s => th_sum (y s) p k js) (fun s => th_sum (y s) p k js)); exact D1.
        * apply (derivable_pt_lim_scal (fun s => th_sum (y s) p k js)). exact D1.
      + apply (derivable_pt_lim_scal (fun s => jsum (fun k j => q k j * (ex (y s) p j * ex (y s) p j)) k js)). exact D2.
    - set (th := th_sum (y t) p k js).
      transitivity ((2 * A * th - P p) * jsum (fun k j => c k j * lrate (y t) w p j) k js + B / 2 * jsum (fun k j => q k j * (2 * ex (y t) p j * lrate (y t) w p j)) k js); [ring|].
      rewrite <- !jsum_scal, <- jsum_plus. apply jsum_ext. intros i j Hi. unfold tension. destruct Ha as [Hnb ->].
      rewrite (nth_error_nth nbrs p [] Hnb). fold th. unfold c, q, A, B. cbv zeta. field. exact Mp.
  Qed.
End LPS.
