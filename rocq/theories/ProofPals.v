From Coq Require Import Reals Lra Lia.
From Verif Require Import Base Num ModelNeigh SpecDamage ModelForce ModelGlobal ModelPals SpecForce SpecEnergy SpecPals ProofData ProofDamage ProofFrame ProofForce ProofMaterial ProofCorr ProofEnergy ProofEnergy2.

Section Pals.
  Local Open Scope R_scope.
  Local Notation vec := (V3 RN).
  Lemma six : forall (l : list R), length l = 6%nat -> exists a b c d e f, l = [a; b; c; d; e; f].
  Proof. intros l H. destruct l as [|a [|b [|c [|d [|e [|f [|g l]]]]]]]; try discriminate. eauto 10. Qed.
  Lemma infl_dil : forall I0 w d h, length w = 6%nat -> influence (N:=RN) dilatation_eval I0 1 w d h = Ok (I0 (vlen d) h + dots w (probes (N:=RN) d)).
  Proof.
    intros I0 w d h L. destruct (six w L) as (w0 & w1 & w2 & w3 & w4 & w5 & ->). unfold influence, dilatation_eval. cbn [bind]. f_equal.
    unfold probes. cbn [dots]. destruct d as [a b c]. cbn [vx vy vz]. to_R. change (T RN) with R in *. ring.
  Qed.
  Lemma infl_dev : forall I0 w d h, length w = 6%nat -> influence (N:=RN) deviatoric_eval I0 1 w d h = Ok (I0 (vlen d) h + dots w (map (fun a => a * a) (dev_probes (N:=RN) d))).
  Proof.
    intros I0 w d h L. destruct (six w L) as (w0 & w1 & w2 & w3 & w4 & w5 & ->). unfold influence, deviatoric_eval.
    assert (L2 : length (dev_probes (N:=RN) d) = 6%nat) by reflexivity. destruct (six _ L2) as (e0 & e1 & e2 & e3 & e4 & e5 & ->). cbn [bind]. f_equal. cbn [map dots]. to_R. change (T RN) with R in *. ring.
  Qed.
  Lemma jsum_k : forall (F : nat -> R) js k k', jsum (fun _ j => F j) k js = jsum (fun _ j => F j) k' js.
  Proof. intros F. induction js as [|j js IH]; intros k k'; cbn [jsum]; [reflexivity|]. f_equal. apply IH. Qed.

  Variables (omega0 sigma0 : R -> R -> R) (K MU h : R) (x : list vec) (v m : list R) (ms : list (list R * list R)) (nbrs : list (list nat)) (n : nat).
  Hypothesis (Lx : length x = n) (Lv : length v = n) (Ln : (length nbrs <= n)%nat) (Hj : Forall (Forall (fun j => (j < n)%nat)) nbrs)
    (Lm : length m = length nbrs) (Lms : length ms = length nbrs) (H6 : forall lt, In lt ms -> length (fst lt) = 6%nat /\ length (snd lt) = 6%nat).

  Definition bd (p j : nat) : vec := vsub (nth j x vzero) (nth p x vzero).
  Definition lt_of (p : nat) : list R * list R := nth p ms ([], []).
  Definition omw (p j : nat) : R := omega0 (vlen (bd p j)) h + dots (fst (lt_of p)) (probes (N:=RN) (bd p j)).
  Definition sgw (p j : nat) : R := sigma0 (vlen (bd p j)) h + dots (snd (lt_of p)) (map (fun a => a * a) (dev_probes (N:=RN) (bd p j))).
  Definition ext (y : list vec) (p j : nat) : R := vlen (vsub (nth j y vzero) (nth p y (@vzero RN))) - ze x p j.
  Definition pth (y : list vec) (p k : nat) (js : list nat) : R := jsum (fun _ j => omw p j * ze x p j * ext y p j * nth j v 0) k js.
  Definition ppr (y : list vec) (p k : nat) (js : list nat) : R :=
    jsum (fun _ j => - (2 * MU * (sgw p j * ze x p j) / 3) * ext y p j * nth j v 0) k js + (K + 2 * MU * nth p m 0 / 9) * pth y p k js.
  Definition eps (y : list vec) (th : R) (p j : nat) : R := ext y p j - ze x p j * th / 3.
  Definition pen (y : list vec) (p k : nat) (js : list nat) : R :=
    1 / 2 * K * pth y p k js * pth y p k js + MU * jsum (fun _ j => sgw p j * eps y (pth y p k js) p j * eps y (pth y p k js) p j * nth j v 0) k js.
  Definition pms (p k : nat) (js : list nat) : R := jsum (fun _ j => sgw p j * (ze x p j * ze x p j) * nth j v 0) k js.
  Definition pten (y : list vec) (p k j : nat) : R :=
    let th := pth y p (offset nbrs p) (nth p nbrs []) in
    ppr y p (offset nbrs p) (nth p nbrs []) * omw p j * ze x p j + 2 * MU * sgw p j * eps y th p j.

  Lemma pt_lt : forall p k js, at_point nbrs p k js -> (p < n)%nat /\ (p < length m)%nat /\ (p < length ms)%nat.
  Proof. intros p k js [H _]. assert ((p < length nbrs)%nat) by (apply nth_error_Some; congruence). rlia. Qed.
  Lemma lt_six : forall p, (p < length ms)%nat -> length (fst (lt_of p)) = 6%nat /\ length (snd (lt_of p)) = 6%nat.
  Proof. intros p H. apply H6. apply nth_In. exact H. Qed.
  Lemma nb_lt : forall p k js, at_point nbrs p k js -> forall j, In j js -> (j < n)%nat.
  Proof. intros p k js [H _] j Hin. rewrite Forall_forall in Hj. apply nth_error_In in H. specialize (Hj _ H). rewrite Forall_forall in Hj. exact (Hj _ Hin). Qed.

  Lemma sums_closed : forall y p js, length y = n -> (p < n)%nat -> (p < length ms)%nat -> (forall j, In j js -> (j < n)%nat) -> forall k a b,
    pals_sums (N:=RN) omega0 sigma0 MU h x y v (nth p x vzero) (nth p y vzero) (lt_of p) js a b =
    Ok (a + pth y p k js, b + jsum (fun _ j => - (2 * MU * (sgw p j * ze x p j) / 3) * ext y p j * nth j v 0) k js).
  Proof.
    intros y p js Ly Hp Hps. destruct (lt_six p Hps) as [L1 L2]. induction js as [|j js IH]; intros HB k a b; cbn [pals_sums].
    - unfold pth. cbn [jsum]. f_equal. apply f_equal2; symmetry; apply Rplus_0_r.
    - pose proof (HB j (or_introl eq_refl)) as Hjn.
      rewrite (at_nth (T RN) 0 v j), (at_nth _ (@vzero RN) x j), (at_nth _ (@vzero RN) y j) by rlia. cbn [bind].
      pose proof (infl_dil omega0 (fst (lt_of p)) (bd p j) h L1) as E1. pose proof (infl_dev sigma0 (snd (lt_of p)) (bd p j) h L2) as E2. fold (omw p j) in E1. fold (sgw p j) in E2.
      etransitivity; [apply f_equal2; [exact E1|reflexivity]|]. cbn [bind]. etransitivity; [apply f_equal2; [exact E2|reflexivity]|]. cbn [bind].
      etransitivity; [apply (IH (fun i Hi => HB i (or_intror Hi)) (S k))|]. unfold pth. cbn [jsum].
      fold (ze x p j). unfold ext. f_equal. apply f_equal2; to_R; change (T RN) with R in *; unfold Rdiv; ring.
  Qed.
  Lemma pressures_closed : forall y, length y = n ->
    pals_pressures (N:=RN) omega0 sigma0 K MU h x y v m ms 0 nbrs = Ok (pmap (fun p k js => (pth y p k js, ppr y p k js)) 0 0 nbrs).
  Proof.
    intros y Ly. apply (visit (fun l p k => pals_pressures (N:=RN) omega0 sigma0 K MU h x y v m ms p l = Ok (pmap (fun p k js => (pth y p k js, ppr y p k js)) p k l))); [reflexivity|].
    intros js rest p k Ha IH. cbn [pals_pressures pmap Nat.add]. destruct (pt_lt _ _ _ Ha) as (P1 & P2 & P3).
    unfold pals_pressure. rewrite (at_nth _ (@vzero RN) x p), (at_nth _ (@vzero RN) y p), (at_nth (list (T RN) * list (T RN)) ([], []) ms p), (at_nth (T RN) 0 m p) by rlia. cbn [bind].
    pose proof (sums_closed y p js Ly P1 P3 (nb_lt _ _ _ Ha) k 0 0) as E.
    etransitivity; [apply f_equal2; [etransitivity; [apply f_equal2; [exact E|reflexivity]|cbn [bind]; reflexivity]|reflexivity]|]. cbn [bind]. rewrite IH. cbn [bind]. f_equal. apply f_equal2; [|reflexivity]. unfold ppr. apply f_equal2; to_R; change (T RN) with R in *; unfold Rdiv; ring.
  Qed.
  Lemma tp_nth : forall y p k js, at_point nbrs p k js -> at_ub (pmap (fun p k js => (pth y p k js, ppr y p k js)) 0 0 nbrs) p = Ok (pth y p k js, ppr y p k js).
  Proof. intros y p k js Ha. unfold at_ub. now rewrite (pmap_nth _ _ nbrs p k js Ha). Qed.
  Lemma penergy_closed : forall y, length y = n -> forall p k js, at_point nbrs p k js ->
    pals_energy (N:=RN) sigma0 K MU h x y v ms (pmap (fun p k js => (pth y p k js, ppr y p k js)) 0 0 nbrs) p k js = Ok (pen y p k js).
  Proof.
    intros y Ly p k js Ha. destruct (pt_lt _ _ _ Ha) as (P1 & P2 & P3). destruct (lt_six p P3) as [_ L2].
    unfold pals_energy. rewrite (at_nth _ (@vzero RN) x p), (at_nth _ (@vzero RN) y p), (at_nth (list (T RN) * list (T RN)) ([], []) ms p) by rlia. cbn [bind].
    etransitivity; [apply f_equal2; [exact (tp_nth y p k js Ha)|reflexivity]|]. cbn [bind].
    match goal with |- bind (foldM ?f _ _) _ = _ => set (g := f) end.
    assert (E : forall l k1 a, (forall j, In j l -> (j < n)%nat) -> foldM g a l = Ok (a + jsum (fun _ j => sgw p j * eps y (pth y p k js) p j * eps y (pth y p k js) p j * nth j v 0) k1 l)).
    { induction l as [|j l IH]; intros k0 a HB; cbn [foldM jsum]; [f_equal; symmetry; apply Rplus_0_r|]. pose proof (HB j (or_introl eq_refl)) as Hjn. unfold g at 1.
      rewrite (at_nth (T RN) 0 v j), (at_nth _ (@vzero RN) x j), (at_nth _ (@vzero RN) y j) by rlia. cbn [bind].
      pose proof (infl_dev sigma0 (snd (lt_of p)) (bd p j) h L2) as E2. fold (sgw p j) in E2.
      change (influence (N:=RN) deviatoric_eval sigma0 (ofZ 1) (snd (nth p ms ([], []))) (vsub (nth j x vzero) (nth p x vzero)) h) with (influence (N:=RN) deviatoric_eval sigma0 1 (snd (lt_of p)) (bd p j) h).
      rewrite E2. cbn [bind]. etransitivity; [apply (IH (S k0)); intros; apply HB; now right|]. f_equal.
      fold (ze x p j). unfold eps, ext. to_R. change (T RN) with R in *. unfold Rdiv. ring. }
    rewrite (E js k (ofZ 0) (nb_lt _ _ _ Ha)). cbn [bind]. f_equal. unfold pen. unfold lit. cbn [ofZ div]. to_R. change (T RN) with R in *. field.
  Qed.
  Lemma sigma_closed : forall p k js, at_point nbrs p k js -> sigma_volume (N:=RN) sigma0 h x v ms p k js = Ok (pms p k js).
  Proof.
    intros p k js Ha. destruct (pt_lt _ _ _ Ha) as (P1 & P2 & P3). destruct (lt_six p P3) as [_ L2].
    unfold sigma_volume. rewrite (at_nth _ (@vzero RN) x p), (at_nth (list (T RN) * list (T RN)) ([], []) ms p) by rlia. cbn [bind].
    match goal with |- foldM ?f _ _ = _ => set (g := f) end.
    assert (E : forall l k a, (forall j, In j l -> (j < n)%nat) -> foldM g a l = Ok (a + pms p k l)).
    { induction l as [|j l IH]; intros k0 a HB; unfold pms; cbn [foldM jsum]; [f_equal; symmetry; apply Rplus_0_r|]. pose proof (HB j (or_introl eq_refl)) as Hjn. unfold g at 1.
      rewrite (at_nth (T RN) 0 v j), (at_nth _ (@vzero RN) x j) by rlia. cbn [bind].
      pose proof (infl_dev sigma0 (snd (lt_of p)) (bd p j) h L2) as E2. fold (sgw p j) in E2.
      change (influence (N:=RN) deviatoric_eval sigma0 (ofZ 1) (snd (nth p ms ([], []))) (vsub (nth j x vzero) (nth p x vzero)) h) with (influence (N:=RN) deviatoric_eval sigma0 1 (snd (lt_of p)) (bd p j) h).
      rewrite E2. cbn [bind]. etransitivity; [apply (IH (S k0)); intros; apply HB; now right|]. f_equal. unfold pms.
      rewrite (dist_sqr (nth p x vzero) (nth j x vzero)), <- (vlen_dist (nth p x vzero) (nth j x vzero)). fold (ze x p j). unfold Rsqr. to_R. change (T RN) with R in *. ring. }
    rewrite (E js k (ofZ 0) (nb_lt _ _ _ Ha)). f_equal. apply Rplus_0_l.
  Qed.
  Lemma volumes_closed : dilatations (N:=RN) (sigma_volume (N:=RN) sigma0 h x v ms) 0 0 nbrs = Ok (pmap pms 0 0 nbrs).
  Proof. apply dil_pmap. exact sigma_closed. Qed.

  (** the forces *)
  Let tps y := pmap (fun p k js => (pth y p k js, ppr y p k js)) 0 0 nbrs.
  Lemma pals_pre : forall y, length y = n -> forall p js, nth_error nbrs p = Some js ->
    pre _ _ (pals (N:=RN) omega0 sigma0 MU h x y v ms (tps y)) p (offset nbrs p) js = Ok (nth p x vzero, nth p y vzero, lt_of p, (pth y p (offset nbrs p) js, ppr y p (offset nbrs p) js)).
  Proof.
    intros y Ly p js Hp. assert (Ha : at_point nbrs p (offset nbrs p) js) by (split; auto). destruct (pt_lt _ _ _ Ha) as (P1 & P2 & P3). cbn [pre pals].
    rewrite (at_nth _ (@vzero RN) x p), (at_nth _ (@vzero RN) y p), (at_nth (list (T RN) * list (T RN)) ([], []) ms p) by rlia. cbn [bind].
    etransitivity; [apply f_equal2; [exact (tp_nth y p _ js Ha)|reflexivity]|]. reflexivity.
  Qed.
  Lemma pals_bond : forall y, length y = n -> forall p k j js, nth_error nbrs p = Some js -> bond_at nbrs p k j ->
    bond _ _ (pals (N:=RN) omega0 sigma0 MU h x y v ms (tps y)) (nth p x vzero, nth p y vzero, lt_of p, (pth y p (offset nbrs p) js, ppr y p (offset nbrs p) js)) p k j =
    Ok (along (N:=RN) (pten y p k j) (vsub (nth j y vzero) (nth p y vzero)) (vlen (vsub (nth j y vzero) (nth p y vzero))), tt).
  Proof.
    intros y Ly p k j js Hp Hb. assert (Ha : at_point nbrs p (offset nbrs p) js) by (split; auto). destruct (pt_lt _ _ _ Ha) as (P1 & P2 & P3).
    pose proof (bond_at_In _ _ _ _ _ Hb Hj) as Hjn. cbv beta in Hjn. destruct (lt_six p P3) as [L1 L2]. cbn [bond pals].
    rewrite (at_nth _ (@vzero RN) x j), (at_nth _ (@vzero RN) y j) by rlia. cbn [bind]. cbv zeta.
    pose proof (infl_dil omega0 (fst (lt_of p)) (bd p j) h L1) as E1. pose proof (infl_dev sigma0 (snd (lt_of p)) (bd p j) h L2) as E2. fold (omw p j) in E1. fold (sgw p j) in E2.
    etransitivity; [apply f_equal2; [exact E1|reflexivity]|]. cbn [bind]. etransitivity; [apply f_equal2; [exact E2|reflexivity]|]. cbn [bind].
    f_equal. apply f_equal2; [|reflexivity]. f_equal. unfold pten. rewrite (nth_error_nth nbrs p [] Hp). cbv zeta. fold (ze x p j). unfold eps, ext. to_R. change (T RN) with R in *. unfold Rdiv. ring.
  Qed.
  Lemma pals_total : forall y, length y = n -> total_on (pals (N:=RN) omega0 sigma0 MU h x y v ms (tps y)) nbrs n.
  Proof.
    intros y Ly. split.
    - intros p js Hp. eexists. apply pals_pre; auto.
    - intros p js d k j Hp Hd Hb. rewrite (pals_pre y Ly p js Hp) in Hd. injection Hd as <-.
      assert (Ha : at_point nbrs p (offset nbrs p) js) by (split; auto). destruct (pt_lt _ _ _ Ha) as (P1 & P2 & P3).
      pose proof (bond_at_In _ _ _ _ _ Hb Hj) as Hjn. cbv beta in Hjn. split; [eexists; apply pals_bond; eauto|].
      cbn [vols pals]. unfold cell_volumes. rewrite (at_nth (T RN) 0 v j), (at_nth (T RN) 0 v p) by rlia. cbn [bind]. repeat split; eauto.
  Qed.
  Lemma pals_force : forall y, length y = n -> forall p k j js d fb s, nth_error nbrs p = Some js ->
    pre _ _ (pals (N:=RN) omega0 sigma0 MU h x y v ms (tps y)) p (offset nbrs p) js = Ok d -> bond_at nbrs p k j ->
    bond _ _ (pals (N:=RN) omega0 sigma0 MU h x y v ms (tps y)) d p k j = Ok (fb, s) ->
    fb = along (N:=RN) (pten y p k j) (vsub (nth j y vzero) (nth p y vzero)) (vlen (vsub (nth j y vzero) (nth p y vzero))).
  Proof.
    intros y Ly p k j js d fb s Hp Hd Hb H. rewrite (pals_pre y Ly p js Hp) in Hd. injection Hd as <-.
    pose proof (eq_trans (eq_sym H) (pals_bond y Ly p k j js Hp Hb)) as E. apply Ok_pair in E as [E _]. congruence.
  Qed.
  Lemma pals_closed : forall y dmg, length y = n -> exists f out,
    run_kernel (pals (N:=RN) omega0 sigma0 MU h x y v ms (tps y)) nbrs (repeat vzero n) = Ok (f, out) /\
    pals_evaluation (N:=RN) omega0 sigma0 K MU h x y v m ms dmg nbrs = Ok (f, pmap (pen y) 0 0 nbrs, pmap (pth y) 0 0 nbrs).
  Proof.
    intros y dmg Ly. destruct (run_total (pals (N:=RN) omega0 sigma0 MU h x y v ms (tps y)) nbrs (repeat vzero n)) as (f & out & E & _).
    { rewrite repeat_length. apply pals_total, Ly. }
    exists f, out. split; [exact E|]. unfold pals_evaluation. rewrite (pressures_closed y Ly). cbn [bind].
    replace (length x) with n. fold (tps y). rewrite E. cbn [bind].
    rewrite (dil_pmap (pals_energy (N:=RN) sigma0 K MU h x y v ms (tps y)) (pen y) nbrs (penergy_closed y Ly)). cbn [bind].
    f_equal. apply f_equal2; [reflexivity|]. unfold tps.
    generalize 0%nat at 1 3. generalize 0%nat. clear. induction nbrs as [|js l IH]; intros a b; [reflexivity|]. cbn [pmap map fst]. f_equal. apply IH.
  Qed.

  (** energy rate *)
  Lemma ext_rate : forall y t w p j, moves y t w -> length w = n -> (p < n)%nat -> (j < n)%nat -> nth p (y t) vzero <> nth j (y t) vzero ->
    derivable_pt_lim (fun s => ext (y s) p j) t (lrate (y t) w p j).
  Proof.
    intros y t w p j HM Lw Hp Hjn HN. unfold ext.
    eapply lim_eq'; [apply (derivable_pt_lim_minus (fun s => vlen (vsub (nth j (y s) vzero) (nth p (y s) (@vzero RN)))) (fun _ => ze x p j)); [eapply length_rate; eauto|apply derivable_pt_lim_const]|]. ring.
  Qed.
  Lemma pen_rate : forall y t w, moves y t w -> length w = n -> apart nbrs (y t) -> m = pmap pms 0 0 nbrs ->
    forall p k js, at_point nbrs p k js ->
    derivable_pt_lim (fun s => pen (y s) p k js) t (jsum (fun k j => nth j v 0 * pten (y t) p k j * lrate (y t) w p j) k js).
  Proof.
    intros y t w HM Lw HA Hm p k js Ha.
    assert (Ly : forall s, length (y s) = n) by (intros s; rewrite (proj1 HM s); exact Lw).
    destruct (pt_lt _ _ _ Ha) as (Hp & Hpm & _).
    assert (Mp : nth p m 0 = pms p k js) by (apply nth_error_nth; rewrite Hm; now apply pmap_nth).
    assert (HE : forall i j, nth_error js i = Some j -> derivable_pt_lim (fun s => ext (y s) p j) t (lrate (y t) w p j)).
    { intros i j Hi. pose proof (nb_lt _ _ _ Ha j (nth_error_In _ _ Hi)) as B1. apply ext_rate; auto.
      pose proof (bonds_of _ _ _ _ Ha _ _ Hi) as Hb. eapply HA; [exact Hb| |]; apply nth_error_nth'; rewrite Ly; auto. }
    set (th := pth (y t) p k js). set (dth := jsum (fun _ j => omw p j * ze x p j * nth j v 0 * lrate (y t) w p j) k js).
    assert (D1 : derivable_pt_lim (fun s => pth (y s) p k js) t dth).
    { apply (jsum_deriv (fun s _ j => omw p j * ze x p j * ext (y s) p j * nth j v 0)).
      intros i j Hi. eapply (derivable_pt_lim_ext (fun s => omw p j * ze x p j * nth j v 0 * ext (y s) p j)); [intros s; ring|].
      apply (derivable_pt_lim_scal (fun s => ext (y s) p j)). eauto. }
    assert (DE : forall i j, nth_error js i = Some j -> derivable_pt_lim (fun s => eps (y s) (pth (y s) p k js) p j) t (lrate (y t) w p j - ze x p j / 3 * dth)).
    { intros i j Hi. unfold eps. apply (derivable_pt_lim_minus (fun s => ext (y s) p j) (fun s => ze x p j * pth (y s) p k js / 3)); [eauto|].
      eapply (derivable_pt_lim_ext (fun s => ze x p j / 3 * pth (y s) p k js)); [intros s; field|]. apply (derivable_pt_lim_scal (fun s => pth (y s) p k js)). exact D1. }
    set (de := fun j => lrate (y t) w p j - ze x p j / 3 * dth).
    assert (D2 : derivable_pt_lim (fun s => jsum (fun _ j => sgw p j * eps (y s) (pth (y s) p k js) p j * eps (y s) (pth (y s) p k js) p j * nth j v 0) k js) t
       (jsum (fun _ j => 2 * sgw p j * nth j v 0 * eps (y t) th p j * de j) k js)).
    { apply (jsum_deriv (fun s _ j => sgw p j * eps (y s) (pth (y s) p k js) p j * eps (y s) (pth (y s) p k js) p j * nth j v 0)). intros i j Hi.
      eapply (derivable_pt_lim_ext (fun s => sgw p j * nth j v 0 * (eps (y s) (pth (y s) p k js) p j * eps (y s) (pth (y s) p k js) p j))); [intros s; ring|].
      eapply lim_eq'; [apply (derivable_pt_lim_scal (fun s => eps (y s) (pth (y s) p k js) p j * eps (y s) (pth (y s) p k js) p j));
        apply (derivable_pt_lim_mult (fun s => eps (y s) (pth (y s) p k js) p j) (fun s => eps (y s) (pth (y s) p k js) p j)); exact (DE i j Hi)|].
      fold th. fold (de j). ring. }
    unfold pen.
    eapply lim_eq'.
    - apply (derivable_pt_lim_plus (fun s => 1 / 2 * K * pth (y s) p k js * pth (y s) p k js)
               (fun s => MU * jsum (fun _ j => sgw p j * eps (y s) (pth (y s) p k js) p j * eps (y s) (pth (y s) p k js) p j * nth j v 0) k js)).
      + apply (derivable_pt_lim_mult (fun s => 1 / 2 * K * pth (y s) p k js) (fun s => pth (y s) p k js)); [|exact D1].
        apply (derivable_pt_lim_scal (fun s => pth (y s) p k js)). exact D1.
      + apply (derivable_pt_lim_scal (fun s => jsum (fun _ j => sgw p j * eps (y s) (pth (y s) p k js) p j * eps (y s) (pth (y s) p k js) p j * nth j v 0) k js)). exact D2.
    - fold th.
      assert (S1 : jsum (fun _ j => 2 * sgw p j * nth j v 0 * eps (y t) th p j * de j) k js =
        jsum (fun _ j => 2 * sgw p j * nth j v 0 * eps (y t) th p j * lrate (y t) w p j) k js + - (2 / 3) * dth * jsum (fun _ j => sgw p j * ze x p j * nth j v 0 * eps (y t) th p j) k js).
      { rewrite <- jsum_scal, <- jsum_plus. apply jsum_ext. intros i j _. unfold de. field. }
      assert (S2 : ppr (y t) p k js = K * th - 2 / 3 * MU * jsum (fun _ j => sgw p j * ze x p j * nth j v 0 * eps (y t) th p j) k js).
      { unfold ppr. fold th. rewrite Mp. unfold pms.
        transitivity (K * th + (-2 / 3 * MU) * (jsum (fun _ j => sgw p j * ze x p j * ext (y t) p j * nth j v 0) k js + - (th / 3) * jsum (fun _ j => sgw p j * (ze x p j * ze x p j) * nth j v 0) k js)).
        - replace (jsum (fun _ j => - (2 * MU * (sgw p j * ze x p j) / 3) * ext (y t) p j * nth j v 0) k js)
            with (- 2 / 3 * MU * jsum (fun _ j => sgw p j * ze x p j * ext (y t) p j * nth j v 0) k js); [field|].
          rewrite <- jsum_scal. apply jsum_ext. intros i j _. field.
        - replace (jsum (fun _ j => sgw p j * ze x p j * nth j v 0 * eps (y t) th p j) k js)
            with (jsum (fun _ j => sgw p j * ze x p j * ext (y t) p j * nth j v 0) k js + - (th / 3) * jsum (fun _ j => sgw p j * (ze x p j * ze x p j) * nth j v 0) k js); [field|].
          rewrite <- jsum_scal, <- jsum_plus. apply jsum_ext. intros i j _. unfold eps. field. }
      rewrite S1.
      transitivity (ppr (y t) p k js * dth + MU * jsum (fun _ j => 2 * sgw p j * nth j v 0 * eps (y t) th p j * lrate (y t) w p j) k js); [rewrite S2; field|].
      unfold dth. rewrite <- !jsum_scal, <- jsum_plus. apply jsum_ext. intros i j Hi. unfold pten. destruct Ha as [Hnb ->].
      rewrite (nth_error_nth nbrs p [] Hnb). fold th. cbv zeta. ring.
  Qed.
End Pals.
