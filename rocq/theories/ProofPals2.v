From Coq Require Import Reals Lra Lia.
From Verif Require Import Base Num ModelNeigh SpecDamage ModelForce ModelGlobal ModelPals SpecForce SpecEnergy SpecPals ProofData ProofDamage ProofFrame ProofForce ProofKernels ProofMaterial ProofCorr ProofEnergy ProofEnergy2 ProofPals.

Section Pals.
  Local Open Scope R_scope.
  Local Notation vec := (V3 RN).
  Variables (omega0 sigma0 : R -> R -> R) (K MU h : R) (x : list vec) (v m : list R) (ms : list (list R * list R)) (nbrs : list (list nat)) (n : nat).
  Hypothesis (Lx : length x = n) (Lv : length v = n) (Ln : (length nbrs <= n)%nat) (Hj : Forall (Forall (fun j => (j < n)%nat)) nbrs)
    (Lm : length m = length nbrs) (Lms : length ms = length nbrs) (H6 : forall lt, In lt ms -> length (fst lt) = 6%nat /\ length (snd lt) = 6%nat).
  Let th := pth omega0 h x v ms.
  Let pr := ppr omega0 sigma0 K MU h x v m ms.
  Let en := pen omega0 sigma0 K MU h x v ms.
  Let ten := pten omega0 sigma0 K MU h x v m ms nbrs.
  Let kern y := pals (N:=RN) omega0 sigma0 MU h x y v ms (pmap (fun p k js => (th y p k js, pr y p k js)) 0 0 nbrs).

  Lemma ptn : forall p k js, at_point nbrs p k js -> (p < n)%nat.
  Proof. intros p k js [H _]. assert ((p < length nbrs)%nat) by (apply nth_error_Some; congruence). lia. Qed.
  Lemma pals_potential : forall y t w dmg, moves y t w -> length w = n -> apart nbrs (y t) -> m = pmap (pms sigma0 h x v ms) 0 0 nbrs ->
    exists F W q, (forall s, pals_evaluation (N:=RN) omega0 sigma0 K MU h x (y s) v m ms dmg nbrs = Ok (F s, W s, q s)) /\
      derivable_pt_lim (fun s => total v (W s)) t (- power v (F t) w).
  Proof.
    intros y t w dmg HM Lw HA Hm.
    assert (Ly : forall s, length (y s) = n) by (intros s; rewrite (proj1 HM s); exact Lw).
    set (F := fun s => match run_kernel (kern (y s)) nbrs (repeat vzero n) with Ok (f, _) => f | _ => [] end).
    exists F, (fun s => pmap (en (y s)) 0 0 nbrs), (fun s => pmap (th (y s)) 0 0 nbrs).
    assert (C : forall s, exists out, run_kernel (kern (y s)) nbrs (repeat vzero n) = Ok (F s, out) /\
      pals_evaluation (N:=RN) omega0 sigma0 K MU h x (y s) v m ms dmg nbrs = Ok (F s, pmap (en (y s)) 0 0 nbrs, pmap (th (y s)) 0 0 nbrs)).
    { intros s. destruct (pals_closed omega0 sigma0 K MU h x v m ms nbrs n Lx Lv Ln Hj Lm Lms H6 (y s) dmg (Ly s)) as (f & out & E1 & E2).
      assert (EF : F s = f) by (unfold F, kern, th, pr; now rewrite E1). exists out. rewrite EF. split; [exact E1|exact E2]. }
    split; [intros s; destruct (C s) as (out & _ & E); exact E|].
    destruct (C t) as (out & E & _).
    assert (P : power v (F t) w = - rsum (pmap (fun p k js => nth p v 0 * jsum (fun k j => nth j v 0 * ten (y t) p k j * lrate (y t) w p j) k js) 0 0 nbrs)).
    { eapply (run_power _ _ (kern (y t))); [reflexivity|exact Lv|exact Lw| |exact E].
      intros. eapply (pals_force omega0 sigma0 K MU h x v m ms nbrs n); eauto. }
    eapply lim_eq'; [|rewrite P, Ropp_involutive; reflexivity].
    eapply (derivable_pt_lim_ext (fun s => rsum (pmap (fun p k js => nth p v 0 * en (y s) p k js) 0 0 nbrs))).
    { intros s. symmetry. apply total_pmap. lia. }
    apply rsum_deriv. intros p k js Ha.
    apply (derivable_pt_lim_scal (fun s => en (y s) p k js)).
    eapply (pen_rate omega0 sigma0 K MU h x v m ms nbrs n); eauto.
  Qed.

  Lemma pals_conserves : forall y dmg, length y = n ->
    exists f W q, pals_evaluation (N:=RN) omega0 sigma0 K MU h x y v m ms dmg nbrs = Ok (f, W, q) /\
      length f = n /\ momentum v f = vzero /\ moment v y f = vzero.
  Proof.
    intros y dmg Ly.
    destruct (pals_closed omega0 sigma0 K MU h x v m ms nbrs n Lx Lv Ln Hj Lm Lms H6 y dmg Ly) as (f & out & E1 & E2).
    destruct (conserve _ _ (kern y) n nbrs v y (repeat vzero n)) as (f' & out' & E3 & Lf & P1 & P2); auto.
    - apply repeat_length.
    - eapply (pals_total omega0 sigma0 K MU h x v m ms nbrs n); eauto.
    - apply cell_volumes_balanced. reflexivity.
    - intros p k j js d fb s Hp Hd Hb H.
      rewrite (pals_force omega0 sigma0 K MU h x v m ms nbrs n Lx Lv Ln Hj Lm Lms H6 y Ly p k j js d fb s Hp Hd Hb H). apply along_parallel.
    - exists f, (pmap (en y) 0 0 nbrs), (pmap (th y) 0 0 nbrs). split; [exact E2|].
      pose proof (eq_trans (eq_sym E1) E3) as G1. apply Ok_pair in G1 as [G1 _]. rewrite <- G1.
      rewrite P1, P2. repeat split; auto; [apply momentum_zero|apply moment_zero].
  Qed.

  Lemma ext_moved : forall Q c y p j, orthogonal Q -> (p < length y)%nat -> (j < length y)%nat -> ext x (map (move Q c) y) p j = ext x y p j.
  Proof.
    intros Q c y p j HQ Hp Hjn. unfold ext. rewrite !(nth_indep (map (move Q c) y) vzero (move Q c vzero)) by (rewrite map_length; lia).
    now rewrite !map_nth, move_len by exact HQ.
  Qed.
  (** equal extensions, equal state *)
  Lemma same_state : forall y y' p k js, (forall j, In j js -> ext x y' p j = ext x y p j) -> th y' p k js = th y p k js /\ pr y' p k js = pr y p k js /\ en y' p k js = en y p k js.
  Proof.
    intros y y' p k js HE.
    assert (T1 : th y' p k js = th y p k js) by (apply jsum_ext; intros i j Hi; rewrite (HE j (nth_error_In _ _ Hi)); reflexivity).
    split; [exact T1|]. split.
    - unfold pr, ppr. fold th. rewrite T1. f_equal. apply jsum_ext. intros i j Hi. now rewrite (HE j (nth_error_In _ _ Hi)).
    - unfold en, pen. fold th. rewrite T1. do 2 f_equal. apply jsum_ext. intros i j Hi. unfold eps. now rewrite (HE j (nth_error_In _ _ Hi)).
  Qed.
  Lemma pals_frame : forall y dmg Q c, length y = n -> orthogonal Q -> exists f W q,
    pals_evaluation (N:=RN) omega0 sigma0 K MU h x y v m ms dmg nbrs = Ok (f, W, q) /\
    pals_evaluation (N:=RN) omega0 sigma0 K MU h x (map (move Q c) y) v m ms dmg nbrs = Ok (map (rotate Q) f, W, q).
  Proof.
    intros y dmg Q c Ly HQ. set (y' := map (move Q c) y). assert (Ly' : length y' = n) by (unfold y'; now rewrite map_length).
    destruct (pals_closed omega0 sigma0 K MU h x v m ms nbrs n Lx Lv Ln Hj Lm Lms H6 y dmg Ly) as (f & out & E1 & E2).
    destruct (pals_closed omega0 sigma0 K MU h x v m ms nbrs n Lx Lv Ln Hj Lm Lms H6 y' dmg Ly') as (f' & out' & E3 & E4).
    assert (HS : forall p k js, at_point nbrs p k js -> th y' p k js = th y p k js /\ pr y' p k js = pr y p k js /\ en y' p k js = en y p k js).
    { intros p k js Ha. apply same_state. intros j Hin. pose proof (ptn _ _ _ Ha) as P1.
      apply ext_moved; auto; rewrite Ly; auto. eapply nb_lt; eauto. }
    exists f, (pmap (en y) 0 0 nbrs), (pmap (th y) 0 0 nbrs). split; [exact E2|].
    assert (A1 : pmap (en y') 0 0 nbrs = pmap (en y) 0 0 nbrs) by (apply pmap_ext; intros p k js Ha; apply HS; auto).
    assert (A2 : pmap (th y') 0 0 nbrs = pmap (th y) 0 0 nbrs) by (apply pmap_ext; intros p k js Ha; apply HS; auto).
    fold y'. etransitivity; [exact E4|]. unfold en in A1. unfold th in A2. rewrite A1, A2. f_equal.
    assert (TY : length y = n -> total_on (kern y) nbrs n) by (intros; eapply (pals_total omega0 sigma0 K MU h x v m ms nbrs n); eauto).
    pose (RD := fun (p : nat) (d1 d2 : vec * vec * (list R * list R) * (R * R)) =>
      exists js, nth_error nbrs p = Some js /\
      pre _ _ (kern y) p (offset nbrs p) js = Ok d1 /\ pre _ _ (kern y') p (offset nbrs p) js = Ok d2).
    assert (HM : matching (kern y) (kern y') (rotate Q) RD (fun _ _ _ => True) nbrs).
    { split; [|split].
      - intros p js d1 Hp Hd. eexists. split; [eapply (pals_pre omega0 sigma0 K MU h x v m ms nbrs n); eauto|]. exists js. repeat split; auto.
        eapply (pals_pre omega0 sigma0 K MU h x v m ms nbrs n); eauto.
      - intros p k j d1 d2 fb s Hb (js & Hp & Hd1 & Hd2) HB.
        pose proof (pals_force omega0 sigma0 K MU h x v m ms nbrs n Lx Lv Ln Hj Lm Lms H6 y Ly p k j js d1 fb s Hp Hd1 Hb HB) as ->.
        exists tt. split; [|exact I].
        pose proof (pals_pre omega0 sigma0 K MU h x v m ms nbrs n Lx Lv Ln Lm Lms y' Ly' p js Hp) as G. pose proof (eq_trans (eq_sym Hd2) G) as G2. injection G2 as ->.
        etransitivity; [eapply (pals_bond omega0 sigma0 K MU h x v m ms nbrs n); eauto|]. f_equal. apply f_equal2; [|reflexivity].
        assert (Ha : at_point nbrs p (offset nbrs p) js) by (split; auto). pose proof (ptn _ _ _ Ha) as P1.
        pose proof (bond_at_In _ _ _ _ _ Hb Hj) as Hjn. cbv beta in Hjn.
        assert (ET : pten omega0 sigma0 K MU h x v m ms nbrs y' p k j = pten omega0 sigma0 K MU h x v m ms nbrs y p k j).
        { unfold pten. rewrite (nth_error_nth nbrs p [] Hp). destruct (HS _ _ _ Ha) as (S1 & S2 & _). unfold th in S1. unfold pr in S2. rewrite S1, S2. cbv zeta. unfold eps.
          unfold y'. rewrite (ext_moved Q c y p j) by (auto; rewrite Ly; auto). reflexivity. }
        rewrite ET. unfold y'. rewrite !(nth_indep (map (move Q c) y) vzero (move Q c vzero)) by (rewrite map_length, Ly; lia). rewrite !map_nth, move_len by exact HQ.
        rewrite move_sub. symmetry. apply (L_along (rotate Q) (rotate_linear Q)).
      - intros p k j r Hb H. exact H. }
    destruct (sim_ok _ _ _ _ _ _ _ _ _ nbrs n (rotate_linear Q) (TY Ly) HM (repeat vzero n) (repeat_length _ _)) as (g & o1 & o2 & F1 & F2 & _).
    pose proof (eq_trans (eq_sym E1) F1) as G1. apply Ok_pair in G1 as [G1 _]. rewrite G1 in F2.
    assert (Z : map (rotate Q) (repeat vzero n) = repeat vzero n).
    { clear. induction n as [|k IH]; [reflexivity|]. cbn [repeat map]. f_equal; [|exact IH]. destruct Q as [[] [] []]. apply v3_ext; cbn; rring. }
    rewrite Z in F2. pose proof (eq_trans (eq_sym F2) E3) as G2. apply Ok_pair in G2 as [G2 _]. rewrite G2. reflexivity.
  Qed.
  Lemma pals_rigid : forall dmg Q c, orthogonal Q ->
    pals_evaluation (N:=RN) omega0 sigma0 K MU h x (map (move Q c) x) v m ms dmg nbrs = Ok (repeat vzero n, repeat 0 (length nbrs), repeat 0 (length nbrs)).
  Proof.
    intros dmg Q c HQ. set (y := map (move Q c) x). assert (Ly : length y = n) by (unfold y; now rewrite map_length).
    destruct (pals_closed omega0 sigma0 K MU h x v m ms nbrs n Lx Lv Ln Hj Lm Lms H6 y dmg Ly) as (f & out & E1 & E2).
    assert (HX : forall p k js, at_point nbrs p k js -> forall j, In j js -> ext x y p j = 0).
    { intros p k js Ha j Hin. pose proof (ptn _ _ _ Ha) as P1. pose proof (nb_lt nbrs n Hj _ _ _ Ha j Hin) as P2.
      unfold y. rewrite (ext_moved Q c x p j) by (auto; lia). unfold ext, ze. apply Rminus_diag_eq. reflexivity. }
    assert (HS : forall p k js, at_point nbrs p k js -> th y p k js = 0 /\ pr y p k js = 0 /\ en y p k js = 0).
    { intros p k js Ha. assert (T1 : th y p k js = 0) by (apply jsum_zero; intros i j Hi; rewrite (HX _ _ _ Ha j (nth_error_In _ _ Hi)); ring).
      split; [exact T1|]. split.
      - unfold pr, ppr. fold th. rewrite T1. rewrite jsum_zero; [ring|]. intros i j Hi. rewrite (HX _ _ _ Ha j (nth_error_In _ _ Hi)). ring.
      - unfold en, pen. fold th. rewrite T1. rewrite jsum_zero; [ring|]. intros i j Hi. unfold eps. rewrite (HX _ _ _ Ha j (nth_error_In _ _ Hi)). field. }
    assert (HZ : forall g : nat -> nat -> list nat -> R, (forall p k js, at_point nbrs p k js -> g p k js = 0) -> pmap g 0 0 nbrs = repeat 0 (length nbrs)).
    { intros g Hg. apply (visit (fun l p k => pmap g p k l = repeat 0 (length l))); [reflexivity|]. intros js rest p k Ha IH. cbn [pmap length repeat]. f_equal; auto. }
    etransitivity; [exact E2|]. f_equal. apply f_equal2; [apply f_equal2|]; [|apply HZ; apply HS|apply HZ; apply HS].
    eapply (run_zero _ _ (kern y)); [|exact E1].
    intros p k j js d fb s Hp Hd Hb _ H.
    rewrite (pals_force omega0 sigma0 K MU h x v m ms nbrs n Lx Lv Ln Hj Lm Lms H6 y Ly p k j js d fb s Hp Hd Hb H). apply along_0.
    assert (Ha : at_point nbrs p (offset nbrs p) js) by (split; auto). destruct (HS _ _ _ Ha) as (S1 & S2 & _). unfold th in S1. unfold pr in S2.
    unfold pten. rewrite (nth_error_nth nbrs p [] Hp), S1, S2. cbv zeta. unfold eps.
    assert (Hin : In j js) by (destruct Hb as (js' & i & Q1 & Q2 & _); rewrite Hp in Q1; injection Q1 as <-; eapply nth_error_In; eauto).
    rewrite (HX _ _ _ Ha j Hin). field.
  Qed.
End Pals.
