From Coq Require Import Reals Lra Lia.
From Verif Require Import Base Num ModelNeigh SpecDamage ModelForce ModelGlobal ModelPals SpecForce SpecEnergy SpecPals ProofData ProofDamage ProofFrame ProofForce ProofMaterial ProofCorr ProofEnergy ProofEnergy2 ProofPals ProofPals2 ProofPals3.

Section Init.
  Local Open Scope R_scope.
  Local Notation vec := (V3 RN).
  Variables (solve : list (list R) -> list R -> outcome (list R)) (omega0 sigma0 : R -> R -> R) (h : R) (x : list vec) (v : list R).
  Lemma all_nth : forall nbrs p ms, multipliers_all (N:=RN) solve omega0 sigma0 h x v p nbrs = Ok ms ->
    length ms = length nbrs /\ forall i js, nth_error nbrs i = Some js -> multipliers (N:=RN) solve omega0 sigma0 h x v (p + i) js = Ok (nth i ms ([], [])).
  Proof.
    induction nbrs as [|js nbrs IH]; intros p ms H; cbn [multipliers_all] in H.
    - injection H as <-. split; [reflexivity|]. intros [|i] js H; discriminate.
    - apply bind_Ok in H as (a & E1 & H). apply bind_Ok in H as (r & E2 & H). injection H as <-. destruct (IH _ _ E2) as [L G].
      split; [cbn [length]; apply f_equal; exact L|]. intros [|i] js' Hi; cbn in Hi |- *.
      + injection Hi as <-. now rewrite Nat.add_0_r.
      + replace (p + S i)%nat with (1 + p + i)%nat by lia. now apply G.
  Qed.
  Lemma init_facts : forall n nbrs ms m, solves solve -> length x = n -> length v = n -> (length nbrs <= n)%nat -> Forall (Forall (fun j => (j < n)%nat)) nbrs ->
    pals_initialize (N:=RN) solve omega0 sigma0 h x v nbrs = Ok (ms, m) ->
    length ms = length nbrs /\ (forall lt, In lt ms -> length (fst lt) = 6%nat /\ length (snd lt) = 6%nat) /\ m = pmap (pms sigma0 h x v ms) 0 0 nbrs /\ length m = length nbrs /\
    forall p js, nth_error nbrs p = Some js -> multipliers (N:=RN) solve omega0 sigma0 h x v p js = Ok (lt_of ms p).
  Proof.
    intros n nbrs ms m HS Lx Lv Ln Hj H. unfold pals_initialize in H. apply bind_Ok in H as (ms' & E1 & H). apply bind_Ok in H as (m' & E2 & H). apply Ok_pair in H as [<- <-].
    destruct (all_nth _ _ _ E1) as [L G].
    assert (H6 : forall lt, In lt ms -> length (fst lt) = 6%nat /\ length (snd lt) = 6%nat).
    { intros lt Hin. destruct (In_nth ms lt ([], []) Hin) as (i & Hi & Ei). destruct (nth_error nbrs i) as [js|] eqn:En; [|apply nth_error_None in En; rlia].
      pose proof (G i js En) as M. apply (multipliers_sums omega0 sigma0 h x v solve) in M; [|exact HS]. destruct M as (M1 & M2 & _). rewrite Ei in M1, M2. auto. }
    split; [exact L|]. split; [exact H6|].
    assert (LM : length (repeat 0 (length nbrs)) = length nbrs) by apply repeat_length.
    pose proof (volumes_closed sigma0 h x v (repeat 0 (length nbrs)) ms nbrs n Lx Lv Ln Hj LM L H6) as V.
    assert (EM : m = pmap (pms sigma0 h x v ms) 0 0 nbrs) by (pose proof (eq_trans (eq_sym E2) V) as Q; injection Q as Q; exact Q).
    split; [exact EM|]. split; [rewrite EM; apply pmap_len|]. intros p js Hp. exact (G p js Hp).
  Qed.
End Init.

Section Limits.
  Local Open Scope R_scope.
  Lemma so_limit : forall f l, limit1_in (fun g => f g / (g * g)) (fun g => g <> 0) l 0 -> second_order f l.
  Proof.
    intros f l H e He. destruct (H e He) as (d & Hd & G). exists d. split; [exact Hd|]. intros g Hg Hb. apply G. split; [exact Hg|]. cbn. unfold R_dist. now rewrite Rminus_0_r.
  Qed.
  Lemma first_limit : forall f a, f 0 = 0 -> derivable_pt_lim f 0 a -> limit1_in (fun g => f g / g) (fun g => g <> 0) a 0.
  Proof.
    intros f a F0 D e He. destruct (D e He) as (d & G). exists d. split; [apply cond_pos|]. intros g [Hg Hb]. cbn in Hb |- *. unfold R_dist in *. rewrite Rminus_0_r in Hb.
    specialize (G g Hg Hb). now rewrite Rplus_0_l, F0, Rminus_0_r in G.
  Qed.
  Lemma limit_ext : forall f g (D : R -> Prop) l x0, (forall x, D x -> f x = g x) -> limit1_in f D l x0 -> limit1_in g D l x0.
  Proof. intros f g D l x0 HE H e He. destruct (H e He) as (d & Hd & G). exists d. split; [exact Hd|]. intros t [Ht Hb]. rewrite <- HE by exact Ht. apply G. split; assumption. Qed.
  Lemma limit_const : forall D c x0, limit1_in (fun _ => c) D c x0.
  Proof. intros D c x0 e He. exists 1. split; [lra|]. intros t _. cbn. unfold R_dist. rewrite Rminus_diag_eq, Rabs_R0 by reflexivity. exact He. Qed.
  Lemma sq_limit : forall f a, f 0 = 0 -> derivable_pt_lim f 0 a -> limit1_in (fun g => f g * f g / (g * g)) (fun g => g <> 0) (a * a) 0.
  Proof.
    intros f a F0 D. pose proof (first_limit f a F0 D) as L. eapply limit_ext; [|apply limit_mul; [exact L|exact L]]. intros g Hg. cbv beta. field. exact Hg.
  Qed.
  Lemma jsum_limit : forall (F : R -> nat -> nat -> R) F' js k, (forall n j, nth_error js n = Some j -> limit1_in (fun g => F g (k + n)%nat j / (g * g)) (fun g => g <> 0) (F' (k + n)%nat j) 0) ->
    limit1_in (fun g => jsum (F g) k js / (g * g)) (fun g => g <> 0) (jsum F' k js) 0.
  Proof.
    intros F F'. induction js as [|j js IH]; intros k H; cbn [jsum].
    - eapply limit_ext; [|apply limit_const]. intros g Hg. cbv beta. field. exact Hg.
    - eapply limit_ext; [|apply limit_plus; [pose proof (H 0%nat j eq_refl) as H0; rewrite Nat.add_0_r in H0; exact H0|apply (IH (S k))]].
      + intros g Hg. cbv beta. field. exact Hg.
      + intros i b Hi. replace (S k + i)%nat with (k + S i)%nat by lia. now apply H.
  Qed.
End Limits.

Section Matching.
  Local Open Scope R_scope.
  Local Notation vec := (V3 RN).
  Variables (omega0 sigma0 : R -> R -> R) (K MU h : R) (x : list vec) (v : list R) (ms : list (list R * list R)) (nbrs : list (list nat)) (n p k : nat) (js : list nat).
  Variable (solve : list (list R) -> list R -> outcome (list R)).
  Hypothesis (HS : solves solve) (HM : multipliers (N:=RN) solve omega0 sigma0 h x v p js = Ok (lt_of ms p))
    (Lx : length x = n) (Hp : (p < n)%nat) (HB : forall j, In j js -> (j < n)%nat) (HO : off (nth p x vzero) x js).
  Let om := omw omega0 h x ms p.
  Let sg := sgw sigma0 h x ms p.
  Let b := bd x p.
  Let V j := nth j v 0.

  Lemma jsum_bsum : forall (G : vec -> R) l k, jsum (fun _ j => G (b j) * V j) k l = bond_sum G (nth p x vzero) x v l.
  Proof. intros G. unfold bond_sum. induction l as [|j l IH]; intros k0; cbn [jsum fold_right]; [reflexivity|]. rewrite IH. unfold V, b, bd. ring. Qed.
  Definition E6 (r : nat) : rot := nth r matching_strains (diag 0 0 0).
  Lemma matched : forall r, (r < 6)%nat -> seen (nth p x vzero) x v js (E6 r) ->
    jsum (fun _ j => om j * nth r (probes (N:=RN) (b j)) 0 * V j) k js = nth r targets 0 /\
    jsum (fun _ j => sg j * nth r (sq6 (b j)) 0 * V j) k js = nth r dev_targets 0.
  Proof.
    intros r Hr Hs. destruct (multipliers_sums omega0 sigma0 h x v solve p js _ HS HM) as (_ & _ & kk & HE & L & G).
    destruct (G r Hr (seen_alive x v kk (nth p x vzero) js r L HE Hr Hs)) as [G1 G2].
    split; [rewrite <- G1|rewrite <- G2].
    - exact (jsum_bsum (fun d => (omega0 (vlen d) h + dots (fst (lt_of ms p)) (probes (N:=RN) d)) * nth r (probes (N:=RN) d) 0) js k).
    - exact (jsum_bsum (fun d => (sigma0 (vlen d) h + dots (snd (lt_of ms p)) (sq6 d)) * nth r (sq6 d) 0) js k).
  Qed.
  Lemma b_off : forall j, In j js -> vlen (b j) <> 0 /\ b j <> vzero.
  Proof.
    intros j Hin. assert (N0 : b j <> vzero).
    { intros E. apply (HO j Hin). unfold b, bd in E. destruct (nth j x vzero) as [a1 a2 a3], (nth p x vzero) as [b1 b2 b3]. injection E as E1 E2 E3. to_R. apply v3_ext; cbn [vx vy vz]; lra. }
    split; [|exact N0]. intros E. apply N0. unfold vlen, vdot in E. destruct (b j) as [a1 a2 a3]. cbn [vx vy vz] in E. to_R. apply sqrt_eq_0 in E; [|nra]. apply v3_ext; cbn [vx vy vz vzero]; to_R; nra.
  Qed.
  Lemma ze_b : forall j, ze x p j = vlen (b j).
  Proof. reflexivity. Qed.

  (** the motion *)
  Lemma strained_moves : forall H t, moves (fun g => map (strained g H) x) t (map (rotate H) x).
  Proof.
    intros H t. split; [intros s; now rewrite !map_length|]. intros i a Hi. rewrite nth_error_map in Hi. destruct (nth_error x i) as [q|] eqn:Hq; [|discriminate]. cbn [option_map] in Hi. injection Hi as <-.
    assert (E : forall g, nth i (map (strained g H) x) vzero = strained g H q) by (intros g; apply nth_error_nth; now apply map_nth_error).
    repeat split.
    - eapply derivable_pt_lim_ext; [intros g; symmetry; rewrite E; unfold strained, vadd, vscale; cbn [vx]; reflexivity|].
      eapply lim_eq'; [apply (derivable_pt_lim_plus (fun _ => vx q) (fun g => g * vx (rotate H q))); [apply derivable_pt_lim_const|apply (derivable_pt_lim_mult (fun g => g) (fun _ => vx (rotate H q))); [apply derivable_pt_lim_id|apply derivable_pt_lim_const]]|]. to_R. ring.
    - eapply derivable_pt_lim_ext; [intros g; symmetry; rewrite E; unfold strained, vadd, vscale; cbn [vy]; reflexivity|].
      eapply lim_eq'; [apply (derivable_pt_lim_plus (fun _ => vy q) (fun g => g * vy (rotate H q))); [apply derivable_pt_lim_const|apply (derivable_pt_lim_mult (fun g => g) (fun _ => vy (rotate H q))); [apply derivable_pt_lim_id|apply derivable_pt_lim_const]]|]. to_R. ring.
    - eapply derivable_pt_lim_ext; [intros g; symmetry; rewrite E; unfold strained, vadd, vscale; cbn [vz]; reflexivity|].
      eapply lim_eq'; [apply (derivable_pt_lim_plus (fun _ => vz q) (fun g => g * vz (rotate H q))); [apply derivable_pt_lim_const|apply (derivable_pt_lim_mult (fun g => g) (fun _ => vz (rotate H q))); [apply derivable_pt_lim_id|apply derivable_pt_lim_const]]|]. to_R. ring.
  Qed.
  Lemma strained_0 : forall H a, strained 0 H a = a.
  Proof. intros [[] [] []] []. apply v3_ext; cbn; rring. Qed.
  Lemma strained_x0 : forall H, map (strained 0 H) x = x.
  Proof. intros H. etransitivity; [apply map_ext; apply (strained_0 H)|apply map_id]. Qed.
  Lemma ext_strained : forall H j, In j js -> derivable_pt_lim (fun g => ext x (map (strained g H) x) p j) 0 (felt H (b j) / vlen (b j)) /\ ext x (map (strained 0 H) x) p j = 0.
  Proof.
    intros H j Hin. pose proof (HB j Hin) as Hjn. split.
    - eapply lim_eq'; [eapply (ext_rate x n (fun g => map (strained g H) x) 0 (map (rotate H) x) p j); [apply strained_moves|now rewrite map_length|exact Hp|exact Hjn|]|].
      + cbv beta. rewrite strained_x0. intros E. apply (HO j Hin). now symmetry.
      + cbv beta. rewrite strained_x0. unfold lrate. f_equal.
        assert (Z : rotate H (@vzero RN) = vzero) by (destruct H as [[] [] []]; apply v3_ext; cbn; rring).
        assert (NR : forall i, nth i (map (rotate H) x) vzero = rotate H (nth i x vzero)) by (intros i; rewrite <- Z at 1; apply map_nth).
        rewrite !NR. unfold felt, b, bd. rewrite (proj1 (proj2 (rotate_linear H))). reflexivity.
    - rewrite strained_x0. unfold ext, ze. apply Rminus_diag_eq. reflexivity.
  Qed.
  (** parts of a strain *)
  Definition part (H : rot) (r : nat) : R := inner (E6 r) H / inner (E6 r) (E6 r).
  Lemma felt_parts : forall H d, felt H d = sum6 (fun r => part H r * nth r (probes (N:=RN) d) 0).
  Proof.
    intros [[a1 a2 a3] [b1 b2 b3] [c1 c2 c3]] [d1 d2 d3]. unfold sum6, part, inner, felt, E6, matching_strains, diag, rotate, vdot, probes. cbn. to_R. change (T RN) with R in *. field.
  Qed.
  Lemma jsum_sum6 : forall (G : nat -> R) (q : nat -> nat -> R) (c : nat -> R) l k0,
    jsum (fun _ j => G j * sum6 (fun r => c r * q r j) * V j) k0 l = sum6 (fun r => c r * jsum (fun _ j => G j * q r j * V j) k0 l).
  Proof. intros G q c. induction l as [|j l IH]; intros k0; cbn [jsum]; [unfold sum6; ring|]. rewrite IH. unfold sum6. ring. Qed.
  Definition fits (H : rot) : Prop := forall E, In E matching_strains ->
    seen (nth p x vzero) x v js E \/ inner E H = 0 \/ (unseen (nth p x vzero) x js E /\ trace E = 0).
  Lemma theta_rate : forall H, fits H -> derivable_pt_lim (fun g => pth omega0 h x v ms (map (strained g H) x) p k js) 0 (trace H) /\ pth omega0 h x v ms (map (strained 0 H) x) p k js = 0.
  Proof.
    intros H HF. split.
    - eapply lim_eq'.
      + apply (jsum_deriv (fun g _ j => omw omega0 h x ms p j * ze x p j * ext x (map (strained g H) x) p j * nth j v 0) (fun _ j => om j * felt H (b j) * V j)).
        intros i j Hi. destruct (ext_strained H j (nth_error_In _ _ Hi)) as [D _]. destruct (b_off j (nth_error_In _ _ Hi)) as [N0 _].
        eapply (derivable_pt_lim_ext (fun g => omw omega0 h x ms p j * ze x p j * nth j v 0 * ext x (map (strained g H) x) p j)); [intros g; ring|].
        eapply lim_eq'; [apply (derivable_pt_lim_scal (fun g => ext x (map (strained g H) x) p j)); exact D|]. rewrite ze_b. fold (om j). fold (V j). field. exact N0.
      + rewrite (jsum_ext _ (fun _ j => om j * sum6 (fun r => part H r * nth r (probes (N:=RN) (b j)) 0) * V j)) by (intros i j _; now rewrite felt_parts).
        rewrite (jsum_sum6 om (fun r j => nth r (probes (N:=RN) (b j)) 0)).
        transitivity (sum6 (fun r => part H r * nth r targets 0)).
        * apply sum6_ext. intros r Hr. assert (Hin : In (E6 r) matching_strains) by (apply nth_In; exact Hr).
          destruct (HF _ Hin) as [Hs|[Hi|[Hu Ht]]].
          -- now rewrite (proj1 (matched r Hr Hs)).
          -- unfold part. rewrite Hi. unfold Rdiv. ring.
          -- rewrite jsum_zero.
             ++ assert (T0 : nth r targets 0 = 0); [|now rewrite T0].
                do 6 (destruct r as [|r]; [first [reflexivity | exfalso; revert Ht; unfold trace, E6, matching_strains, diag; cbn; to_R; lra]|]). lia.
             ++ intros i j Hi. pose proof (Hu j (nth_error_In _ _ Hi)) as U. unfold E6 in U. rewrite (felt_probe r) in U by exact Hr.
                etransitivity; [apply f_equal2; [apply f_equal2; [reflexivity|exact U]|reflexivity]|]. ring.
        * destruct H as [[a1 a2 a3] [b1 b2 b3] [c1 c2 c3]]. unfold sum6, part, inner, trace, E6, matching_strains, diag, targets, vdot. cbn. to_R. change (T RN) with R in *. field.
    - apply jsum_zero. intros i j Hi. rewrite (proj2 (ext_strained H j (nth_error_In _ _ Hi))). ring.
  Qed.
  (** the deviatoric extension of a strain *)
  Definition devf (H : rot) (d : vec) : R := felt H d / vlen d - vlen d * trace H / 3.
  Lemma energy_order : forall H, fits H ->
    second_order (fun g => pen omega0 sigma0 K MU h x v ms (map (strained g H) x) p k js)
      (1 / 2 * K * (trace H * trace H) + MU * jsum (fun _ j => sg j * (devf H (b j) * devf H (b j)) * V j) k js).
  Proof.
    intros H HF. destruct (theta_rate H HF) as [D T0]. apply so_limit. unfold pen.
    set (th := fun g => pth omega0 h x v ms (map (strained g H) x) p k js) in *.
    eapply limit_ext; [|apply (limit_plus (fun g => 1 / 2 * K * (th g * th g / (g * g)))
      (fun g => MU * (jsum (fun _ j => sgw sigma0 h x ms p j * eps x (map (strained g H) x) (th g) p j * eps x (map (strained g H) x) (th g) p j * nth j v 0) k js / (g * g))))].
    - intros g Hg. cbv beta. fold (th g). field. exact Hg.
    - apply limit_mul; [apply limit_const|]. apply sq_limit; [exact T0|exact D].
    - apply limit_mul; [apply limit_const|].
      apply (jsum_limit (fun g _ j => sgw sigma0 h x ms p j * eps x (map (strained g H) x) (th g) p j * eps x (map (strained g H) x) (th g) p j * nth j v 0) (fun _ j => sg j * (devf H (b j) * devf H (b j)) * V j)).
      intros i j Hi. destruct (ext_strained H j (nth_error_In _ _ Hi)) as [DE E0].
      replace (sg j * (devf H (b j) * devf H (b j)) * V j) with (sg j * V j * (devf H (b j) * devf H (b j))) by ring.
      eapply limit_ext; [|apply (limit_mul (fun _ => sg j * V j) (fun g => eps x (map (strained g H) x) (th g) p j * eps x (map (strained g H) x) (th g) p j / (g * g)))].
      + intros g Hg. cbv beta. fold (sg j). fold (V j). field. exact Hg.
      + apply limit_const.
      + apply sq_limit.
        * unfold eps. rewrite E0. unfold th. rewrite T0. field.
        * unfold eps. unfold devf. rewrite ze_b. 
          apply (derivable_pt_lim_minus (fun g => ext x (map (strained g H) x) p j) (fun g => vlen (b j) * th g / 3)); [exact DE|].
          eapply (derivable_pt_lim_ext (fun g => vlen (b j) / 3 * th g)); [intros g; field|].
          eapply lim_eq'; [apply (derivable_pt_lim_scal th); exact D|]. field.
  Qed.
End Matching.
