(** * The position-aware linear solid: potential, conservation, matching of homogeneous strains *)
From Coq Require Import Reals Ranalysis5 Lra Lia.
From Verif Require Import Base Num ModelNeigh SpecDamage ModelForce ModelPals SpecForce SpecEnergy SpecPals ProofForce ProofMaterial ProofCorr ProofEnergy ProofEnergy2 ProofPals ProofPals2 ProofPals3 ProofPals4 ProofPals5 ProofPals6.
Local Open Scope R_scope.
Local Notation vec := (V3 RN).

(** C63: The total stored energy the material reports is a potential of its forces: in every motion it grows at the rate
    at which the forces take work. *)
Theorem C63_potential : forall solve omega0 sigma0 K MU h n nbrs x v ms m dmg y t w,
  solves solve -> cloud_ok (N:=RN) n nbrs x x v -> pals_initialize (N:=RN) solve omega0 sigma0 h x v nbrs = Ok (ms, m) ->
  moves y t w -> length w = n -> apart nbrs (y t) ->
  exists F W th, (forall s, pals_evaluation (N:=RN) omega0 sigma0 K MU h x (y s) v m ms dmg nbrs = Ok (F s, W s, th s)) /\
    derivable_pt_lim (fun s => total v (W s)) t (- power v (F t) w).
Proof.
  intros solve omega0 sigma0 K MU h n nbrs x v ms m dmg y t w HS (Lx & _ & Lv & Ln & Hj) HI HM Lw HA.
  destruct (init_facts solve omega0 sigma0 h x v n nbrs ms m HS Lx Lv Ln Hj HI) as (Lms & H6 & EM & Lm & _).
  eapply pals_potential; eauto.
Qed.
Print Assumptions C63_potential.

(** The forces add up to zero and have no moment. *)
Theorem C63_momentum : forall solve omega0 sigma0 K MU h n nbrs x y v ms m dmg,
  solves solve -> cloud_ok (N:=RN) n nbrs x y v -> pals_initialize (N:=RN) solve omega0 sigma0 h x v nbrs = Ok (ms, m) ->
  exists f W th, pals_evaluation (N:=RN) omega0 sigma0 K MU h x y v m ms dmg nbrs = Ok (f, W, th) /\
    length f = n /\ momentum v f = vzero /\ moment v y f = vzero.
Proof.
  intros solve omega0 sigma0 K MU h n nbrs x y v ms m dmg HS (Lx & Ly & Lv & Ln & Hj) HI.
  destruct (init_facts solve omega0 sigma0 h x v n nbrs ms m HS Lx Lv Ln Hj HI) as (Lms & H6 & EM & Lm & _).
  eapply pals_conserves; eauto.
Qed.
Print Assumptions C63_momentum.

(** Moving the deformed body rigidly turns the forces with it and changes neither the energy densities nor the
    dilatations. *)
Theorem C63_frame : forall solve omega0 sigma0 K MU h n nbrs x y v ms m dmg Q c, orthogonal Q ->
  solves solve -> cloud_ok (N:=RN) n nbrs x y v -> pals_initialize (N:=RN) solve omega0 sigma0 h x v nbrs = Ok (ms, m) ->
  exists f W th, pals_evaluation (N:=RN) omega0 sigma0 K MU h x y v m ms dmg nbrs = Ok (f, W, th) /\
    pals_evaluation (N:=RN) omega0 sigma0 K MU h x (map (move Q c) y) v m ms dmg nbrs = Ok (map (rotate Q) f, W, th).
Proof.
  intros solve omega0 sigma0 K MU h n nbrs x y v ms m dmg Q c HQ HS (Lx & Ly & Lv & Ln & Hj) HI.
  destruct (init_facts solve omega0 sigma0 h x v n nbrs ms m HS Lx Lv Ln Hj HI) as (Lms & H6 & EM & Lm & _).
  eapply pals_frame; eauto.
Qed.
Print Assumptions C63_frame.

(** A body moved rigidly out of its reference configuration has no forces, no energy and no dilatation. *)
Theorem C63_rigid : forall solve omega0 sigma0 K MU h n nbrs x v ms m dmg Q c, orthogonal Q ->
  solves solve -> cloud_ok (N:=RN) n nbrs x x v -> pals_initialize (N:=RN) solve omega0 sigma0 h x v nbrs = Ok (ms, m) ->
  pals_evaluation (N:=RN) omega0 sigma0 K MU h x (map (move Q c) x) v m ms dmg nbrs = Ok (repeat vzero n, repeat 0 (length nbrs), repeat 0 (length nbrs)).
Proof.
  intros solve omega0 sigma0 K MU h n nbrs x v ms m dmg Q c HQ HS (Lx & Ly & Lv & Ln & Hj) HI.
  destruct (init_facts solve omega0 sigma0 h x v n nbrs ms m HS Lx Lv Ln Hj HI) as (Lms & H6 & EM & Lm & _).
  eapply pals_rigid; eauto.
Qed.
Print Assumptions C63_rigid.

(** What an evaluation of the strained body returns at one point. *)
Lemma at_one_point : forall solve omega0 sigma0 K MU h n nbrs x v ms m dmg p js (y : R -> list vec),
  solves solve -> cloud_ok (N:=RN) n nbrs x x v -> pals_initialize (N:=RN) solve omega0 sigma0 h x v nbrs = Ok (ms, m) ->
  nth_error nbrs p = Some js -> (forall g, length (y g) = n) ->
  multipliers (N:=RN) solve omega0 sigma0 h x v p js = Ok (lt_of ms p) /\ (p < n)%nat /\ (forall j, In j js -> (j < n)%nat) /\ length x = n /\
  exists F W th, (forall g, pals_evaluation (N:=RN) omega0 sigma0 K MU h x (y g) v m ms dmg nbrs = Ok (F g, W g, th g)) /\
    (forall g, nth p (W g) 0 = pen omega0 sigma0 K MU h x v ms (y g) p (offset nbrs p) js) /\
    (forall g, nth p (th g) 0 = pth omega0 h x v ms (y g) p (offset nbrs p) js).
Proof.
  intros solve omega0 sigma0 K MU h n nbrs x v ms m dmg p js y HS (Lx & _ & Lv & Ln & Hj) HI Hp Ly.
  destruct (init_facts solve omega0 sigma0 h x v n nbrs ms m HS Lx Lv Ln Hj HI) as (Lms & H6 & EM & Lm & HMu).
  assert (Ha : at_point nbrs p (offset nbrs p) js) by (split; auto).
  split; [exact (HMu p js Hp)|]. split; [eapply ptn; eauto|]. split; [eapply nb_lt; eauto|]. split; [exact Lx|].
  set (F := fun g => match pals_evaluation (N:=RN) omega0 sigma0 K MU h x (y g) v m ms dmg nbrs with Ok (f, _, _) => f | _ => [] end).
  exists F, (fun g => pmap (pen omega0 sigma0 K MU h x v ms (y g)) 0 0 nbrs), (fun g => pmap (pth omega0 h x v ms (y g)) 0 0 nbrs). repeat split.
  - intros g. destruct (pals_closed omega0 sigma0 K MU h x v m ms nbrs n Lx Lv Ln Hj Lm Lms H6 (y g) dmg (Ly g)) as (f & out & _ & E). unfold F. now rewrite E.
  - intros g. apply nth_error_nth. now apply pmap_nth.
  - intros g. apply nth_error_nth. now apply pmap_nth.
Qed.

(** Under a small homogeneous deformation with displacement gradient [g] times [H] the dilatation is, to first order in
    [g], [g] times the trace of [H] -- at every point, however few neighbours it has and wherever they lie, as long as the
    bonds feel those of the six basic strains that occur in [H]. *)
Theorem C63_dilatation : forall solve omega0 sigma0 K MU h n nbrs x v ms m dmg p js H,
  solves solve -> cloud_ok (N:=RN) n nbrs x x v -> pals_initialize (N:=RN) solve omega0 sigma0 h x v nbrs = Ok (ms, m) ->
  nth_error nbrs p = Some js -> off (nth p x vzero) x js ->
  (forall E, In E matching_strains -> seen (nth p x vzero) x v js E \/ inner E H = 0 \/ (unseen (nth p x vzero) x js E /\ trace E = 0)) ->
  exists F W th, (forall g, pals_evaluation (N:=RN) omega0 sigma0 K MU h x (map (strained g H) x) v m ms dmg nbrs = Ok (F g, W g, th g)) /\
    nth p (th 0) 0 = 0 /\ derivable_pt_lim (fun g => nth p (th g) 0) 0 (trace H).
Proof.
  intros solve omega0 sigma0 K MU h n nbrs x v ms m dmg p js H HS HC HI Hp HO HF.
  destruct (at_one_point solve omega0 sigma0 K MU h n nbrs x v ms m dmg p js (fun g => map (strained g H) x) HS HC HI Hp) as (HM & Hpn & HB & Lx & F & W & th & E & EW & ET).
  { intros g. rewrite map_length. apply HC. }
  exists F, W, th. split; [exact E|].
  destruct (theta_rate omega0 sigma0 h x v ms n p (offset nbrs p) js solve HS HM Lx Hpn HB HO H HF) as [D T0].
  split; [rewrite ET; exact T0|]. eapply derivable_pt_lim_ext; [|exact D]. intros g. symmetry. apply ET.
Qed.
Print Assumptions C63_dilatation.

(** Under uniform expansion dilatation and energy density are exact at every stretch. *)
Theorem C63_expansion : forall solve omega0 sigma0 K MU h n nbrs x v ms m dmg p js g,
  solves solve -> cloud_ok (N:=RN) n nbrs x x v -> pals_initialize (N:=RN) solve omega0 sigma0 h x v nbrs = Ok (ms, m) ->
  nth_error nbrs p = Some js -> off (nth p x vzero) x js -> -1 < g ->
  (forall E, In E [diag 1 0 0; diag 0 1 0; diag 0 0 1] -> seen (nth p x vzero) x v js E) ->
  exists f W th, pals_evaluation (N:=RN) omega0 sigma0 K MU h x (map (strained g (diag 1 1 1)) x) v m ms dmg nbrs = Ok (f, W, th) /\
    nth p th 0 = 3 * g /\ nth p W 0 = 1 / 2 * K * (3 * g) * (3 * g).
Proof.
  intros solve omega0 sigma0 K MU h n nbrs x v ms m dmg p js g HS HC HI Hp HO Hg HF.
  destruct (at_one_point solve omega0 sigma0 K MU h n nbrs x v ms m dmg p js (fun g => map (strained g (diag 1 1 1)) x) HS HC HI Hp) as (HM & Hpn & HB & Lx & F & W & th & E & EW & ET).
  { intros g'. rewrite map_length. apply HC. }
  exists (F g), (W g), (th g). split; [apply E|]. rewrite EW, ET.
  destruct (uniform omega0 sigma0 K MU h x v ms n p (offset nbrs p) js solve HS HM Lx Hpn HB g Hg) as (U1 & U2 & _); [|auto].
  intros r Hr. apply HF. assert (r = 0 \/ r = 1 \/ r = 2)%nat as [-> | [-> | ->]] by lia; unfold E6; cbn; auto.
Qed.
Print Assumptions C63_expansion.

(** Stretching along the axes, by any three amounts at once: the energy density is, to second order, that of classical
    elasticity. *)
Theorem C63_energy_axes : forall solve omega0 sigma0 K MU h n nbrs x v ms m dmg p js a b c,
  solves solve -> cloud_ok (N:=RN) n nbrs x x v -> pals_initialize (N:=RN) solve omega0 sigma0 h x v nbrs = Ok (ms, m) ->
  nth_error nbrs p = Some js -> off (nth p x vzero) x js ->
  (forall E, In E [diag 1 0 0; diag 0 1 0; diag 0 0 1] -> seen (nth p x vzero) x v js E) ->
  exists F W th, (forall g, pals_evaluation (N:=RN) omega0 sigma0 K MU h x (map (strained g (diag a b c)) x) v m ms dmg nbrs = Ok (F g, W g, th g)) /\
    second_order (fun g => nth p (W g) 0) (classical_energy K MU (diag a b c)).
Proof.
  intros solve omega0 sigma0 K MU h n nbrs x v ms m dmg p js a b c HS HC HI Hp HO HF.
  destruct (at_one_point solve omega0 sigma0 K MU h n nbrs x v ms m dmg p js (fun g => map (strained g (diag a b c)) x) HS HC HI Hp) as (HM & Hpn & HB & Lx & F & W & th & E & EW & ET).
  { intros g'. rewrite map_length. apply HC. }
  exists F, W, th. split; [exact E|].
  assert (G : second_order (fun g => pen omega0 sigma0 K MU h x v ms (map (strained g (diag a b c)) x) p (offset nbrs p) js) (classical_energy K MU (diag a b c))).
  { eapply axes_energy; eauto. intros r Hr. apply HF. assert (r = 0 \/ r = 1 \/ r = 2)%nat as [-> | [-> | ->]] by lia; unfold E6; cbn; auto. }
  intros e He. destruct (G e He) as (d & Hd & G2). exists d. split; [exact Hd|]. intros g Hg Hb. rewrite EW. auto.
Qed.
Print Assumptions C63_energy_axes.

(** ... and so it is for shear in a plane of the axes. *)
Theorem C63_energy_shear : forall solve omega0 sigma0 K MU h n nbrs x v ms m dmg p js s S,
  solves solve -> cloud_ok (N:=RN) n nbrs x x v -> pals_initialize (N:=RN) solve omega0 sigma0 h x v nbrs = Ok (ms, m) ->
  nth_error nbrs p = Some js -> off (nth p x vzero) x js -> In S matching_strains -> trace S = 0 -> seen (nth p x vzero) x v js S ->
  exists F W th, (forall g, pals_evaluation (N:=RN) omega0 sigma0 K MU h x (map (strained g (scaled s S)) x) v m ms dmg nbrs = Ok (F g, W g, th g)) /\
    second_order (fun g => nth p (W g) 0) (classical_energy K MU (scaled s S)).
Proof.
  intros solve omega0 sigma0 K MU h n nbrs x v ms m dmg p js s S HS HC HI Hp HO Hin HT HF.
  destruct (at_one_point solve omega0 sigma0 K MU h n nbrs x v ms m dmg p js (fun g => map (strained g (scaled s S)) x) HS HC HI Hp) as (HM & Hpn & HB & Lx & F & W & th & E & EW & ET).
  { intros g'. rewrite map_length. apply HC. }
  exists F, W, th. split; [exact E|].
  destruct (In_nth _ _ (diag 0 0 0) Hin) as (r & Hr & ES). cbn in Hr.
  assert (R3 : (3 <= r)%nat).
  { destruct (Compare_dec.le_lt_dec 3 r) as [H|H]; [exact H|]. exfalso. revert HT. rewrite <- ES.
    assert (r = 0 \/ r = 1 \/ r = 2)%nat as [-> | [-> | ->]] by lia; unfold trace, matching_strains, diag; cbn; to_R; lra. }
  fold (E6 r) in ES. subst S.
  assert (G : second_order (fun g => pen omega0 sigma0 K MU h x v ms (map (strained g (scaled s (E6 r))) x) p (offset nbrs p) js) (classical_energy K MU (scaled s (E6 r)))).
  { eapply shear_energy; eauto. }
  intros e He. destruct (G e He) as (d & Hd & G2). exists d. split; [exact Hd|]. intros g Hg Hb. rewrite EW. auto.
Qed.
Print Assumptions C63_energy_shear.

(** A point with its six neighbours along the axes and the twelve along the diagonals of their planes: the initialisation
    succeeds and all six strains are felt.  Influence functions equal to 1, for which the multipliers are not zero. *)
Lemma star_off : off vzero star_x (seq 1 18).
Proof.
  intros j Hj E. cbn in Hj. pose proof (f_equal (@vx RN) E) as E1. pose proof (f_equal (@vy RN) E) as E2. pose proof (f_equal (@vz RN) E) as E3.
  repeat (destruct Hj as [<-|Hj]; [cbn in E1, E2, E3; to_R; lra|]). destruct Hj.
Qed.
Example C63_star : exists ms m,
  solves star_solve /\ cloud_ok (N:=RN) 19 star_nbrs star_x star_x star_v /\
  pals_initialize (N:=RN) star_solve ones ones 2 star_x star_v star_nbrs = Ok (ms, m) /\
  nth_error star_nbrs 0 = Some (seq 1 18) /\ off (nth 0 star_x vzero) star_x (seq 1 18) /\
  (forall E, In E matching_strains -> seen (nth 0 star_x vzero) star_x star_v (seq 1 18) E).
Proof.
  destruct star_init as (ms & m & E). exists ms, m. split; [apply guess_solves|]. split; [|split; [exact E|split; [reflexivity|split; [exact star_off|]]]].
  - repeat split; try reflexivity; [cbn; lia|]. constructor; [|constructor]. apply Forall_forall. intros j Hj. apply in_seq in Hj. lia.
  - intros F HF. destruct (In_nth _ _ (diag 0 0 0) HF) as (r & Hr & <-). cbn in Hr. apply (star_seen r). exact Hr.
Qed.

(** Bond damage is not looked at: with every bond broken the stretched star still has forces. *)
Theorem C63_broken_bonds_refuted : forall K MU, K <> 0 -> exists ms m f W th,
  pals_initialize (N:=RN) star_solve ones ones 2 star_x star_v star_nbrs = Ok (ms, m) /\
  pals_evaluation (N:=RN) ones ones K MU 2 star_x (map (strained 1 (diag 1 1 1)) star_x) star_v m ms (repeat 1 18) star_nbrs = Ok (f, W, th) /\
  f <> repeat vzero 19.
Proof.
  intros K MU HK. destruct C63_star as (ms & m & HS & HC & HI & Hp & HO & Hs). exists ms, m.
  assert (HA : apart star_nbrs (map (strained 1 (diag 1 1 1)) star_x)).
  { intros p k j Y YP Hb E1 E2 E. destruct Hb as (js & i & Q1 & Q2 & _). destruct p as [|p]; [|destruct p; discriminate]. injection Q1 as <-.
    apply nth_error_In in Q2. apply (star_off j Q2). rewrite nth_error_map in E1, E2. cbn [nth_error star_x option_map] in E1. injection E1 as <-.
    destruct (nth_error star_x j) as [a|] eqn:Ea; [|discriminate]. cbn [option_map] in E2. injection E2 as <-. rewrite (nth_error_nth _ _ _ Ea).
    destruct a as [a1 a2 a3]. pose proof (f_equal (@vx RN) E) as F1. pose proof (f_equal (@vy RN) E) as F2. pose proof (f_equal (@vz RN) E) as F3.
    unfold strained, rotate, diag in F1, F2, F3. cbn in F1, F2, F3. to_R. apply v3_ext; cbn; to_R; lra. }
  destruct (C63_potential star_solve ones ones K MU 2 19 star_nbrs star_x star_v ms m (repeat 1 18) (fun g => map (strained g (diag 1 1 1)) star_x) 1 (map (rotate (diag 1 1 1)) star_x) HS HC HI
    (strained_moves star_x (diag 1 1 1) 1) eq_refl HA) as (F & W & th & E & D).
  exists (F 1), (W 1), (th 1). split; [exact HI|]. split; [apply E|]. intros Z.
  assert (P0 : power star_v (F 1) (map (rotate (diag 1 1 1)) star_x) = 0).
  { rewrite Z. unfold star_v, star_x. cbn. rring. }
  rewrite P0, Ropp_0 in D.
  assert (EW : forall g, 0 < g < 2 -> total star_v (W g) = 9 / 2 * K * (g * g)).
  { intros g Hg. destruct (C63_expansion star_solve ones ones K MU 2 19 star_nbrs star_x star_v ms m (repeat 1 18) 0 (seq 1 18) g HS HC HI Hp HO) as (f' & W' & th' & E' & _ & U); [lra| |].
    - intros E0 HE. apply Hs. cbn in HE |- *. tauto.
    - rewrite (E g) in E'. injection E' as E1 E2 E3. subst W'.
      destruct (init_facts star_solve ones ones 2 star_x star_v 19 star_nbrs ms m HS) as (Lms & H6 & EM & Lm & _); try apply HC; [exact HI|].
      destruct HC as (C1 & _ & C3 & C4 & C5).
      destruct (pals_closed ones ones K MU 2 star_x star_v m ms star_nbrs 19 C1 C3 C4 C5 Lm Lms H6 (map (strained g (diag 1 1 1)) star_x) (repeat 1 18)) as (f2 & o2 & _ & E4); [reflexivity|].
      rewrite (E g) in E4. injection E4 as E5 E6 E7. assert (LW : length (W g) = 1%nat) by (rewrite E6; reflexivity).
      destruct (W g) as [|w0 [|]]; try discriminate. cbn [nth] in U. unfold star_v. cbn [total repeat]. rewrite U. field. }
  assert (D2 : derivable_pt_lim (fun g => 9 / 2 * K * (g * g)) 1 0).
  { eapply (derivable_pt_lim_locally_ext (fun g => total star_v (W g)) _ 1 0 2); [lra|exact EW|exact D]. }
  assert (D3 : derivable_pt_lim (fun g => 9 / 2 * K * (g * g)) 1 (9 / 2 * K * (1 * 1 + 1 * 1))).
  { apply (derivable_pt_lim_scal (fun g => g * g)). apply (derivable_pt_lim_mult (fun g => g) (fun g => g)); apply derivable_pt_lim_id. }
  pose proof (uniqueness_limite _ _ _ _ D2 D3) as U. apply HK. lra.
Qed.
Print Assumptions C63_broken_bonds_refuted.
