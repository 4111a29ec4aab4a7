(** * Plastic and viscoelastic solids: C14 - C16

    Over the real numbers, for arbitrary clouds, neighbour lists, damage, old states and
    load histories. *)
From Coq Require Import Reals Lra Lia.
From Verif Require Import Base Num ModelNeigh SpecDamage ModelForce SpecForce ModelPlastic SpecPlastic.
From Verif Require Import ProofCubic ProofPlastic ProofYield ProofVisco.
Local Open Scope R_scope.
Local Notation vec := (V3 RN).

(** ** C14: perfect plasticity *)

(** Every evaluation, from every old state: at each point the deviatoric force state that
    the new plastic extensions leave is on or inside the yield surface; an admissible trial
    state is kept and then neither the extensions nor the multiplier change; otherwise the
    state is scaled back onto the surface and the multiplier grows. *)
Theorem C14_evaluation_returns_to_yield_surface : forall K MU sigma h planar n nbrs x y v m theta dmg,
  Forall (Rle 0) v -> 0 < MU -> 0 < sigma -> 0 < h -> opt_ok (Rlt 0) planar -> positive_at_bonds nbrs m ->
  forall edp lam f, ep_inputs (N:=RN) n nbrs x y v m theta dmg edp lam -> length f = n ->
  exists f' out, run_kernel (elastic_plastic (N:=RN) K MU sigma h planar x y v m theta dmg edp lam) nbrs f = Ok (f', out) /\
    length (new_edp (N:=RN) out) = num_bonds nbrs /\ length (new_lambda (N:=RN) out) = length nbrs /\ all_le lam (new_lambda (N:=RN) out) /\
    forall p js mp tp la, nth_error nbrs p = Some js -> nth_error m p = Some mp -> nth_error theta p = Some tp -> nth_error lam p = Some la ->
    exists trial td la', trial_state x y edp (15 * MU / mp) tp p (offset nbrs p) js trial /\
      trial_state x y (new_edp (N:=RN) out) (15 * MU / mp) tp p (offset nbrs p) js td /\
      nth_error (new_lambda (N:=RN) out) p = Some la' /\
      yield_outcome 0 v dmg edp (offset nbrs p) js (yield_point sigma h planar) la trial td (new_edp (N:=RN) out) la'.
Proof. exact ep_run_point. Qed.
Print Assumptions C14_evaluation_returns_to_yield_surface.

(** The forces are those of the returned state: evaluating again from the new state, in
    the same configuration, gives the same forces and changes nothing. *)
Theorem C14_reevaluation_changes_nothing : forall K MU sigma h planar n nbrs x y v m theta dmg,
  Forall (Rle 0) v -> 0 < MU -> 0 < sigma -> 0 < h -> opt_ok (Rlt 0) planar -> positive_at_bonds nbrs m ->
  forall edp lam f f' out, ep_inputs (N:=RN) n nbrs x y v m theta dmg edp lam -> length f = n ->
  run_kernel (elastic_plastic (N:=RN) K MU sigma h planar x y v m theta dmg edp lam) nbrs f = Ok (f', out) ->
  exists out2, run_kernel (elastic_plastic (N:=RN) K MU sigma h planar x y v m theta dmg (new_edp (N:=RN) out) (new_lambda (N:=RN) out)) nbrs f = Ok (f', out2) /\
    new_edp (N:=RN) out2 = new_edp (N:=RN) out /\ new_lambda (N:=RN) out2 = new_lambda (N:=RN) out.
Proof. exact ep_again. Qed.
Print Assumptions C14_reevaluation_changes_nothing.

(** Over every history of steps, each with any number of discarded evaluations, the
    multiplier of every point grows monotonically ... *)
Theorem C14_multiplier_never_decreases : forall K MU sigma h planar n nbrs x v m,
  Forall (Rle 0) v -> 0 < MU -> 0 < sigma -> 0 < h -> opt_ok (Rlt 0) planar -> positive_at_bonds nbrs m ->
  cloud_ok (N:=RN) n nbrs x x v -> per_point (N:=RN) nbrs m ->
  forall h1 h2 s, length (fst s) = num_bonds nbrs -> length (snd s) = length nbrs -> history_fits nbrs n h1 -> history_fits nbrs n h2 ->
  exists s1 s2, history (ep_eval (N:=RN) K MU sigma h planar nbrs x v m) s h1 = Ok s1 /\
    history (ep_eval (N:=RN) K MU sigma h planar nbrs x v m) s (h1 ++ h2) = Ok s2 /\
    all_le (snd s) (snd s1) /\ all_le (snd s1) (snd s2).
Proof. exact ep_history_grows. Qed.
Print Assumptions C14_multiplier_never_decreases.

(** ... and after every step the state is admissible in the accepted configuration. *)
Theorem C14_histories_stay_admissible : forall K MU sigma h planar n nbrs x v m,
  Forall (Rle 0) v -> 0 < MU -> 0 < sigma -> 0 < h -> opt_ok (Rlt 0) planar -> positive_at_bonds nbrs m ->
  cloud_ok (N:=RN) n nbrs x x v -> per_point (N:=RN) nbrs m ->
  forall hs cs c s, length (fst s) = num_bonds nbrs -> length (snd s) = length nbrs ->
  history_fits nbrs n hs -> Forall (config_fits nbrs n) cs -> config_fits nbrs n c ->
  exists s', history (ep_eval (N:=RN) K MU sigma h planar nbrs x v m) s (hs ++ [(cs, c)]) = Ok s' /\
    admissible MU (yield_point sigma h planar) nbrs x v m c (fst s').
Proof. exact ep_history_admissible. Qed.
Print Assumptions C14_histories_stay_admissible.

(** Two points pulled to twice their distance: the hypotheses hold, the trial state [15]
    is outside the surface, and the multiplier does grow. *)
Definition two : list vec := [v3 (N:=RN) 0 0 0; v3 (N:=RN) 1 0 0].
Definition pulled : list vec := [v3 (N:=RN) 0 0 0; v3 (N:=RN) 2 0 0].
Definition pair_nbrs : list (list nat) := [[1%nat]; [0%nat]].
Lemma two_inputs : ep_inputs (N:=RN) 2 pair_nbrs two pulled [1; 1] [1; 1] [0; 0] [0; 0] [0; 0] [0; 0].
Proof. repeat split; cbn; auto; repeat constructor. Qed.
Lemma ones_positive : positive_at_bonds pair_nbrs [1; 1].
Proof. intros [|[|p]] js a _ _ H; cbn in H; [injection H as <-; lra|injection H as <-; lra|destruct p; discriminate]. Qed.
Lemma on_axis : forall a b c, 0 <= c -> (b - a) * (b - a) = c * c -> dist (v3 (N:=RN) a 0 0) (v3 (N:=RN) b 0 0) = c.
Proof.
  intros a b c Hc H. unfold dist. cbn [vx vy vz]. unfold Rsqr. rewrite <- (sqrt_square c Hc). f_equal.
  transitivity ((b - a) * (b - a)); [ring|exact H].
Qed.
Lemma two_trial : forall al, trial_state two pulled [0; 0] al 0 0 0 [1%nat] [al].
Proof.
  intros al. split; [reflexivity|]. intros [|[|n]] j t; cbn; try discriminate. intros [= <-] [= <-].
  exists (v3 (N:=RN) 0 0 0), (v3 (N:=RN) 1 0 0), (v3 (N:=RN) 0 0 0), (v3 (N:=RN) 2 0 0), 0. repeat (split; [reflexivity|]).
  assert (D1 : dist (v3 (N:=RN) 0 0 0) (v3 (N:=RN) 1 0 0) = 1). { apply on_axis; lra. }
  assert (D2 : dist (v3 (N:=RN) 0 0 0) (v3 (N:=RN) 2 0 0) = 2). { apply on_axis; lra. }
  rewrite D1, D2. field.
Qed.
Lemma two_norm : forall a, sq_norm [1; 1] [0; 0] 0 [1%nat] [a] = a * a.
Proof. intros a. cbn. unfold Rsqr. ring. Qed.
Lemma trial_eq : forall x y edp al th p k js a b, trial_state x y edp al th p k js a -> trial_state x y edp al th p k js b -> a = b.
Proof.
  intros x y edp al th p k js a b [L1 S1] [L2 S2]. apply nth_ext_err. intros i. destruct (nth_error js i) as [j|] eqn:Ej.
  - assert (i < length js)%nat by (apply nth_error_Some; congruence).
    destruct (nth_error a i) eqn:F1; [|apply nth_error_None in F1; lia]. destruct (nth_error b i) eqn:F2; [|apply nth_error_None in F2; lia].
    f_equal. eapply trial_unique; eauto.
  - apply nth_error_None in Ej. assert (F1 : nth_error a i = None) by (apply nth_error_None; lia). rewrite F1. symmetry. apply nth_error_None. lia.
Qed.
Lemma small_yield : yield_of 1 1 < 8.
Proof. unfold yield_of. pose proof PI2_1. apply Rmult_lt_reg_r with (8 * PI * 1 ^ 5); [lra|]. unfold Rdiv. rewrite Rmult_assoc, Rinv_l; lra. Qed.

Example C14_concrete : exists f' out la',
  run_kernel (elastic_plastic (N:=RN) 1 1 1 1 None two pulled [1; 1] [1; 1] [0; 0] [0; 0] [0; 0] [0; 0]) pair_nbrs [vzero; vzero] = Ok (f', out) /\
  nth_error (new_lambda (N:=RN) out) 0 = Some la' /\ 0 < la'.
Proof.
  destruct (C14_evaluation_returns_to_yield_surface 1 1 1 1 None 2 pair_nbrs two pulled [1; 1] [1; 1] [0; 0] [0; 0]) with (edp := [0; 0]) (lam := [0; 0]) (f := [vzero (N:=RN); vzero (N:=RN)])
    as (f' & out & Hrun & _ & _ & _ & HP); try lra; try exact I; auto using two_inputs, ones_positive.
  { repeat constructor; lra. }
  destruct (HP 0%nat [1%nat] 1 0 0 eq_refl eq_refl eq_refl eq_refl) as (tr & td & la' & T1 & _ & T3 & (_ & _ & _ & Y)).
  exists f', out, la'. split; [exact Hrun|]. split; [exact T3|].
  pose proof (trial_eq _ _ _ _ _ _ _ _ _ _ T1 (two_trial (15 * 1 / 1))). subst tr. change (offset pair_nbrs 0) with 0%nat in Y. rewrite two_norm in Y.
  apply Y. cbn [yield_point]. pose proof small_yield. lra.
Qed.

(** ** C15: isotropic hardening *)

(** The closed-form solver: [n] is the norm of the trial state.  Above the hardened yield
    value the increment is positive and satisfies the consistency condition, otherwise it
    is zero.  [dmax], DBL_MAX in the code, must exceed n^2/(2H). *)
Theorem C15_increment_solves_the_consistency_condition : forall dmax n lam psi al H,
  0 < al -> 0 < H -> 0 <= lam -> 0 <= psi -> 0 < n -> 0 < dmax -> n * n / (2 * H) < dmax ->
  let x := update_R dmax n lam psi al H in
  (psi + H * lam < n * n / 2 /\ 0 < x /\ n * n / (2 * ((1 + al * x) * (1 + al * x))) = psi + H * (lam + x)) \/
  (n * n / 2 <= psi + H * lam /\ x = 0).
Proof. exact update_cases. Qed.
Print Assumptions C15_increment_solves_the_consistency_condition.

(** The condition has no other positive solution. *)
Theorem C15_consistency_condition_has_one_positive_solution : forall n lam psi al H x y, 0 < al -> 0 < H -> 0 <= lam -> 0 <= psi -> 0 < x -> 0 < y ->
  n * n / (2 * ((1 + al * x) * (1 + al * x))) = psi + H * (lam + x) ->
  n * n / (2 * ((1 + al * y) * (1 + al * y))) = psi + H * (lam + y) -> x = y.
Proof. exact consistency_unique. Qed.
Print Assumptions C15_consistency_condition_has_one_positive_solution.

(** Every evaluation: as C14, with the surface psi + H lambda; the point's yield value is
    the square of its shear correction factor times the material's. *)
Theorem C15_evaluation_returns_to_hardened_surface : forall dmax K MU H sigma h n nbrs x y v m theta dmg scf,
  Forall (Rle 0) v -> 0 < MU -> 0 < H -> 0 < sigma -> 0 < h -> 0 < dmax -> positive_at_bonds nbrs m -> positive_at_bonds nbrs scf ->
  forall edp lam f, ep_inputs (N:=RN) n nbrs x y v m theta dmg edp lam -> per_point (N:=RN) nbrs scf -> length f = n ->
  Forall (Rle 0) lam -> trials_below dmax MU H nbrs x y v m theta dmg scf edp ->
  exists f' out, run_kernel (hardening (N:=RN) (update_R dmax) K MU H sigma h x y v m theta dmg scf edp lam) nbrs f = Ok (f', out) /\
    length (new_edp (N:=RN) out) = num_bonds nbrs /\ length (new_lambda (N:=RN) out) = length nbrs /\ all_le lam (new_lambda (N:=RN) out) /\
    forall p js mp tp s la, nth_error nbrs p = Some js -> nth_error m p = Some mp -> nth_error theta p = Some tp -> nth_error scf p = Some s -> nth_error lam p = Some la ->
    exists trial td la', trial_state x y edp (s * 15 * MU / mp) tp p (offset nbrs p) js trial /\
      trial_state x y (new_edp (N:=RN) out) (s * 15 * MU / mp) tp p (offset nbrs p) js td /\
      nth_error (new_lambda (N:=RN) out) p = Some la' /\
      yield_outcome H v dmg edp (offset nbrs p) js (s * s * yield_of sigma h) la trial td (new_edp (N:=RN) out) la'.
Proof. exact hard_run_point. Qed.
Print Assumptions C15_evaluation_returns_to_hardened_surface.

Theorem C15_reevaluation_changes_nothing : forall dmax K MU H sigma h n nbrs x y v m theta dmg scf,
  Forall (Rle 0) v -> 0 < MU -> 0 < H -> 0 < sigma -> 0 < h -> 0 < dmax -> positive_at_bonds nbrs m -> positive_at_bonds nbrs scf ->
  forall edp lam f, ep_inputs (N:=RN) n nbrs x y v m theta dmg edp lam -> per_point (N:=RN) nbrs scf -> length f = n ->
  Forall (Rle 0) lam -> trials_below dmax MU H nbrs x y v m theta dmg scf edp ->
  forall f' out, run_kernel (hardening (N:=RN) (update_R dmax) K MU H sigma h x y v m theta dmg scf edp lam) nbrs f = Ok (f', out) ->
  exists out2, run_kernel (hardening (N:=RN) (update_R dmax) K MU H sigma h x y v m theta dmg scf (new_edp (N:=RN) out) (new_lambda (N:=RN) out)) nbrs f = Ok (f', out2) /\
    new_edp (N:=RN) out2 = new_edp (N:=RN) out /\ new_lambda (N:=RN) out2 = new_lambda (N:=RN) out.
Proof. exact hard_again. Qed.
Print Assumptions C15_reevaluation_changes_nothing.

(** Over every history the multiplier grows, whatever the solver returns (the kernel clamps
    negative increments). *)
Theorem C15_multiplier_never_decreases : forall up K MU H sigma h n nbrs x v m scf,
  cloud_ok (N:=RN) n nbrs x x v -> per_point (N:=RN) nbrs m -> per_point (N:=RN) nbrs scf ->
  forall h1 h2 s, length (fst s) = num_bonds nbrs -> length (snd s) = length nbrs -> history_fits nbrs n h1 -> history_fits nbrs n h2 ->
  exists s1 s2, history (hard_eval (N:=RN) up K MU H sigma h nbrs x v m scf) s h1 = Ok s1 /\
    history (hard_eval (N:=RN) up K MU H sigma h nbrs x v m scf) s (h1 ++ h2) = Ok s2 /\
    all_le (snd s) (snd s1) /\ all_le (snd s1) (snd s2).
Proof. exact hard_history_grows. Qed.
Print Assumptions C15_multiplier_never_decreases.

(** n = 2, lambda = 0, psi = 1/2, alpha = 1, H = 1: an increment is due. *)
Example C15_concrete : let x := update_R 1000 2 0 (1/2) 1 1 in 0 < x /\ 2 * 2 / (2 * ((1 + 1 * x) * (1 + 1 * x))) = 1/2 + 1 * (0 + x).
Proof.
  destruct (C15_increment_solves_the_consistency_condition 1000 2 0 (1/2) 1 1) as [(_ & A & B)|(A & _)]; [lra|lra|lra|lra|lra|lra|lra|split; assumption|lra].
Qed.
Example C15_concrete_run : exists f' out la',
  run_kernel (hardening (N:=RN) (update_R 1000) 1 1 1 1 1 two pulled [1; 1] [1; 1] [0; 0] [0; 0] [1; 1] [0; 0] [0; 0]) pair_nbrs [vzero; vzero] = Ok (f', out) /\
  nth_error (new_lambda (N:=RN) out) 0 = Some la' /\ 0 < la'.
Proof.
  destruct (C15_evaluation_returns_to_hardened_surface 1000 1 1 1 1 1 2 pair_nbrs two pulled [1; 1] [1; 1] [0; 0] [0; 0] [1; 1]) with (edp := [0; 0]) (lam := [0; 0]) (f := [vzero (N:=RN); vzero (N:=RN)])
    as (f' & out & Hrun & _ & _ & _ & HP); try lra; auto using two_inputs, ones_positive; try (repeat constructor; lra).
  { intros [|[|p]] js mp tp s ts A1 A2 A3 A4 HT; cbn [nth_error pair_nbrs] in A1, A2, A3, A4; [| |destruct p; discriminate];
      injection A1 as <-; injection A2 as <-; injection A3 as <-; injection A4 as <-.
    - change (offset pair_nbrs 0) with 0%nat in *. rewrite (trial_eq _ _ _ _ _ _ _ _ _ _ HT (two_trial _)), two_norm. lra.
    - change (offset pair_nbrs 1) with 1%nat in *. destruct HT as [L HT]. destruct ts as [|t [|u ts]]; try discriminate.
      destruct (HT 0%nat 0%nat t eq_refl eq_refl) as (X & XP & Y & YP & ep & E1 & E2 & E3 & E4 & E5 & E6). cbn in E1, E2, E3, E4, E5.
      injection E1 as <-. injection E2 as <-. injection E3 as <-. injection E4 as <-. injection E5 as <-.
      assert (D1 : dist (v3 (N:=RN) 1 0 0) (v3 (N:=RN) 0 0 0) = 1). { apply on_axis; lra. }
      assert (D2 : dist (v3 (N:=RN) 2 0 0) (v3 (N:=RN) 0 0 0) = 2). { apply on_axis; lra. }
      rewrite D1, D2 in E6. cbn. unfold Rsqr. rewrite E6. lra.
  }
  destruct (HP 0%nat [1%nat] 1 0 1 0 eq_refl eq_refl eq_refl eq_refl eq_refl) as (tr & td & la' & T1 & _ & T3 & (_ & _ & _ & Y)).
  exists f', out, la'. split; [exact Hrun|]. split; [exact T3|].
  pose proof (trial_eq _ _ _ _ _ _ _ _ _ _ T1 (two_trial (1 * 15 * 1 / 1))). subst tr. change (offset pair_nbrs 0) with 0%nat in Y. rewrite two_norm in Y.
  apply Y. pose proof small_yield. lra.
Qed.

(** ** C16: the viscoelastic solid *)

(** End to end: any number of steps of any sizes.  If the extension of a bond runs linearly
    between the configurations and b solves tau b' = e - b with b(t0) the stored back
    extension, then the back extension stored after the last step is b at the final time. *)
Theorem C16_steps_integrate_the_standard_linear_solid_exactly : forall K MU lam tau n nbrs x v m dmg,
  0 < tau -> length x = n -> length v = n -> (length nbrs <= n)%nat -> Forall (Forall (fun j => (j < n)%nat)) nbrs ->
  length m = length nbrs -> length dmg = num_bonds nbrs ->
  forall sts yN thN edb, length yN = n -> length thN = length nbrs -> length edb = num_bonds nbrs -> steps_fit nbrs n sts ->
  exists y th edb', visco_steps (N:=RN) exp K MU lam tau nbrs x v m dmg (yN, thN, edb) sts = Ok (y, th, edb') /\
    length edb' = num_bonds nbrs /\
    forall p k j e b t0, bond_at nbrs p k j -> ext_at x yN dmg thN p k j (e t0) -> follows x dmg p k j e t0 sts ->
      relaxes tau e b t0 (t0 + total_time (map fst sts)) -> nth_error edb k = Some (b t0) ->
      nth_error edb' k = Some (b (t0 + total_time (map fst sts))).
Proof.
  intros K MU lam tau n nbrs x v m dmg H1 H2 H3 H4 H5 H6 H7 sts yN thN edb H8 H9 H10 H11.
  destruct (visco_steps_exact K MU lam tau n nbrs x v m dmg H1 H2 H3 H4 H5 H6 H7 sts (yN, thN, edb) (conj H8 (conj H9 H10)) H11) as ([[y th] edb'] & E & (_ & _ & L) & B).
  exists y, th, edb'. split; [exact E|]. split; [exact L|exact B].
Qed.
Print Assumptions C16_steps_integrate_the_standard_linear_solid_exactly.

(** Such a b exists: for every linear extension and every start. *)
Theorem C16_relaxation_exists : forall tau e0 s b0 t0 t1, 0 < tau ->
  exists b, b t0 = b0 /\ relaxes tau (fun t => e0 + s * (t - t0)) b t0 t1.
Proof. exact relaxes_exists. Qed.
Print Assumptions C16_relaxation_exists.

(** The update alone, over piecewise linear extensions. *)
Theorem C16_update_is_exact_for_piecewise_linear_extension : forall tau e b, 0 < tau -> forall dts t,
  Forall (Rlt 0) dts -> piecewise_linear e t dts -> relaxes tau e b t (t + total_time dts) ->
  back_steps tau e t (b t) dts = b (t + total_time dts).
Proof. exact pieces. Qed.
Print Assumptions C16_update_is_exact_for_piecewise_linear_extension.

(** Constant extension: each step moves towards the extension without reaching it ... *)
Theorem C16_constant_extension_never_overshoots : forall tau dt e b, 0 < tau -> 0 < dt ->
  let b' := visco_edb (N:=RN) exp tau dt e e b in
  (b < e -> b < b' < e) /\ (b = e -> b' = e) /\ (e < b -> e < b' < b) /\ Rabs (b' - e) <= Rabs (b - e).
Proof. exact const_between. Qed.
Print Assumptions C16_constant_extension_never_overshoots.
(** ... the steps converge to it ... *)
Theorem C16_constant_extension_converges : forall tau dt e b, 0 < tau -> 0 < dt ->
  Un_cv (fun k => back_steps tau (fun _ => e) 0 b (repeat dt k)) e.
Proof. exact const_limit. Qed.
Print Assumptions C16_constant_extension_converges.
(** ... and any number of steps of any sizes equal one step of their total size. *)
Theorem C16_constant_extension_steps_add_up : forall tau e dts t b, 0 < tau -> Forall (Rlt 0) dts -> dts <> [] ->
  back_steps tau (fun _ => e) t b dts = visco_edb (N:=RN) exp tau (total_time dts) e e b.
Proof. exact const_merge. Qed.
Print Assumptions C16_constant_extension_steps_add_up.

(** lambda_i = 0: the force is that of the elastic solid (influence function 1). *)
Theorem C16_no_relaxation_is_elastic : forall K MU tau dt h n nbrs x yN y v m thN th dmg edb f,
  visco_inputs (N:=RN) n nbrs x yN y v m thN th dmg edb -> length f = n -> 
  exists f' out out2, run_kernel (visco (N:=RN) exp K MU 0 tau dt x yN y v m thN th dmg edb) nbrs f = Ok (f', out) /\
    run_kernel (lps (N:=RN) (fun _ _ => 1) K MU h 0 None x y v m th dmg None) nbrs f = Ok (f', out2).
Proof. exact visco_elastic. Qed.
Print Assumptions C16_no_relaxation_is_elastic.

(** Two points, pulled to twice their distance in one step of 1 and held for a step of 2,
    tau = 1: the stored back extension of the first bond. *)
Example C16_concrete : exists y th edb',
  visco_steps (N:=RN) exp 1 1 (1/2) 1 pair_nbrs two [1; 1] [1; 1] [0; 0] (pulled, [0; 0], [0; 0]) [(1, (pulled, [0; 0])); (2, (pulled, [0; 0]))] = Ok (y, th, edb') /\
  exists b, b 0 = 0 /\ relaxes 1 (fun _ => 1) b 0 3 /\ nth_error edb' 0 = Some (b 3).
Proof.
  destruct (C16_relaxation_exists 1 1 0 0 0 3) as (b & B0 & HR); [lra|].
  assert (HE : forall th0, nth_error th0 0 = Some 0 -> ext_at two pulled [0; 0] th0 0 0 1 1).
  { intros th0 Hth. exists (v3 (N:=RN) 0 0 0), (v3 (N:=RN) 1 0 0), (v3 (N:=RN) 0 0 0), (v3 (N:=RN) 2 0 0), 0, 0. repeat (split; [first [reflexivity|exact Hth]|]).
    assert (D1 : dist (v3 (N:=RN) 0 0 0) (v3 (N:=RN) 1 0 0) = 1) by (apply on_axis; lra).
    assert (D2 : dist (v3 (N:=RN) 0 0 0) (v3 (N:=RN) 2 0 0) = 2) by (apply on_axis; lra).
    rewrite D1, D2. field. }
  destruct (C16_steps_integrate_the_standard_linear_solid_exactly 1 1 (1/2) 1 2 pair_nbrs two [1; 1] [1; 1] [0; 0]) with (sts := [(1, (pulled, [0; 0])); (2, (pulled, [0; 0]))]) (yN := pulled) (thN := [0; 0]) (edb := [0; 0])
    as (y & th & edb' & E & _ & HB); try lra; auto; try (repeat constructor; cbn; auto; lra).
  exists y, th, edb'. split; [exact E|]. exists b. split; [exact B0|].
  assert (HR' : relaxes 1 (fun _ => 1) b 0 3).
  { intros t Ht. replace ((1 - b t) / 1) with ((1 + 0 * (t - 0) - b t) / 1) by field. now apply HR. }
  split; [exact HR'|]. specialize (HB 0%nat 0%nat 1%nat (fun _ => 1) b 0). cbn [map fst total_time fold_right] in HB.
  replace (0 + (1 + (2 + 0))) with 3 in HB by ring. apply HB; auto.
  - exists [1%nat], 0%nat. auto.
  - cbn [follows]. repeat (split; auto); intros t Ht; field; lra.
  - cbn. now rewrite B0.
Qed.
