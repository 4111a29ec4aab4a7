(** * C13 influence functions, C20 critical time step, C41 elastic constants *)
From Coq Require Import Reals Lra String.
From Verif Require Import Base Num ModelScalar SpecDamage SpecScalar ProofData ProofScalar ProofStep.
Open Scope R_scope.

(** ** C13 *)
Definition builtin_names : list string := ["One"; "Parabolic Decay"; "Gaussian"]%string.

(** Whatever built-in function is selected, its value on a bond not longer than the
    horizon lies in [0,1]. *)
Theorem C13_builtin_values_in_unit_interval : forall name p (st : infl_state RN) zeta h,
  predefined name = Ok p -> 0 < h -> 0 <= zeta <= h ->
  0 <= call_influence (N:=RN) exp st p zeta h <= 1.
Proof.
  intros name p st zeta h E Hh Hz.
  assert (p <> PUser).
  { unfold predefined in E. destruct (String.eqb name "One"); [congruence|].
    destruct (String.eqb name "Parabolic Decay"); [congruence|].
    destruct (String.eqb name "Gaussian"); congruence. }
  destruct p; try easy; cbn [call_influence].
  - unfold infl_one; to_R; lra.
  - exact (parabolic_range zeta h Hh Hz).
  - destruct (gaussian_range zeta h Hh). split; [left; exact H0|exact H1].
Qed.
Print Assumptions C13_builtin_values_in_unit_interval.

Theorem C13_parabolic_one_up_to_half : forall zeta h, 0 < h -> zeta <= h / 2 ->
  infl_parabolic (N:=RN) zeta h = (1 : T RN).
Proof. exact parabolic_flat. Qed.
Theorem C13_parabolic_decreases_to_zero : forall h, 0 < h ->
  (forall a b, h / 2 <= a -> a < b -> b <= h -> infl_parabolic (N:=RN) b h < infl_parabolic (N:=RN) a h) /\
  (forall zeta, h <= zeta -> infl_parabolic (N:=RN) zeta h = (0 : T RN)).
Proof.
  intros h Hh. split; [intros a b; exact (parabolic_decreases a b h Hh)|intros z; exact (parabolic_beyond z h Hh)].
Qed.
Theorem C13_parabolic_continuous : forall h, 0 < h ->
  forall zeta, continuity_pt (fun z => infl_parabolic (N:=RN) z h) zeta.
Proof. intros h Hh zeta. exact (parabolic_continuous h zeta Hh). Qed.
Theorem C13_gaussian_positive_and_strictly_decreasing : forall h, 0 < h ->
  (forall zeta, 0 < infl_gaussian (N:=RN) exp zeta h) /\
  (forall a b, 0 <= a -> a < b -> infl_gaussian (N:=RN) exp b h < infl_gaussian (N:=RN) exp a h).
Proof.
  intros h Hh. split; [intros z; exact (proj1 (gaussian_range z h Hh))|intros a b; exact (gaussian_decreases a b h Hh)].
Qed.
Print Assumptions C13_parabolic_one_up_to_half.
Print Assumptions C13_parabolic_decreases_to_zero.
Print Assumptions C13_parabolic_continuous.
Print Assumptions C13_gaussian_positive_and_strictly_decreasing.

(** A predefined function is found exactly for the three names. *)
Theorem C13_unknown_predefined_name_is_error : forall name,
  (In name builtin_names -> exists p, predefined name = Ok p) /\
  (~ In name builtin_names -> predefined name = Err).
Proof.
  intros name. split; [|exact (predefined_unknown name)].
  intros [<-|[<-|[<-|[]]]]; cbn; eauto.
Qed.
(** Selecting: a text that is no built-in name and that the expression compiler refuses
    (after "value = " was put in front unless the text mentions "value") is an error. *)
Theorem C13_unusable_selection_is_error : forall (N : Num) compile (st : infl_state N) name,
  ~ In name builtin_names ->
  ((exists a b, name = (a ++ "value" ++ b)%string) -> compile name = None) ->
  ((~ exists a b, name = (a ++ "value" ++ b)%string) -> compile ("value = " ++ name)%string = None) ->
  set_influence compile st name = Err.
Proof.
  intros N compile st name Hn H1 H2. rewrite set_unknown by exact Hn.
  destruct (contains "value" name) eqn:E.
  - rewrite H1; [auto|]. now apply contains_spec.
  - rewrite H2; [auto|]. intros C. apply contains_spec in C. congruence.
Qed.
(** After any history of selections the function in force is the one selected by the last
    accepted selection, and the constant function if there was none. *)
Theorem C13_unset_means_constant : forall (N : Num) compile expf names,
  (forall n, In n names -> forall st : infl_state N, set_influence compile st n = Err) ->
  exists p, get_influence (set_many compile (infl_init (N:=N)) names) = Ok p /\
    forall zeta h, call_influence expf (set_many compile (infl_init (N:=N)) names) p zeta h = ofZ 1.
Proof.
  intros N compile expf names H. exists POne.
  assert (E : set_many compile (infl_init (N:=N)) names = infl_init).
  { unfold set_many. induction names as [|n t IH]; [reflexivity|]. cbn [fold_left].
    rewrite H by (now left). apply IH. intros; apply H; now right. }
  rewrite E. split; reflexivity.
Qed.
Theorem C13_last_selection_in_force : forall (N : Num) compile expf before name after (st : infl_state N),
  In name builtin_names ->
  (forall n, In n after -> forall st' : infl_state N, set_influence compile st' n = Err) ->
  exists p, predefined name = Ok p /\
    get_influence (set_many compile st (before ++ name :: after)) = Ok p /\
    forall zeta h, call_influence expf (set_many compile st (before ++ name :: after)) p zeta h
                 = call_influence expf st p zeta h.
Proof.
  intros N compile expf before name after st Hin Haft.
  unfold set_many. rewrite fold_left_app. cbn [fold_left].
  set (s1 := fold_left _ before st).
  assert (K : forall s, fold_left (fun (s : infl_state N) (n : string) =>
      match set_influence compile s n with Ok s' => s' | _ => s end) after s = s).
  { induction after as [|n t IH]; intros s; [reflexivity|]. cbn [fold_left].
    rewrite Haft by (now left). apply IH. intros; apply Haft; now right. }
  rewrite K.
  destruct Hin as [<-|[<-|[<-|[]]]]; cbn; eauto.
Qed.
Print Assumptions C13_unknown_predefined_name_is_error.
Print Assumptions C13_unusable_selection_is_error.
Print Assumptions C13_unset_means_constant.
Print Assumptions C13_last_selection_in_force.

Example C13_ex_parabolic : infl_parabolic (N:=RN) (3/4) 1 = (3/4 : T RN).
Proof.
  etransitivity; [apply (parabolic_tail (3/4) 1); lra|]. to_R. lra.
Qed.
Example C13_ex_names : predefined "Gaussian" = Ok PGaussian /\ predefined "gaussian" = Err.
Proof. split; reflexivity. Qed.
Example C13_ex_user : forall st : infl_state RN,
  set_influence (fun t => if String.eqb t "value = zeta" then Some (fun z _ => z) else None) st "zeta"
  = Ok {| is_sel := Some PUser; is_body := Some (fun z _ => z) |} /\
  set_influence (fun t => if String.eqb t "value = zeta" then Some (fun z _ => z) else None) st "Parabola" = Err.
Proof. split; reflexivity. Qed.

(** ** C41 *)
Theorem C41_any_pair_gives_the_bulk_modulus : forall (p : elastic_params RN) (m : isotropic),
  describes p m -> no_plane p -> num_constants p = 2%nat -> bulk_modulus p = Ok (iso_K m : T RN).
Proof. exact bulk_right. Qed.
Theorem C41_any_pair_gives_the_shear_modulus : forall (p : elastic_params RN) (m : isotropic),
  describes p m -> num_constants p = 2%nat -> shear_modulus p = Ok (iso_G m : T RN).
Proof. exact shear_right. Qed.
Theorem C41_independent_of_the_pair : forall (p q : elastic_params RN) (m : isotropic),
  describes p m -> describes q m -> no_plane p -> no_plane q ->
  num_constants p = 2%nat -> num_constants q = 2%nat ->
  bulk_modulus p = bulk_modulus q /\ shear_modulus p = shear_modulus q.
Proof.
  intros p q m Dp Dq Np Nq Cp Cq.
  rewrite (bulk_right p m), (bulk_right q m), (shear_right p m), (shear_right q m); auto.
Qed.
Theorem C41_other_counts_rejected : forall p : elastic_params RN,
  num_constants p <> 2%nat -> bulk_modulus p = Err /\ shear_modulus p = Err.
Proof. exact wrong_count. Qed.
(** Every pair in the admissible range is the pair of some isotropic material, so the
    theorems above cover all of them. *)
Theorem C41_admissible_pairs_are_covered :
  (forall K G, 0 < K -> 0 < G -> exists m, iso_K m = K /\ iso_G m = G) /\
  (forall K E, 0 < K -> 0 < E < 9 * K -> exists m, iso_K m = K /\ young m = E) /\
  (forall K nu, 0 < K -> -1 < nu < 1/2 -> exists m, iso_K m = K /\ poisson m = nu) /\
  (forall E G, 0 < G -> 0 < E < 3 * G -> exists m, young m = E /\ iso_G m = G) /\
  (forall G nu, 0 < G -> -1 < nu < 1/2 -> exists m, iso_G m = G /\ poisson m = nu) /\
  (forall E nu, 0 < E -> -1 < nu < 1/2 -> exists m, young m = E /\ poisson m = nu).
Proof.
  repeat split.
  - intros K G HK HG. exists {| iso_K := K; iso_G := G; iso_K_pos := HK; iso_G_pos := HG |}. auto.
  - exact iso_of_K_E.
  - exact iso_of_K_nu.
  - exact iso_of_E_G.
  - exact iso_of_G_nu.
  - exact iso_of_E_nu.
Qed.
(** The plane strain option does not act the same way whichever pair is given. *)
Theorem C41_plane_options_depend_on_the_pair_refuted :
  exists (p q : elastic_params RN) (m : isotropic),
    describes p m /\ describes q m /\ num_constants p = 2%nat /\ num_constants q = 2%nat /\
    p_plane_strain p = Some true /\ p_plane_strain q = Some true /\
    bulk_modulus p <> bulk_modulus q.
Proof.
  assert (H3 : 0 < 3) by lra.
  set (m := {| iso_K := 3; iso_G := 3; iso_K_pos := H3; iso_G_pos := H3 |}).
  exists {| p_bulk := Some (3 : T RN); p_shear := Some (3 : T RN); p_young := None; p_poisson := None;
            p_plane_strain := Some true; p_plane_stress := None |},
         {| p_bulk := None; p_shear := None; p_young := Some (27/4 : T RN); p_poisson := Some (1/8 : T RN);
            p_plane_strain := Some true; p_plane_stress := None |}, m.
  repeat split; try (cbn; congruence).
  - cbn. intros v E. injection E as <-. unfold young; cbn. field.
  - cbn. intros v E. injection E as <-. unfold poisson; cbn. field.
  - cbn. intros E. injection E as E. revert E. to_R. lra.
Qed.
Print Assumptions C41_any_pair_gives_the_bulk_modulus.
Print Assumptions C41_any_pair_gives_the_shear_modulus.
Print Assumptions C41_independent_of_the_pair.
Print Assumptions C41_other_counts_rejected.
Print Assumptions C41_admissible_pairs_are_covered.
Print Assumptions C41_plane_options_depend_on_the_pair_refuted.

Example C41_ex : exists p : elastic_params RN, num_constants p = 2%nat /\ no_plane p /\
  p_young p = Some (27/4 : T RN) /\ p_poisson p = Some (1/8 : T RN) /\
  bulk_modulus p = Ok (3 : T RN) /\ shear_modulus p = Ok (3 : T RN).
Proof.
  exists {| p_bulk := None; p_shear := None; p_young := Some (27/4 : T RN); p_poisson := Some (1/8 : T RN);
            p_plane_strain := None; p_plane_stress := Some false |}.
  repeat split; try (cbn; congruence); cbn; f_equal; to_R; field.
Qed.

(** ** C20 *)
Theorem C20_step_is_least_stable_step : forall b : block RN, block_ok b ->
  exists s : R, critical_step b = Ok (s : T RN) /\ 0 < s /\
    (forall step, block_point_step b step -> s <= step) /\
    (block_point_step b s \/ (s = 10 ^ 50 /\ forall step, block_point_step b step -> 10 ^ 50 <= step)).
Proof.
  intros b OK. destruct (critical_min b OK) as (s & E & C).
  assert (Q : cap = 10 ^ 50) by (exact cap_pow).
  exists s. split; [exact E|]. split; [exact (capped_pos _ _ C (fun v => block_step_pos b v OK))|].
  destruct C as (_ & C2 & C3). split; [exact C2|].
  destruct C3 as [->|C3]; [right|left; exact C3]. rewrite <- Q. split; [reflexivity|exact C2].
Qed.
Theorem C20_step_scales_with_sqrt_density : forall (b : block RN) k s s', block_ok b -> 0 < k ->
  critical_step b = Ok (s : T RN) -> s < 10 ^ 50 ->
  critical_step (with_density b (k * bk_rho b)) = Ok (s' : T RN) -> s' < 10 ^ 50 ->
  s' = sqrt k * s.
Proof.
  assert (Q : cap = 10 ^ 50) by (exact cap_pow).
  rewrite <- Q. exact critical_density.
Qed.
Theorem C20_integrator_step_within_every_estimate : forall nprocs (blocks : list (block RN)) safety,
  (0 < nprocs)%nat -> Forall block_ok blocks -> 0 < safety ->
  exists dt : R, explicit_step nprocs blocks None (Some (safety : T RN)) = Ok (dt : T RN) /\ 0 < dt /\
    (forall b s, In b blocks -> critical_step b = Ok (s : T RN) -> dt <= safety * s) /\
    (forall b step, In b blocks -> block_point_step b step -> dt <= safety * step).
Proof.
  intros nprocs blocks safety Hn OK Hs.
  destruct (explicit_min blocks nprocs None (Some (safety : T RN)) Hn OK) as (m & C & B & E).
  exists (m * safety). split; [exact E|].
  assert (P : 0 < m).
  { apply (capped_pos _ _ C). intros s (b & Hb & V). rewrite Forall_forall in OK. exact (block_step_pos b s (OK b Hb) V). }
  split; [nra|]. split.
  - intros b s Hb Es. specialize (B b s Hb Es). nra.
  - intros b s Hb V. destruct C as (_ & C2 & _).
    assert (m <= s) by (apply C2; exists b; auto). nra.
Qed.
Theorem C20_integrator_step_without_factor : forall nprocs (blocks : list (block RN)),
  (0 < nprocs)%nat -> Forall block_ok blocks ->
  exists dt : R, explicit_step nprocs blocks None None = Ok (dt : T RN) /\ 0 < dt /\
    (forall b step, In b blocks -> block_point_step b step -> dt <= step) /\
    (dt = 10 ^ 50 \/ exists b, In b blocks /\ block_point_step b dt).
Proof.
  intros nprocs blocks Hn OK.
  destruct (explicit_min blocks nprocs None None Hn OK) as (m & C & B & E).
  exists m. split; [etransitivity; [exact E|]; f_equal; exact (Rmult_1_r m)|].
  split.
  { apply (capped_pos _ _ C). intros s (b & Hb & V). rewrite Forall_forall in OK. exact (block_step_pos b s (OK b Hb) V). }
  destruct C as (_ & C2 & C3). split; [intros b s Hb V; apply C2; exists b; auto|].
  destruct C3 as [->|C3]; [left; exact cap_pow|right; exact C3].
Qed.
(** A user-supplied step replaces the estimate; the safety factor still applies. *)
Theorem C20_fixed_step_is_used : forall nprocs (blocks : list (block RN)) fixed safety,
  (0 < nprocs)%nat -> Forall block_ok blocks ->
  explicit_step nprocs blocks (Some fixed) (Some (safety : T RN)) = Ok (fixed * safety : T RN) /\
  explicit_step nprocs blocks (Some fixed) None = Ok fixed.
Proof.
  intros nprocs blocks fixed safety Hn OK.
  destruct (explicit_min blocks nprocs (Some fixed) (Some (safety : T RN)) Hn OK) as (m & _ & _ & E).
  destruct (explicit_min blocks nprocs (Some fixed) None Hn OK) as (m' & _ & _ & E').
  split; [exact E|]. etransitivity; [exact E'|]. f_equal. exact (Rmult_1_r fixed).
Qed.
Print Assumptions C20_step_is_least_stable_step.
Print Assumptions C20_step_scales_with_sqrt_density.
Print Assumptions C20_integrator_step_within_every_estimate.
Print Assumptions C20_integrator_step_without_factor.
Print Assumptions C20_fixed_step_is_used.

(** Two points one apart, unit volumes, on two processors, one of which owns nothing. *)
Definition ex_rank : block_data RN :=
  {| bd_volume := [1 : T RN; 1 : T RN]; bd_x := [v3 (N:=RN) 0 0 0; v3 (N:=RN) 1 0 0];
     bd_rows := [(0%nat, [1%nat]); (1%nat, [0%nat])] |}.
Definition ex_block : block RN :=
  {| bk_rho := (1 : T RN); bk_K := (PI : T RN); bk_h := HConst (N:=RN) (1 : T RN);
     bk_ranks := [ex_rank; {| bd_volume := []; bd_x := []; bd_rows := [] |}] |}.
Example C20_ex_ok : block_ok ex_block.
Proof.
  assert (D : dist (v3 (N:=RN) 0 0 0) (v3 (N:=RN) 1 0 0) = 1 /\ dist (v3 (N:=RN) 1 0 0) (v3 (N:=RN) 0 0 0) = 1).
  { unfold dist, Rsqr; cbn; split; (transitivity (sqrt 1); [f_equal; ring|exact sqrt_1]). }
  destruct D as [D1 D2].
  split; [cbn; lra|]. split; [exact PI_RGT_0|]. split; [easy|].
  constructor; [|constructor; [|constructor]].
  - split; [repeat constructor; cbn; lra|]. split; [reflexivity|].
    intros i ns [E|[E|[]]]; injection E as <- <-; eexists; (split; [reflexivity|]); (split; [cbn; lra|]);
      constructor; try constructor; eexists; (split; [reflexivity|]).
    + rewrite D1. lra.
    + rewrite D2. lra.
  - split; [constructor|]. split; [reflexivity|]. intros i ns [].
Qed.
Example C20_ex_step : block_point_step ex_block (1/3).
Proof.
  exists ex_rank. split; [now left|].
  exists (v3 (N:=RN) 0 0 0), [(1, v3 (N:=RN) 1 0 0)].
  split; [exists 0%nat, [1%nat]; cbn; auto 6|]. split; [easy|].
  assert (D : dist (v3 (N:=RN) 0 0 0) (v3 (N:=RN) 1 0 0) = 1)
    by (unfold dist, Rsqr; cbn; transitivity (sqrt 1); [f_equal; ring|exact sqrt_1]).
  unfold stable_step. cbn [sum_bonds]. rewrite D.
  replace (2 * bk_rho ex_block / (1 * (18 * bk_K ex_block / (PI * horizon_at (bk_h ex_block) (v3 (N:=RN) 0 0 0) ^ 4)) / 1 + 0))
    with (1/3 * (1/3)).
  - rewrite sqrt_square; lra.
  - cbn. field. apply PI_neq0.
Qed.
