From Coq Require Import Reals String Lra.
From Verif Require Import Base Num ModelScalar SpecDamage SpecScalar ProofData.
Open Scope R_scope.

(** ** Influence functions *)
Definition parab (z h : R) : R := infl_parabolic (N:=RN) z h.
Definition gauss (z h : R) : R := infl_gaussian (N:=RN) exp z h.
Lemma parabolic_inside zeta h : 0 < h -> zeta <= h ->
  parab zeta h =
  if Rltb (zeta / h) (1/2) then 1 else -4 * (zeta/h) * (zeta/h) + 4 * (zeta/h).
Proof.
  intros Hh Hz. unfold parab, infl_parabolic; to_R.
  destruct (Rltb h zeta) eqn:E; [apply Rltb_true in E; lra|].
  destruct (Rltb (zeta/h) (1/2)); auto.
Qed.

Lemma scaled_le zeta h k : 0 < h -> (zeta / h <= k <-> zeta <= k * h).
Proof.
  intros Hh. split; intros H.
  - apply Rmult_le_compat_r with (r := h) in H; [|lra].
    unfold Rdiv in H. rewrite Rmult_assoc, Rinv_l in H; lra.
  - apply Rmult_le_reg_r with h; auto. unfold Rdiv. rewrite Rmult_assoc, Rinv_l; lra.
Qed.
Lemma scaled_lt zeta h k : 0 < h -> (zeta / h < k <-> zeta < k * h).
Proof.
  intros Hh. split; intros H.
  - apply Rmult_lt_compat_r with (r := h) in H; [|lra].
    unfold Rdiv in H. rewrite Rmult_assoc, Rinv_l in H; lra.
  - apply Rmult_lt_reg_r with h; auto. unfold Rdiv. rewrite Rmult_assoc, Rinv_l; lra.
Qed.
Lemma scaled_nonneg zeta h : 0 < h -> 0 <= zeta -> 0 <= zeta / h.
Proof. intros. apply Rmult_le_pos; auto. left. now apply Rinv_0_lt_compat. Qed.

Lemma parabolic_range zeta h : 0 < h -> 0 <= zeta <= h ->
  0 <= parab zeta h <= 1.
Proof.
  intros Hh [H0 H1]. rewrite parabolic_inside by auto.
  assert (A : zeta / h <= 1) by (apply (proj2 (scaled_le _ _ _ Hh)); lra).
  pose proof (scaled_nonneg zeta h Hh H0).
  destruct (Rltb (zeta/h) (1/2)); [lra|].
  pose proof (Rle_0_sqr (2 * (zeta/h) - 1)). unfold Rsqr in *. nra.
Qed.

Lemma parabolic_flat zeta h : 0 < h -> zeta <= h / 2 -> parab zeta h = 1.
Proof.
  intros Hh H0. rewrite parabolic_inside by lra.
  destruct (Rltb (zeta/h) (1/2)) eqn:E; auto.
  apply Rltb_false in E.
  assert (A : zeta / h <= 1/2) by (apply (proj2 (scaled_le _ _ _ Hh)); lra).
  replace (zeta/h) with (1/2) by lra. lra.
Qed.

Lemma parabolic_tail zeta h : 0 < h -> h / 2 <= zeta <= h ->
  parab zeta h = 4 * (zeta / h) * (1 - zeta / h).
Proof.
  intros Hh [H0 H1]. rewrite parabolic_inside by lra.
  destruct (Rltb (zeta/h) (1/2)) eqn:E; [|ring].
  apply Rltb_true in E. apply (proj1 (scaled_lt _ _ _ Hh)) in E. lra.
Qed.

Lemma parabolic_beyond zeta h : 0 < h -> h <= zeta -> parab zeta h = 0.
Proof.
  intros Hh H0. destruct (Req_dec zeta h) as [->|].
  - rewrite parabolic_tail by lra. replace (h/h) with 1 by (field; lra). lra.
  - unfold parab, infl_parabolic; to_R. destruct (Rltb h zeta) eqn:E; auto.
    apply Rltb_false in E. lra.
Qed.

Lemma parabolic_decreases a b h : 0 < h -> h / 2 <= a -> a < b -> b <= h ->
  parab b h < parab a h.
Proof.
  intros Hh H0 H1 H2. rewrite !parabolic_tail by lra.
  set (s := a / h). set (t := b / h).
  assert (1/2 <= s) by (unfold s; apply Rmult_le_reg_r with h; auto; unfold Rdiv at 2; rewrite Rmult_assoc, Rinv_l; lra).
  assert (t <= 1) by (unfold t; apply (proj2 (scaled_le _ _ _ Hh)); lra).
  assert (s < t). { unfold s, t, Rdiv. apply Rmult_lt_compat_r; auto. now apply Rinv_0_lt_compat. }
  nra.
Qed.

(** Continuity through a Lipschitz bound. *)
Definition lip (s : R) : R := if Rle_dec s (1/2) then 1 else if Rle_dec s 1 then 4 * s * (1 - s) else 0.
Lemma lip_mono s t : s <= t -> 0 <= lip s - lip t <= 4 * (t - s).
Proof.
  intros H. unfold lip.
  destruct (Rle_dec s (1/2)), (Rle_dec t (1/2)); try destruct (Rle_dec s 1); try destruct (Rle_dec t 1); try lra.
  - assert (0 <= (2*t-1) <= 1) by lra. replace (1 - 4 * t * (1 - t)) with ((2*t-1)*(2*t-1)) by ring. nra.
  - replace (4 * s * (1 - s) - 4 * t * (1 - t)) with (4 * (t - s) * (t + s - 1)) by ring.
    assert (0 <= t - s) by lra. assert (0 <= t + s - 1 <= 1) by lra. nra.
  - assert (0 <= 1 - s <= 1/2) by lra. nra.
Qed.
Lemma lip_bound s t : Rabs (lip s - lip t) <= 4 * Rabs (s - t).
Proof.
  destruct (Rle_dec s t) as [H|H].
  - destruct (lip_mono s t H). rewrite (Rabs_right (lip s - lip t)) by lra.
    rewrite (Rabs_left1 (s - t)) by lra. lra.
  - assert (H' : t <= s) by lra. destruct (lip_mono t s H').
    rewrite (Rabs_left1 (lip s - lip t)) by lra. rewrite (Rabs_right (s - t)) by lra. lra.
Qed.
Lemma parabolic_lip zeta h : 0 < h -> parab zeta h = lip (zeta / h).
Proof.
  intros Hh. unfold lip. destruct (Rle_dec (zeta/h) (1/2)) as [E|E].
  - apply (proj1 (scaled_le _ _ _ Hh)) in E. apply parabolic_flat; lra.
  - assert (E' : ~ zeta <= 1/2 * h) by (intros C; apply E, (proj2 (scaled_le _ _ _ Hh)); auto).
    destruct (Rle_dec (zeta/h) 1) as [F|F].
    + apply (proj1 (scaled_le _ _ _ Hh)) in F. apply parabolic_tail; lra.
    + assert (F' : ~ zeta <= 1 * h) by (intros C; apply F, (proj2 (scaled_le _ _ _ Hh)); auto).
      apply parabolic_beyond; lra.
Qed.
Lemma parabolic_continuous h zeta : 0 < h -> continuity_pt (fun z => parab z h) zeta.
Proof.
  intros Hh eps He. exists (eps * h / 4). split; [nra|].
  intros z [_ Hz]. simpl in *. unfold R_dist in *.
  rewrite !parabolic_lip by auto.
  eapply Rle_lt_trans; [apply lip_bound|].
  replace (z/h - zeta/h) with ((z - zeta) / h) by (field; lra).
  unfold Rdiv. rewrite Rabs_mult, (Rabs_right (/ h)) by (left; apply Rinv_0_lt_compat; auto).
  apply Rmult_lt_reg_r with h; auto.
  rewrite <- !Rmult_assoc. rewrite (Rmult_assoc _ (/h)), Rinv_l by lra. nra.
Qed.

Lemma gauss_val zeta h : gauss zeta h = exp (- (zeta * zeta) / (h * h * (2/5) * (2/5))).
Proof. reflexivity. Qed.
Lemma gaussian_range zeta h : 0 < h -> 0 < gauss zeta h <= 1.
Proof.
  intros Hh. rewrite gauss_val. split; [apply exp_pos|].
  rewrite <- exp_0. assert (0 < h * h * (2/5) * (2/5)) by nra.
  assert (- (zeta * zeta) / (h * h * (2/5) * (2/5)) <= 0).
  { unfold Rdiv. pose proof (Rinv_0_lt_compat _ H).
    pose proof (Rle_0_sqr zeta); unfold Rsqr in *. nra. }
  destruct H0 as [H0|H0]; [left; now apply exp_increasing|rewrite H0; lra].
Qed.
Lemma gaussian_decreases a b h : 0 < h -> 0 <= a -> a < b ->
  gauss b h < gauss a h.
Proof.
  intros Hh Ha Hab. rewrite !gauss_val. apply exp_increasing.
  assert (0 < h * h * (2/5) * (2/5)) by nra.
  unfold Rdiv. apply Rmult_lt_compat_r; [now apply Rinv_0_lt_compat|nra].
Qed.

Lemma predefined_known name p : predefined name = Ok p ->
  In name ["One"; "Parabolic Decay"; "Gaussian"]%string.
Proof.
  unfold predefined.
  destruct (String.eqb_spec name "One"); [subst; cbn; auto|].
  destruct (String.eqb_spec name "Parabolic Decay"); [subst; cbn; auto|].
  destruct (String.eqb_spec name "Gaussian"); [subst; cbn; auto|discriminate].
Qed.
Lemma predefined_unknown name : ~ In name ["One"; "Parabolic Decay"; "Gaussian"]%string ->
  predefined name = Err.
Proof.
  intros H. cbn in H. unfold predefined.
  destruct (String.eqb_spec name "One"); [subst; tauto|].
  destruct (String.eqb_spec name "Parabolic Decay"); [subst; tauto|].
  destruct (String.eqb_spec name "Gaussian"); [subst; tauto|auto].
Qed.
Lemma set_unknown {N : Num} compile (st : infl_state N) name :
  ~ In name ["One"; "Parabolic Decay"; "Gaussian"]%string ->
  set_influence compile st name =
  match compile (if contains "value" name then name else ("value = " ++ name)%string) with
  | Some f => Ok {| is_sel := Some PUser; is_body := Some f |}
  | None => Err
  end.
Proof.
  intros H. cbn in H. unfold set_influence.
  destruct (String.eqb_spec name "One"); [subst; tauto|].
  destruct (String.eqb_spec name "Parabolic Decay"); [subst; tauto|].
  destruct (String.eqb_spec name "Gaussian"); [subst; tauto|auto].
Qed.

Lemma contains_spec t s : contains t s = true <-> exists a b, s = (a ++ t ++ b)%string.
Proof.
  assert (P : forall t s, String.prefix t s = true <-> exists b, s = (t ++ b)%string).
  { clear. induction t; intros s; cbn; [split; [eauto|destruct s; reflexivity]|].
    destruct s as [|a0 s].
    { split; intros H.
      - cbn in H. discriminate H.
      - destruct H as (b & E). discriminate E. }
    cbn [String.prefix].
    destruct (Ascii.ascii_dec a a0) as [->|n].
    - rewrite IHt. split; intros (b & E); exists b; [now subst|now injection E].
    - split; [discriminate|]. intros (b & E). injection E as E1 E2. congruence. }
  induction s as [|a s IHs].
  - cbn [contains]. destruct (String.prefix t "") eqn:E.
    + apply P in E as (b & E). split; auto. intros _. exists ""%string, b. exact E.
    + split; intros H; [discriminate H|]. destruct H as (a & b & E'). destruct a; [|discriminate].
      assert (X : String.prefix t "" = true) by (apply P; exists b; exact E'). congruence.
  - cbn [contains]. destruct (String.prefix t (String a s)) eqn:E.
    + apply P in E as (b & E). split; auto. intros _. exists ""%string, b. exact E.
    + rewrite IHs. split.
      * intros (u & v & ->). exists (String a u), v. reflexivity.
      * intros (u & v & E'). destruct u as [|c u].
        -- assert (X : String.prefix t (String a s) = true) by (apply P; exists v; exact E'). congruence.
        -- injection E' as _ E'. exists u, v. exact E'.
Qed.

(** ** Elastic constants *)
Lemma young_pos m : 0 < young m.
Proof.
  destruct m as [K G HK HG]; unfold young; cbn.
  apply Rmult_lt_0_compat; [nra|apply Rinv_0_lt_compat; lra].
Qed.

Lemma two_constants (p : elastic_params RN) : num_constants p = 2%nat ->
  exists K G, bulk_modulus p = Ok K /\ shear_modulus p = Ok G.
Proof.
  unfold num_constants, bulk_modulus, shear_modulus.
  destruct p as [[] [] [] [] s1 s2]; cbn; try discriminate; intros _; eauto.
  destruct (flag s1), (flag s2); eauto.
Qed.

Lemma bulk_right (p : elastic_params RN) m : describes p m -> no_plane p ->
  num_constants p = 2%nat -> bulk_modulus p = Ok (iso_K m : T RN).
Proof.
  intros (HK & HG & HE & Hn) [N1 N2] C. unfold bulk_modulus. rewrite C; cbn [Nat.eqb negb].
  destruct p as [b g e n s1 s2]. unfold num_constants in C. cbn in *.
  assert (F1 : flag s1 = false) by (destruct s1 as [[]|]; auto; congruence).
  assert (F2 : flag s2 = false) by (destruct s2 as [[]|]; auto; congruence).
  rewrite F1, F2.
  destruct m as [K G PK PG]; unfold young, poisson in *; cbn in *.
  destruct b; [rewrite (HK _ eq_refl); auto|].
  destruct g, e, n; try discriminate C.
  - rewrite (HG _ eq_refl), (HE _ eq_refl). f_equal. field. repeat split; try lra. nra.
  - rewrite (HG _ eq_refl), (Hn _ eq_refl). f_equal. field. repeat split; lra.
  - rewrite (HE _ eq_refl), (Hn _ eq_refl). f_equal. field. repeat split; lra.
Qed.
Lemma shear_right (p : elastic_params RN) m : describes p m ->
  num_constants p = 2%nat -> shear_modulus p = Ok (iso_G m : T RN).
Proof.
  intros (HK & HG & HE & Hn) C. unfold shear_modulus. rewrite C; cbn [Nat.eqb negb].
  destruct p as [b g e n s1 s2]. unfold num_constants in C. cbn in *.
  destruct m as [K G PK PG]; unfold young, poisson in *; cbn in *.
  destruct g; [rewrite (HG _ eq_refl); auto|].
  destruct b, e, n; try discriminate C.
  - rewrite (HK _ eq_refl), (HE _ eq_refl). f_equal. field. repeat split; try lra. nra.
  - rewrite (HK _ eq_refl), (Hn _ eq_refl). f_equal. field. repeat split; lra.
  - rewrite (HE _ eq_refl), (Hn _ eq_refl). f_equal. field. repeat split; lra.
Qed.

Lemma wrong_count (p : elastic_params RN) : num_constants p <> 2%nat ->
  bulk_modulus p = Err /\ shear_modulus p = Err.
Proof.
  intros H. unfold bulk_modulus, shear_modulus.
  apply Nat.eqb_neq in H. rewrite H. auto.
Qed.

(** Every admissible pair is the pair of one isotropic material. *)
Lemma iso_of_E_nu E nu : 0 < E -> -1 < nu < 1/2 ->
  exists m, young m = E /\ poisson m = nu.
Proof.
  intros HE Hn.
  assert (PK : 0 < E / (3 * (1 - 2 * nu))) by (apply Rmult_lt_0_compat; [lra|apply Rinv_0_lt_compat; lra]).
  assert (PG : 0 < E / (2 * (1 + nu))) by (apply Rmult_lt_0_compat; [lra|apply Rinv_0_lt_compat; lra]).
  exists {| iso_K := _; iso_G := _; iso_K_pos := PK; iso_G_pos := PG |}.
  unfold young, poisson; cbn. split; field; repeat split; try lra; nra.
Qed.
Lemma iso_of_G_nu G nu : 0 < G -> -1 < nu < 1/2 ->
  exists m, iso_G m = G /\ poisson m = nu.
Proof.
  intros HE Hn.
  assert (PK : 0 < (2 * G * (1 + nu)) / (3 * (1 - 2 * nu))) by (apply Rmult_lt_0_compat; [nra|apply Rinv_0_lt_compat; lra]).
  exists {| iso_K := _; iso_G := _; iso_K_pos := PK; iso_G_pos := HE |}.
  unfold young, poisson; cbn. split; [lra|]. field; repeat split; try lra; nra.
Qed.
Lemma iso_of_K_nu K nu : 0 < K -> -1 < nu < 1/2 ->
  exists m, iso_K m = K /\ poisson m = nu.
Proof.
  intros HE Hn.
  assert (PG : 0 < (3 * K * (1 - 2 * nu)) / (2 * (1 + nu))) by (apply Rmult_lt_0_compat; [nra|apply Rinv_0_lt_compat; lra]).
  exists {| iso_K := _; iso_G := _; iso_K_pos := HE; iso_G_pos := PG |}.
  unfold young, poisson; cbn. split; [lra|]. field; repeat split; try lra; nra.
Qed.
Lemma iso_of_E_G E G : 0 < G -> 0 < E < 3 * G ->
  exists m, young m = E /\ iso_G m = G.
Proof.
  intros HE Hn.
  assert (PK : 0 < (E * G) / (3 * (3 * G - E))) by (apply Rmult_lt_0_compat; [nra|apply Rinv_0_lt_compat; lra]).
  exists {| iso_K := _; iso_G := _; iso_K_pos := PK; iso_G_pos := HE |}.
  unfold young, poisson; cbn. split; [|lra]. field; repeat split; try lra; nra.
Qed.
Lemma iso_of_K_E K E : 0 < K -> 0 < E < 9 * K ->
  exists m, iso_K m = K /\ young m = E.
Proof.
  intros HE Hn.
  assert (PG : 0 < (3 * K * E) / (9 * K - E)) by (apply Rmult_lt_0_compat; [nra|apply Rinv_0_lt_compat; lra]).
  exists {| iso_K := _; iso_G := _; iso_K_pos := HE; iso_G_pos := PG |}.
  unfold young, poisson; cbn. split; [lra|]. field; repeat split; try lra; nra.
Qed.
