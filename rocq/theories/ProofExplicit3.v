(** * Proofs for the explicit solver: whole runs *)
From Coq Require Import String Reals Lra.
From Verif Require Import Base Num SpecGlobal ProofGlobal ModelScalar ModelInput ModelNeigh ModelBC SpecDamage SpecBC ProofBC ProofBC2 ModelForce SpecForce ModelExplicit SpecExplicit ProofExplicit ProofExplicit2 ProofMaterial.
Local Open Scope R_scope.

Lemma loop_times (N : Num) compiles run finite sets bo fo M evaluate rho (ti dt : N) k : forall z t s r,
  explicit_loop compiles run finite sets bo fo M evaluate rho k z ti dt t s = Ok r ->
  map fst r = map (fun i => (ti + ofZ (z + 1 + Z.of_nat i) * dt)%num) (seq 0 k).
Proof.
  induction k as [|k IH]; intros z t s r H; cbn [explicit_loop] in H; [injection H as <-; reflexivity|].
  match type of H with bind ?e _ = _ => destruct e as [s'| |] eqn:E; cbn [bind] in H; try discriminate end.
  match type of H with bind ?e _ = _ => destruct e as [r'| |] eqn:E2; cbn [bind] in H; try discriminate end. injection H as <-.
  cbn [map seq fst]. rewrite (IH _ _ _ _ E2). rewrite Z.add_0_r. f_equal. rewrite <- seq_shift, map_map. apply map_ext. intros i.
  replace (z + 1 + 1 + Z.of_nat i)%Z with (z + 1 + Z.of_nat (S i))%Z by lia. reflexivity.
Qed.

Lemma steps_spec floorZ (ti tf dt : R) n : is_floor floorZ -> 0 < dt -> number_of_steps (N:=RN) floorZ ti tf dt = Ok n ->
  ti + IZR n * dt <= tf < ti + (IZR n + 1) * dt /\ (ti <= tf -> (0 <= n)%Z).
Proof.
  intros F D H. unfold number_of_steps in H. destruct (F ((tf - ti) / dt)) as (z & E & B1 & B2).
  match type of H with match ?e with _ => _ end = _ => change (e = Some z) in E end. rewrite E in H. destruct (int_ok z); [|discriminate]. injection H as <-.
  assert (Q : tf - ti = (tf - ti) / dt * dt) by (field; lra).
  assert (IZR z * dt <= tf - ti) by (rewrite Q; apply Rmult_le_compat_r; lra).
  assert (tf - ti < (IZR z + 1) * dt) by (rewrite Q; apply Rmult_lt_compat_r; lra).
  split; [lra|]. intros L. destruct (Z_lt_le_dec z 0) as [C|C]; [|exact C]. exfalso.
  assert (IZR z <= -1) by (apply IZR_le; lia). assert ((IZR z + 1) * dt <= 0) by (replace 0 with (0 * dt) by ring; apply Rmult_le_compat_r; lra). lra.
Qed.

Section Whole.
  Variable floorZ : RN -> option Z.
  Variables (compiles : string -> bool) (run : string -> V3 RN -> RN -> RN -> option RN) (finite : RN -> bool).
  Variable sets : string -> option (list nat).
  Variables (show : RN -> string) (ps : list (bc_params RN)) (cs : conds RN).
  Context {M : Type}.
  Variable evaluate : M -> list RN -> list RN -> list RN -> outcome (M * list RN * option (list RN)).
  Variable rho : list R.
  Hypothesis made : add_all show ps = Ok cs.
  Notation step := (explicit_step compiles run finite sets (cs_boundary cs) (cs_force cs) M evaluate rho).
  Notation start := (initial_evaluation compiles run finite sets (cs_boundary cs) (cs_force cs) M evaluate rho).
  Notation execute := (execute_explicit floorZ compiles run finite sets (cs_boundary cs) (cs_force cs) M evaluate rho).

  Lemma exec_spec restart (ti tf dt : R) s out : execute restart ti tf dt s = Ok out -> complete s ->
    exists n s0, number_of_steps floorZ (ti : RN) tf dt = Ok n /\ length out = S (Z.to_nat n) /\
      nth_error out 0 = Some ((ti : T RN), s0) /\ (if restart then s0 = s else start ti s = Ok s0) /\ complete s0 /\
      bs_gids (e_b s0) = bs_gids (e_b s) /\ bs_x (e_b s0) = bs_x (e_b s) /\ e_y s0 = e_y s /\
      (forall g comp, (comp < 3)%nat -> value_at (e_b s0) TU g comp = value_at (e_b s) TU g comp) /\
      forall i t1 s1 t2 s2, nth_error out i = Some (t1, s1) -> nth_error out (S i) = Some (t2, s2) ->
        t1 = ti + INR i * dt /\ t2 = ti + INR (S i) * dt /\
        step dt t2 t1 s1 = Ok s2 /\ complete s1 /\ complete s2 /\ bs_gids (e_b s2) = bs_gids (e_b s1) /\ bs_x (e_b s2) = bs_x (e_b s1).
  Proof.
    intros H Cs. unfold execute_explicit in H.
    destruct (number_of_steps floorZ (ti : RN) tf dt) as [n| |] eqn:En; cbn [bind] in H; try discriminate.
    match type of H with bind ?e _ = _ => destruct e as [s0| |] eqn:E0; cbn [bind] in H; try discriminate end.
    match type of H with bind ?e _ = _ => destruct e as [r| |] eqn:Er; cbn [bind] in H; try discriminate end. injection H as <-.
    assert (K : complete s0 /\ bs_gids (e_b s0) = bs_gids (e_b s) /\ bs_x (e_b s0) = bs_x (e_b s) /\ e_y s0 = e_y s /\
      (forall g comp, (comp < 3)%nat -> value_at (e_b s0) TU g comp = value_at (e_b s) TU g comp) /\ (if restart then s0 = s else start ti s = Ok s0)).
    { destruct restart; [injection E0 as <-; auto 10|].
      destruct (start_frame _ _ _ _ _ _ _ evaluate rho made ti s s0 Cs E0) as (A & B & C & D & F). auto 10. }
    destruct K as (C0 & K1 & K2 & K3 & K4 & K5).
    assert (Et : ti = ti + IZR 0 * dt) by ring.
    destruct (loop_spec _ _ _ _ _ _ _ evaluate rho made ti dt _ _ _ _ _ Er C0 Et) as (L & J).
    exists n, s0. split; [reflexivity|]. split; [cbn [length]; now rewrite L|]. split; [reflexivity|]. repeat (split; [assumption|]).
    intros i t1 s1 t2 s2 H1 H2. destruct (J i t1 s1 t2 s2 H1 H2) as (J1 & J2 & J3). rewrite Z.add_0_l in J1, J2.
    split; [rewrite INR_IZR_INZ; exact J1|]. split; [|exact J3]. rewrite INR_IZR_INZ. replace (Z.of_nat (S i)) with (Z.of_nat i + 1)%Z by lia. exact J2.
  Qed.

  (** Something true at the start and kept by every step is true of every output. *)
  Lemma exec_ind restart (ti tf dt : R) s out (P : nat -> R -> estate RN M -> Prop) : execute restart ti tf dt s = Ok out -> complete s ->
    (forall s0, (if restart then s0 = s else start ti s = Ok s0) -> complete s0 -> bs_gids (e_b s0) = bs_gids (e_b s) -> bs_x (e_b s0) = bs_x (e_b s) ->
       (forall g comp, (comp < 3)%nat -> value_at (e_b s0) TU g comp = value_at (e_b s) TU g comp) -> P O ti s0) ->
    (forall i s1 s2, complete s1 -> bs_gids (e_b s1) = bs_gids (e_b s) -> bs_x (e_b s1) = bs_x (e_b s) ->
       step dt (ti + INR (S i) * dt) (ti + INR i * dt) s1 = Ok s2 -> P i (ti + INR i * dt) s1 -> P (S i) (ti + INR (S i) * dt) s2) ->
    forall i t1 s1, nth_error out i = Some (t1, s1) -> t1 = ti + INR i * dt /\ complete s1 /\ bs_gids (e_b s1) = bs_gids (e_b s) /\ bs_x (e_b s1) = bs_x (e_b s) /\ P i t1 s1.
  Proof.
    intros H Cs P0 PS. destruct (exec_spec _ _ _ _ _ _ H Cs) as (n & s0 & _ & _ & E0 & E1 & C0 & G0 & X0 & _ & U0 & J).
    induction i as [|i IH]; intros t1 s1 E.
    - rewrite E0 in E. injection E as <- <-. split; [change (ti = ti + 0 * dt :> R); ring|]. auto 10.
    - destruct (nth_error out i) as [[t0 q]|] eqn:Ei.
      2: { apply nth_error_None in Ei. assert (nth_error out (S i) <> None) by congruence. apply nth_error_Some in H0. lia. }
      destruct (J i t0 q t1 s1 Ei E) as (J1 & J2 & J3 & J4 & J5 & J6 & J7). destruct (IH t0 q eq_refl) as (_ & A2 & A3 & A4 & A5).
      split; [exact J2|]. split; [exact J5|]. split; [congruence|]. split; [congruence|].
      rewrite J2 in J3 |- *. rewrite J1 in J3, A5. exact (PS i q s1 A2 A3 A4 J3 A5).
  Qed.

  (** The external force of a step *)
  Lemma step_external dt tc tp s s' : complete s -> step dt tc tp s = Ok s' ->
    exists b2 b3, apply_forces compiles run finite sets tc tp b2 (cs_force cs) = Ok b3 /\ sized b2 /\ bs_gids b2 = bs_gids (e_b s) /\ bs_x b2 = bs_x (e_b s) /\
      (forall g comp, value_at (e_b s') TForce g comp = value_at b3 TForce g comp).
  Proof.
    intros ((Z1 & Z2) & Ly & La) H. unfold explicit_step in H.
    destruct (kick M dt s) as [b1| |] eqn:K; cbn [bind] in H; try discriminate.
    unfold kick in K. destruct (axpy (dt / 2)%num (e_a s) (bs_field (e_b s) TV)) as [v1| |] eqn:V1; cbn [bind] in K; try discriminate. injection K as <-.
    destruct (apply_conds _ _ _ _ _ _ _ _) as [b2| |] eqn:B2; cbn [bind] in H; try discriminate.
    destruct (apply_forces _ _ _ _ _ _ _ _) as [b3| |] eqn:B3; cbn [bind] in H; try discriminate.
    destruct (map2_ub add (flat (bs_x b3)) (bs_field b3 TU)) as [xu| |] eqn:XU; cbn [bind] in H; try discriminate.
    match type of H with bind ?e _ = _ => destruct e as [y'| |] eqn:Y; cbn [bind] in H; try discriminate end.
    destruct (axpy dt (bs_field b3 TV) (bs_field b3 TU)) as [u'| |] eqn:U; cbn [bind] in H; try discriminate.
    match type of H with bind ?e _ = _ => destruct e as [[[m' b4] a']| |] eqn:F; cbn [bind] in H; try discriminate end.
    destruct (axpy (dt / 2)%num a' (bs_field b4 TV)) as [v'| |] eqn:V2; cbn [bind] in H; try discriminate. injection H as <-.
    apply force_inv in F. destruct F as (Fb & _). injection Fb as <-.
    exists b2, b3. split; [exact B3|].
    eapply conds_frame in B2; [|exact made]. destruct B2 as (G2 & X2 & S2 & Fr2).
    split; [|split; [exact G2|split; [exact X2|reflexivity]]]. apply S2.
    split; [exact Z1|]. intros tg. cbn [set_field bs_field bs_gids]. pose proof (map2_spec _ _ _ _ V1) as (_ & L & _).
    destruct (target_eqb_spec TV tg) as [<-|]; [|apply Z2]. etransitivity; [exact L|]. exact La.
  Qed.
  Lemma start_external ti s s' : complete s -> start ti s = Ok s' ->
    exists b2, apply_forces compiles run finite sets ti ti b2 (cs_force cs) = Ok (e_b s') /\ sized b2 /\ bs_gids b2 = bs_gids (e_b s) /\ bs_x b2 = bs_x (e_b s).
  Proof.
    intros ((Z1 & Z2) & Ly & La) H. unfold initial_evaluation in H.
    match type of H with bind ?e _ = _ => destruct e as [[[m' b4] a']| |] eqn:F; cbn [bind] in H; try discriminate end. injection H as <-.
    apply force_inv in F. destruct F as (Fb & _).
    destruct (apply_conds _ _ _ _ _ _ _ _) as [b2| |] eqn:B2; cbn [bind] in Fb; try discriminate.
    eapply conds_frame in B2; [|exact made]. destruct B2 as (G2 & X2 & S2 & Fr2). exists b2. split; [exact Fb|]. split; [apply S2; split; assumption|]. auto.
  Qed.

  (** ** Runs that succeed *)
  Variable n : nat.
  Hypothesis Hc : forall t, compiles t = true.
  Hypothesis Hr : forall t x tm v, run t x tm v <> None.
  Hypothesis Hf : forall v, finite v = true.
  Hypothesis Hs : forall p, In p ps -> sets (tidy (bp_set p)) <> None.
  Hypothesis Hn : length rho = n.
  Hypothesis He : always_evaluates finite n evaluate.

  Lemma conds_succeed tc tp b : sized b -> exists b', apply_conds compiles run finite sets tc tp b (cs_boundary cs) = Ok b'.
  Proof.
    intros S. pose proof (add_all_spec show ps cs made) as ((E & G) & _). unfold apply_conds. rewrite E.
    apply (made_ok show compiles run finite Hc Hr Hf boundary_kinds sets tc tp ps b G Hs S).
    intros t tk Ht ->. cbn in Ht. destruct Ht as [<-|[<-|[]]]; reflexivity.
  Qed.
  Lemma forces_succeed tc tp b : sized b -> exists b', apply_forces compiles run finite sets tc tp b (cs_force cs) = Ok b'.
  Proof.
    intros (S1 & S2). pose proof (add_all_spec show ps cs made) as (_ & _ & (E & G)). unfold apply_forces. rewrite E.
    eapply (made_ok show compiles run finite Hc Hr Hf _ sets tc tp ps _ G Hs).
    - split; [exact S1|]. intros tg. cbn [set_field bs_field bs_gids]. destruct (target_eqb_spec TForce tg) as [<-|]; [|apply S2]. rewrite map_length. apply S2.
    - intros t tk Ht ->. cbn in Ht. contradiction.
  Qed.
  Lemma forallb_all {A} (p : A -> bool) l : (forall a, p a = true) -> forallb p l = true.
  Proof. intros H. induction l; [reflexivity|]. cbn. now rewrite H. Qed.
  Lemma force_succeeds check m b y ext b' : length (bs_field b TU) = (3 * n)%nat -> length y = (3 * n)%nat -> length (bs_field b TV) = (3 * n)%nat ->
    ext = Ok b' -> length (bs_field b' TForce) = (3 * n)%nat -> exists m' a, force_and_acceleration finite M evaluate rho check m b y ext = Ok (m', b', a) /\ length a = (3 * n)%nat.
  Proof.
    intros L1 L2 L3 -> L4. unfold force_and_acceleration. destruct (He m _ _ _ L1 L2 L3) as (m' & f & c & E & Lf & Ff & Fc). rewrite E. cbn [bind].
    rewrite Ff, (forallb_all finite (bs_field b' TForce) Hf). cbn [negb]. rewrite andb_false_r.
    assert (A : forall f2 : list RN, length f2 = (3 * n)%nat -> exists a, acceleration (N:=RN) rho f2 (bs_field b' TForce) = Ok a /\ length a = (3 * n)%nat).
    { intros f2 L. unfold acceleration. destruct (map2_ok (add (n:=RN)) f2 (bs_field b' TForce)) as (r & R); [congruence|]. rewrite R. cbn [bind].
      pose proof (map2_spec _ _ _ _ R) as (_ & Lr & _).
      destruct (map2_ok (div (n:=RN)) r (concat (map (fun r => [r; r; r]) rho))) as (a & Ea); [etransitivity; [exact Lr|]; etransitivity; [exact L|]; symmetry; etransitivity; [apply rep_length|]; lia|].
      exists a. split; [exact Ea|]. pose proof (map2_spec _ _ _ _ Ea) as (_ & La & _). etransitivity; [exact La|]. etransitivity; [exact Lr|exact L]. }
    destruct c as [cf|].
    - destruct (Fc cf eq_refl) as (Lc & Fcf). rewrite Fcf. cbn [negb]. rewrite andb_false_r.
      destruct (map2_ok (fun f c : RN => (c + f)%num) f cf) as (f2 & E2); [congruence|]. rewrite E2. cbn [bind].
      pose proof (map2_spec _ _ _ _ E2) as (_ & L5 & _). destruct (A f2 ltac:(congruence)) as (a & Ea & La). rewrite Ea. exists m', a. auto.
    - cbn [bind]. destruct (A f Lf) as (a & Ea & La). rewrite Ea. exists m', a. auto.
  Qed.
  Lemma step_succeeds dt tc tp s : complete s -> length (bs_gids (e_b s)) = n -> exists s', step dt tc tp s = Ok s'.
  Proof.
    intros ((Z1 & Z2) & Ly & La) Ln. unfold explicit_step, kick.
    destruct (map2_ok (fun x y : RN => (y + dt / 2 * x)%num) (e_a s) (bs_field (e_b s) TV)) as (w & W); [rewrite La, Z2; reflexivity|].
    unfold axpy at 1. rewrite W. cbn [bind]. pose proof (map2_spec _ _ _ _ W) as (_ & Lw & _).
    destruct (conds_succeed tc tp (set_field (e_b s) TV w)) as (b2 & B2).
    { split; [exact Z1|]. intros tg. cbn [set_field bs_field bs_gids]. destruct (target_eqb_spec TV tg) as [<-|]; [|apply Z2]. etransitivity; [exact Lw|exact La]. }
    assert (S1 : sized (set_field (e_b s) TV w)).
    { split; [exact Z1|]. intros tg. cbn [set_field bs_field bs_gids]. destruct (target_eqb_spec TV tg) as [<-|]; [|apply Z2]. etransitivity; [exact Lw|exact La]. }
    rewrite B2. cbn [bind]. eapply conds_frame in B2; [|exact made]. destruct B2 as (G2 & X2 & S2 & _). specialize (S2 S1).
    destruct (forces_succeed tc tp b2 S2) as (b3 & B3). rewrite B3. cbn [bind].
    eapply forces_frame in B3; [|exact made]. destruct B3 as (G3 & X3 & S3 & _). specialize (S3 S2). destruct S3 as (T1 & T2).
    assert (Lg : length (bs_gids b3) = n) by (rewrite G3, G2; exact Ln).
    assert (LU : length (bs_field b3 TU) = (3 * n)%nat) by (rewrite T2, Lg; cbn [target_dim]; lia).
    assert (LV : length (bs_field b3 TV) = (3 * n)%nat) by (rewrite T2, Lg; cbn [target_dim]; lia).
    assert (LE : length (bs_field b3 TForce) = (3 * n)%nat) by (rewrite T2, Lg; cbn [target_dim]; lia).
    destruct (map2_ok (add (n:=RN)) (flat (bs_x b3)) (bs_field b3 TU)) as (xu & XU); [rewrite LU, flat_length, T1, Lg; lia|]. rewrite XU. cbn [bind].
    pose proof (map2_spec _ _ _ _ XU) as (Lx & Lxu & _).
    destruct (map2_ok (fun xu v : RN => (xu + dt * v)%num) xu (bs_field b3 TV)) as (y & Y); [etransitivity; [exact Lxu|]; etransitivity; [exact Lx|]; congruence|]. rewrite Y. cbn [bind].
    pose proof (map2_spec _ _ _ _ Y) as (_ & Lyy & _).
    destruct (map2_ok (fun x y : RN => (y + dt * x)%num) (bs_field b3 TV) (bs_field b3 TU)) as (u & U); [congruence|]. unfold axpy at 1. rewrite U. cbn [bind].
    pose proof (map2_spec _ _ _ _ U) as (_ & Luu & _).
    destruct (force_succeeds true (e_mat s) (set_field b3 TU u) y (Ok (set_field b3 TU u)) (set_field b3 TU u)) as (m' & a & E & Laa).
    { cbn. etransitivity; [exact Luu|exact LV]. } { etransitivity; [exact Lyy|]. etransitivity; [exact Lxu|]. etransitivity; [exact Lx|exact LU]. } { exact LV. } { reflexivity. } { exact LE. }
    rewrite E. cbn [bind].
    destruct (map2_ok (fun x y : RN => (y + dt / 2 * x)%num) a (bs_field (set_field b3 TU u) TV)) as (v & V); [etransitivity; [exact Laa|symmetry; exact LV]|].
    unfold axpy. rewrite V. cbn [bind]. eauto.
  Qed.
  Lemma start_succeeds ti s : complete s -> length (bs_gids (e_b s)) = n -> exists s', start ti s = Ok s'.
  Proof.
    intros ((Z1 & Z2) & Ly & La) Ln. unfold initial_evaluation.
    destruct (conds_succeed ti ti (e_b s) (conj Z1 Z2)) as (b2 & B2). rewrite B2. cbn [bind].
    eapply conds_frame in B2; [|exact made]. destruct B2 as (G2 & X2 & S2 & _). specialize (S2 (conj Z1 Z2)).
    destruct (forces_succeed ti ti b2 S2) as (b3 & B3). rewrite B3.
    eapply forces_frame in B3; [|exact made]. destruct B3 as (G3 & X3 & S3 & _). specialize (S3 S2). destruct S3 as (T1 & T2).
    destruct (force_succeeds false (e_mat s) (e_b s) (e_y s) (Ok b3) b3) as (m' & a & E & _).
    { rewrite Z2, Ln; cbn [target_dim]; lia. } { rewrite Ly, Ln; lia. } { rewrite Z2, Ln; cbn [target_dim]; lia. } { reflexivity. } { rewrite T2, G3, G2, Ln; cbn [target_dim]; lia. }
    rewrite E. cbn [bind]. eauto.
  Qed.
  Lemma loop_succeeds ti dt k : forall z t s, complete s -> length (bs_gids (e_b s)) = n ->
    exists r, explicit_loop compiles run finite sets (cs_boundary cs) (cs_force cs) M evaluate rho k z ti dt t s = Ok r.
  Proof.
    induction k as [|k IH]; intros z t s Cs Ln; [exists []; reflexivity|]. cbn [explicit_loop].
    destruct (step_succeeds dt (ti + ofZ (z + 1) * dt)%num t s Cs Ln) as (s' & E). rewrite E. cbn [bind].
    destruct (step_frame _ _ _ _ _ _ _ evaluate rho made _ _ _ _ _ Cs E) as (C' & G & _).
    destruct (IH (z + 1)%Z (ti + ofZ (z + 1) * dt)%num s' C' ltac:(congruence)) as (r & R). rewrite R. cbn [bind]. eauto.
  Qed.
  Lemma exec_succeeds restart (ti tf dt : R) s k : complete s -> length (bs_gids (e_b s)) = n -> number_of_steps floorZ (ti : RN) tf dt = Ok k ->
    exists out, execute restart ti tf dt s = Ok out.
  Proof.
    intros Cs Ln En. unfold execute_explicit. rewrite En. cbn [bind]. destruct restart.
    - cbn [bind]. destruct (loop_succeeds ti dt (Z.to_nat k) 0%Z ti s Cs Ln) as (r & R). rewrite R. cbn [bind]. eauto.
    - destruct (start_succeeds ti s Cs Ln) as (s0 & E0). rewrite E0. cbn [bind].
      destruct (start_frame _ _ _ _ _ _ _ evaluate rho made ti s s0 Cs E0) as (C0 & G0 & _).
      destruct (loop_succeeds ti dt (Z.to_nat k) 0%Z ti s0 C0 ltac:(congruence)) as (r & R). rewrite R. cbn [bind]. eauto.
  Qed.
End Whole.

(** ** The linear peridynamic solid as an evaluation *)
Lemma flat_total vol (f : list (V3 RN)) : total vol (flat f) = momentum vol f.
Proof. revert f; induction vol as [|a vol IH]; intros [|b f]; try reflexivity. cbn [momentum]. rewrite <- IH. reflexivity. Qed.
Lemma flat_spin vol y (f : list (V3 RN)) : spin vol y (flat f) = moment vol (triples (N:=RN) y) f.
Proof.
  revert y f; induction vol as [|a vol IH]; intros y f; [destruct f; reflexivity|].
  destruct y as [|y1 [|y2 [|y3 y]]]; try (destruct f; reflexivity). destruct f as [|b f]; [reflexivity|].
  cbn [triples moment]. rewrite <- IH. reflexivity.
Qed.
Lemma triples_length (l : list R) n : length l = (3 * n)%nat -> length (triples (N:=RN) l) = n.
Proof.
  revert l; induction n as [|n IH]; intros l L; [destruct l; [reflexivity|discriminate]|].
  replace (3 * S n)%nat with (S (S (S (3 * n)))) in L by lia. destruct l as [|a [|b [|c l]]]; try discriminate.
  cbn [triples length]. f_equal. apply IH. now injection L.
Qed.
Section Lps.
  Variables (omega : RN -> RN -> RN) (K MU h : RN) (x : list (V3 RN)) (vol m : list RN) (nbrs : list (list nat)) (theta damage : list RN -> list RN -> list RN).
  Hypothesis Hv : length vol = length x.
  Hypothesis Hm : length m = length nbrs.
  Hypothesis Hl : (length nbrs <= length x)%nat.
  Hypothesis Hj : Forall (Forall (fun j => (j < length x)%nat)) nbrs.
  Hypothesis Ht : forall y d, length (theta y d) = length nbrs.
  Hypothesis Hd : forall d y, length (damage d y) = num_bonds nbrs.

  Lemma lps_in y d : length y = (3 * length x)%nat -> lps_inputs (N:=RN) (length x) nbrs x (triples y) vol m (theta y (damage d y)) (damage d y) None None.
  Proof. intros L. repeat split; auto. - now apply triples_length. - apply Ht. - apply Hd. Qed.
  Lemma lps_balanced : balanced vol (lps_evaluate omega K MU h x vol m nbrs theta damage).
  Proof.
    intros d u y v d' f c _ Ly0 _ H. unfold lps_evaluate in H.
    assert (Ly : length y = (3 * length x)%nat) by (etransitivity; [exact Ly0|exact (f_equal (fun k => (3 * k)%nat) Hv)]).
    destruct (lps_linear omega K MU h (ofZ 0) None (length x) nbrs x (triples y) vol m _ _ (repeat vzero (length x)) (lps_in y d Ly) (repeat_length _ _)) as (f' & o & E & _ & _ & Z).
    rewrite E in H. cbn [bind] in H. injection H as <- <- <-. split; [|discriminate].
    change (total vol (flat f') = vzero). rewrite flat_total. now apply Z.
  Qed.
  Lemma lps_moments : balanced_moments vol (lps_evaluate omega K MU h x vol m nbrs theta damage).
  Proof.
    intros d u y v d' f c _ Ly0 _ H. unfold lps_evaluate in H.
    assert (Ly : length y = (3 * length x)%nat) by (etransitivity; [exact Ly0|exact (f_equal (fun k => (3 * k)%nat) Hv)]).
    destruct (lps_angular omega K MU h (ofZ 0) None (length x) nbrs x (triples y) vol m _ _ (repeat vzero (length x)) (lps_in y d Ly) (repeat_length _ _)) as (f' & o & E & _ & _ & Z).
    rewrite E in H. cbn [bind] in H. injection H as <- <- <-. split; [|discriminate].
    change (spin vol y (flat f') = vzero). rewrite flat_spin. now apply Z.
  Qed.
  Lemma lps_evaluates finite : (forall r, finite r = true) -> always_evaluates finite (length x) (lps_evaluate omega K MU h x vol m nbrs theta damage).
  Proof.
    intros Hf d u y v _ Ly _. unfold lps_evaluate.
    destruct (lps_linear omega K MU h (ofZ 0) None (length x) nbrs x (triples y) vol m _ _ (repeat vzero (length x)) (lps_in y d Ly) (repeat_length _ _)) as (f' & o & E & L & _).
    rewrite E. cbn [bind]. exists (damage d y), (flat f'), None. split; [reflexivity|]. split; [rewrite flat_length, L; lia|]. split; [apply forallb_all, Hf|discriminate].
  Qed.
End Lps.
