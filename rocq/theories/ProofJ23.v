(** * The Newton return to a hardening yield surface *)
From Coq Require Import Reals Lra Lia Rpower.
From Verif Require Import Base Num ModelForce ModelCorr SpecCorr ModelPlastic ModelGlobal ModelJ2 SpecJ2 ProofData ProofCorr ProofCubic ProofJ2 ProofJ22.
Local Open Scope R_scope.
Local Notation ten := (M3 RN).

Definition less (s : ten) (k : R) (flow : ten) : mat := fun i j => ent s i j - k * ent flow i j.

Section Newton.
  Variables (law slope : R -> R) (G tol vm : R) (flow : ten).
  (** whatever the law, what comes back solves the equation up to the tolerance *)
  Lemma newton_solves : forall n f (s : ten) ep p s' ep' p',
    f = vm - 3 * G * p - law ep ->
    newton (N:=RN) law slope G tol vm flow n f s ep p = Ok (s', ep', p') ->
    eq3 (ent s') (less s (sqrt 6 * G * (p' - p)) flow) /\ ep' - ep = p' - p /\ Rabs (vm - 3 * G * p' - law ep') <= tol.
  Proof.
    induction n as [|n IH]; intros f s ep p s' ep' p' Hf; cbn [newton]; rewrite nabs_R; to_R.
    - destruct (Rltb tol (Rabs f)) eqn:C; [discriminate|]. intros H. injection H as <- <- <-. apply Rltb_false in C.
      split; [|split; [ring|rewrite <- Hf; exact C]]. intros i j Hi Hj. unfold less. ring.
    - destruct (Rltb tol (Rabs f)) eqn:C.
      + cbv zeta. intros H. apply IH in H; [|reflexivity]. destruct H as (A & B & D). split; [|split; [lra|exact D]].
        intros i j Hi Hj. rewrite A by auto. unfold less. rewrite ent_msub by auto. rewrite ent_mscale by auto. to_R. ring.
      + intros H. injection H as <- <- <-. apply Rltb_false in C.
        split; [|split; [ring|rewrite <- Hf; exact C]]. intros i j Hi Hj. unfold less. ring.
  Qed.
  Hypothesis HG : 0 < G.
  Hypothesis HL : concave_law law slope.
  (** with a concave law the iterates approach the solution from one side *)
  Lemma newton_side : forall n f (s : ten) ep p s' ep' p',
    f = vm - 3 * G * p - law ep -> 0 <= f -> 0 <= ep ->
    newton (N:=RN) law slope G tol vm flow n f s ep p = Ok (s', ep', p') ->
    p <= p' /\ 0 <= vm - 3 * G * p' - law ep'.
  Proof.
    induction n as [|n IH]; intros f s ep p s' ep' p' Hf H0 He; cbn [newton]; rewrite nabs_R; to_R.
    - destruct (Rltb tol (Rabs f)) eqn:C; [discriminate|]. intros H. injection H as <- <- <-. lra.
    - destruct (Rltb tol (Rabs f)) eqn:C.
      + cbv zeta. destruct (HL ep He) as (_ & S0 & S1). set (dp := f / (3 * G + slope ep)).
        assert (P : 0 < 3 * G + slope ep) by lra.
        assert (D0 : 0 <= dp) by (apply Rmult_le_pos; [exact H0|left; apply Rinv_0_lt_compat; exact P]).
        assert (DF : 3 * G * dp + slope ep * dp = f) by (unfold dp; field; lra).
        pose proof (S1 (ep + dp) ltac:(lra)) as S2. intros H.
        apply IH in H; [|reflexivity|nra|lra]. lra.
      + intros H. injection H as <- <- <-. lra.
  Qed.
  (** ... and every iteration shrinks the residual by a factor if the slopes are bounded *)
  Variables (h : R).
  Hypothesis Hh : forall e, 0 <= e -> slope e <= h.
  Hypothesis Hm : forall e e', 0 <= e <= e' -> law e <= law e'.
  Lemma newton_returns : forall n f (s : ten) ep p,
    f = vm - 3 * G * p - law ep -> 0 <= f -> 0 <= ep -> f * (h / (3 * G + h)) ^ n <= tol ->
    exists r, newton (N:=RN) law slope G tol vm flow n f s ep p = Ok r.
  Proof.
    assert (H0 : 0 <= h) by (destruct (HL 0 ltac:(lra)) as (_ & S0 & _); specialize (Hh 0 ltac:(lra)); lra).
    induction n as [|n IH]; intros f s ep p Hf F0 He HT; cbn [newton]; rewrite nabs_R; to_R.
    - destruct (Rltb tol (Rabs f)) eqn:C; [|now eexists]. apply Rltb_true in C. rewrite Rabs_pos_eq in C by exact F0. cbn in HT. lra.
    - destruct (Rltb tol (Rabs f)) eqn:C; [|now eexists]. cbv zeta.
      destruct (HL ep He) as (_ & S0 & S1). set (dp := f / (3 * G + slope ep)). assert (P : 0 < 3 * G + slope ep) by lra.
      assert (D0 : 0 <= dp) by (apply Rmult_le_pos; [exact F0|left; apply Rinv_0_lt_compat; exact P]).
      assert (DF : 3 * G * dp + slope ep * dp = f) by (unfold dp; field; lra).
      pose proof (S1 (ep + dp) ltac:(lra)) as S2. pose proof (Hm ep (ep + dp) ltac:(lra)) as M. pose proof (Hh ep He) as B.
      assert (F1 : 0 <= vm - 3 * G * (p + dp) - law (ep + dp)) by nra.
      apply IH; [reflexivity|exact F1|lra|]. eapply Rle_trans; [|exact HT]. cbn [pow]. rewrite <- Rmult_assoc.
      apply Rmult_le_compat_r; [apply pow_le; apply Rmult_le_pos; [lra|left; apply Rinv_0_lt_compat; lra]|].
      assert (vm - 3 * G * (p + dp) - law (ep + dp) <= f - 3 * G * dp) by lra.
      eapply Rle_trans; [exact H|]. 
      replace (f - 3 * G * dp) with (f * (slope ep / (3 * G + slope ep))) by (unfold dp; field; lra).
      apply Rmult_le_compat_l; [exact F0|].
      apply Rmult_le_reg_r with (3 * G + h); [lra|]. apply Rmult_le_reg_r with (3 * G + slope ep); [exact P|].
      replace (slope ep / (3 * G + slope ep) * (3 * G + h) * (3 * G + slope ep)) with (slope ep * (3 * G + h)) by (field; lra).
      replace (h / (3 * G + h) * (3 * G + h) * (3 * G + slope ep)) with (h * (3 * G + slope ep)) by (field; lra). nra.
  Qed.
End Newton.

(** ** The whole return *)
Section Return.
  Variables (law slope : R -> R) (K G dt : R) (d s : ten) (eN : R).
  Let E := elastic_step K G dt (ent d) (ent s).
  Lemma return_elastic : mises E < law eN -> radial_return (N:=RN) law slope K G dt d s eN = Ok (stays K G dt d s eN).
  Proof.
    intros H. unfold radial_return. cbv zeta. rewrite vm_E. to_R. fold E. rewrite (proj2 (Rltb_true _ _)) by lra. reflexivity.
  Qed.
  Lemma return_elastic_inv : forall r, radial_return (N:=RN) law slope K G dt d s eN = Ok r -> mises E < law eN -> r = stays K G dt d s eN.
  Proof. intros r H H'. rewrite return_elastic in H by exact H'. now injection H as <-. Qed.
  Lemma return_shape : forall r, law eN <= mises E -> 0 < mises E -> f20 <= norm3 (dev_of E) -> radial_return (N:=RN) law slope K G dt d s eN = Ok r -> exists p,
    j_eqps r = eN + p /\ j_vm r = mises E - 3 * G * p /\ Rabs (mises E - 3 * G * p - law (j_eqps r)) <= 1 / 10 ^ 16 * K /\
    eq3 (ent (j_stress r)) (fun i j => E i j - 3 * G * p / mises E * dev_of E i j) /\
    (0 < G -> concave_law law slope -> 0 <= eN -> 0 <= p /\ 0 <= mises E - 3 * G * p - law (j_eqps r)).
  Proof.
    intros r HY HP HF. unfold radial_return. cbv zeta. rewrite vm_E. to_R. fold E. rewrite (proj2 (Rltb_false _ _)) by lra.
    match goal with |- context [@newton RN ?a ?b ?c ?t ?v ?f ?n ?x ?y ?z ?w] => destruct (@newton RN a b c t v f n x y z w) as [[[s' ep] p]| |] eqn:EN end; cbn [bind]; try discriminate.
    intros H. injection H as <-. cbn [j_eqps j_vm j_stress].
    pose proof EN as EN'. apply newton_solves in EN' as (A & B & C); [|to_R; ring]. to_R. exists p.
    split; [lra|]. split; [reflexivity|]. split; [|split].
    - replace (1 / 10 ^ 16) with (1 / IZR (Zpos (10 ^ 16))); [exact C|]. f_equal. symmetry. exact (pow_IZR 10 16).
    - intros i j Hi Hj. rewrite A by auto. unfold less. rewrite ent_mdivr by auto. rewrite trial_ent by auto. rewrite dev_ent by auto. fold E.
      assert (EM : magnitude (deviator (trial (N:=RN) K G dt d s)) = norm3 (dev_of E)) by (rewrite magnitude_eq, norm_E; apply Rmax_right; exact HF).
      rewrite EM. rewrite s6_32, mises_norm. pose proof s32_sq as S3. pose proof s32_pos. rewrite mises_norm in HP.
      assert (0 < norm3 (dev_of E)) by (pose proof f20_pos; lra).
      replace (2 * sqrt (3/2) * G * (p - 0) * (dev_of E i j / norm3 (dev_of E))) with (2 * (sqrt (3/2) * sqrt (3/2)) * G * p / (sqrt (3/2) * norm3 (dev_of E)) * dev_of E i j) by (field; lra).
      rewrite S3. field. lra.
    - intros HG HL He. apply (newton_side law slope G _ (mises E) _ HG HL) in EN; [|ring|lra|exact He]. exact EN.
  Qed.
  (** stress and plastic strain of the result *)
  Lemma return_stress : forall r p, 0 < G -> 0 < mises E -> eq3 (ent (j_stress r)) (fun i j => E i j - 3 * G * p / mises E * dev_of E i j) ->
    tr3 (ent (j_stress r)) = tr3 E /\ eq3 (dev_of (ent (j_stress r))) (scaled (1 - 3 * G * p / mises E) (dev_of E)) /\
    mises (ent (j_stress r)) = Rabs (mises E - 3 * G * p) /\ eqps_inc G dt (ent d) (ent s) (ent (j_stress r)) = Rabs p.
  Proof.
    intros r p HG HP HS. set (q := 3 * G * p / mises E) in *.
    assert (HT : tr3 (ent (j_stress r)) = tr3 E).
    { rewrite (tr3_eq3 _ _ HS). replace (tr3 (fun i j => E i j - q * dev_of E i j)) with (tr3 E - q * tr3 (dev_of E)) by (unfold tr3, sum3; ring). rewrite tr_dev. ring. }
    assert (HD : eq3 (dev_of (ent (j_stress r))) (scaled (1 - q) (dev_of E))).
    { intros i j Hi Hj. unfold dev_of at 1. rewrite HT, HS by auto. unfold scaled, dev_of. ring. }
    split; [exact HT|]. split; [exact HD|]. split.
    - rewrite mises_norm, (norm_eq3 _ _ HD), norm_scaled. 
      replace (mises E - 3 * G * p) with ((1 - q) * mises E) by (unfold q; field; lra).
      rewrite Rabs_mult, (Rabs_pos_eq (mises E)) by apply mises_nonneg. rewrite mises_norm. ring.
    - unfold eqps_inc. assert (EP : eq3 (plastic_inc G dt (ent d) (ent s) (ent (j_stress r))) (scaled (3 * p / (2 * mises E)) (dev_of E))).
      { intros i j Hi Hj. unfold plastic_inc. rewrite HD by auto. pose proof (dev_trial K G dt (ent d) (ent s) i j Hi Hj) as ET. cbv beta in ET. fold E in ET.
        replace (dev_of (ent s) i j) with (dev_of E i j - 2 * G * dt * dev_of (ent d) i j) by (rewrite ET; ring). unfold scaled, q. field. split; lra. }
      rewrite (norm_eq3 _ _ EP), norm_scaled. assert (MN : norm3 (dev_of E) = sqrt (2/3) * mises E) by (rewrite mises_norm, <- Rmult_assoc, s23_32; ring).
      rewrite MN. replace (sqrt (2/3) * (Rabs (3 * p / (2 * mises E)) * (sqrt (2/3) * mises E))) with (sqrt (2/3) * sqrt (2/3) * (Rabs (3 * p / (2 * mises E)) * mises E)) by ring. rewrite s23_sq.
      rewrite <- (Rabs_pos_eq (mises E)) at 2 by lra. rewrite <- Rabs_mult. replace (3 * p / (2 * mises E) * mises E) with (3 / 2 * p) by (field; lra).
      rewrite Rabs_mult, (Rabs_pos_eq (3/2)) by lra. field.
  Qed.
End Return.

(** ** The two laws *)
Lemma ln_le_sub : forall x, 0 < x -> ln x <= x - 1.
Proof. intros x H. destruct (Req_dec x 1) as [->|D]; [rewrite ln_1; lra|]. pose proof (exp_ineq1 (ln x)) as E. rewrite exp_ln in E by exact H. assert (ln x <> 0) by (intros Z; apply D; rewrite <- (exp_ln x H), Z; apply exp_0). specialize (E H0). lra. Qed.
Lemma exp_tangent : forall a b, exp a + exp a * (b - a) <= exp b.
Proof.
  intros a b. replace b with (a + (b - a)) at 2 by ring. rewrite exp_plus. pose proof (exp_pos a).
  destruct (Req_dec (b - a) 0) as [->|D]; [rewrite exp_0; lra|]. pose proof (exp_ineq1 _ D). nra.
Qed.
Lemma bernoulli : forall n t, 0 <= n <= 1 -> 0 < t -> Rpower t n <= 1 + n * (t - 1).
Proof.
  intros n t Hn Ht. set (u := 1 + n * (t - 1)). assert (Hu : 0 < u) by (unfold u; nra).
  assert (L : n * ln t <= ln u).
  { pose proof (ln_le_sub (t / u) ltac:(apply Rdiv_lt_0_compat; assumption)) as A. pose proof (ln_le_sub (/ u) ltac:(now apply Rinv_0_lt_compat)) as B.
    unfold Rdiv in A. rewrite ln_mult in A by (auto; now apply Rinv_0_lt_compat). rewrite ln_Rinv in A by exact Hu. rewrite ln_Rinv in B by exact Hu.
    assert (S : n * (t * / u - 1) + (1 - n) * (/ u - 1) = 0) by (unfold u; field; fold u; lra). nra. }
  unfold Rpower. rewrite <- (exp_ln u Hu). destruct L as [L|L]; [left; now apply exp_increasing|rewrite L; lra].
Qed.
Lemma satexp_concave : forall Y Ysat c lin, 0 <= Y -> Y <= Ysat -> 0 <= c -> 0 <= lin ->
  concave_law (satexp_stress (N:=RN) exp Y Ysat c lin) (satexp_slope (N:=RN) exp Y Ysat c lin) /\
  (forall e, 0 <= e -> satexp_slope (N:=RN) exp Y Ysat c lin e <= c * (Ysat - Y) + lin) /\
  (forall e e', 0 <= e <= e' -> satexp_stress (N:=RN) exp Y Ysat c lin e <= satexp_stress (N:=RN) exp Y Ysat c lin e').
Proof.
  intros Y Ys c lin HY HS Hc Hl. unfold satexp_stress, satexp_slope. to_R.
  assert (MONO : forall e e', 0 <= e <= e' -> exp (- c * e') <= exp (- c * e)).
  { intros e e' H. destruct (Req_dec (c * e') (c * e)) as [Q|Q]; [replace (- c * e') with (- c * e) by lra; lra|]. left. apply exp_increasing. nra. }
  assert (LE1 : forall e, 0 <= e -> exp (- c * e) <= 1) by (intros e H; pose proof (MONO 0 e ltac:(lra)) as M; rewrite Rmult_0_r, exp_0 in M; exact M).
  split; [|split].
  - intros e He. pose proof (LE1 e He). pose proof (exp_pos (- c * e)). split; [|split].
    + assert (0 <= (Ys - Y) * (1 - exp (- c * e))) by (apply Rmult_le_pos; lra). nra.
    + assert (0 <= c * (Ys - Y)) by (apply Rmult_le_pos; lra). assert (0 <= c * (Ys - Y) * exp (- c * e)) by (apply Rmult_le_pos; lra). lra.
    + intros e' H'. pose proof (exp_tangent (- c * e) (- c * e')) as T. 
      assert (0 <= (Ys - Y) * (exp (- c * e') - (exp (- c * e) + exp (- c * e) * (- c * e' - - c * e)))) by (apply Rmult_le_pos; lra). nra.
  - intros e He. pose proof (LE1 e He). assert (0 <= c * (Ys - Y)) by (apply Rmult_le_pos; lra). assert (0 <= c * (Ys - Y) * (1 - exp (- c * e))) by (apply Rmult_le_pos; lra). lra.
  - intros e e' H. pose proof (MONO e e' H). assert (0 <= (Ys - Y) * (exp (- c * e) - exp (- c * e'))) by (apply Rmult_le_pos; lra). nra.
Qed.
Lemma power_concave : forall Y eps0 n, 0 <= Y -> 0 < eps0 -> 0 <= n <= 1 ->
  concave_law (power_stress (N:=RN) Rpower Y eps0 n) (power_slope (N:=RN) Rpower Y eps0 n) /\
  (forall e, 0 <= e -> power_slope (N:=RN) Rpower Y eps0 n e <= Y * n / eps0) /\
  (forall e e', 0 <= e <= e' -> power_stress (N:=RN) Rpower Y eps0 n e <= power_stress (N:=RN) Rpower Y eps0 n e').
Proof.
  intros Y z n HY Hz Hn. unfold power_stress, power_slope. to_R.
  assert (B1 : forall e, 0 <= e -> 1 <= 1 + e / z) by (intros e He; assert (0 <= e / z) by (apply Rmult_le_pos; [exact He|left; now apply Rinv_0_lt_compat]); lra).
  assert (PP : forall a b, 0 < Rpower a b) by (intros; apply exp_pos).
  assert (Q0 : 0 <= Y * n / z) by (apply Rmult_le_pos; [nra|left; now apply Rinv_0_lt_compat]).
  split; [|split].
  - intros e He. pose proof (B1 e He) as B. set (w := 1 + e / z) in *. split; [|split].
    + apply Rmult_le_pos; [exact HY|left; apply PP].
    + apply Rmult_le_pos; [exact Q0|left; apply PP].
    + intros e' H'. pose proof (B1 e' ltac:(lra)) as B'. set (u := 1 + e' / z) in *.
      pose proof (bernoulli n (u / w) Hn ltac:(apply Rdiv_lt_0_compat; lra)) as BB.
      assert (EU : Rpower u n = Rpower w n * Rpower (u / w) n).
      { rewrite Rpower_mult_distr by (try lra; apply Rdiv_lt_0_compat; lra). f_equal. field. lra. }
      assert (EW : Rpower w (n - 1) = Rpower w n / w).
      { unfold Rminus. rewrite Rpower_plus, Rpower_Ropp, Rpower_1 by lra. reflexivity. }
      rewrite EU, EW. replace (Y * n / z * (Rpower w n / w) * (e' - e)) with (Y * (Rpower w n * (n * (u / w - 1)))).
      2:{ unfold u, w. field. split; [lra|]. pose proof (B1 e He). intros Q. assert (0 < z + e) by lra. lra. }
      pose proof (PP w n). assert (0 <= Y * Rpower w n * (1 + n * (u / w - 1) - Rpower (u / w) n)) by (apply Rmult_le_pos; [apply Rmult_le_pos; lra|lra]). nra.
  - intros e He. pose proof (B1 e He) as B. set (w := 1 + e / z) in *. assert (L : Rpower w (n - 1) <= 1).
    { destruct (Req_dec w 1) as [->|D]; [unfold Rpower; rewrite ln_1, Rmult_0_r, exp_0; lra|]. apply Rle_trans with (Rpower w 0); [apply Rle_Rpower; lra|rewrite Rpower_O by lra; lra]. }
    assert (0 <= Y * n / z * (1 - Rpower w (n - 1))) by (apply Rmult_le_pos; lra). lra.
  - intros e e' H. pose proof (B1 e ltac:(lra)). apply Rmult_le_compat_l; [exact HY|]. apply Rle_Rpower_l; [lra|]. split; [lra|].
    apply Rplus_le_compat_l. apply Rmult_le_compat_r; [left; now apply Rinv_0_lt_compat|lra].
Qed.
