(** * Bisection and the viscoplastic update *)
From Coq Require Import Reals Lra Lia ZArith Ranalysis5.
From Verif Require Import Base Num ModelForce ModelCorr SpecCorr ModelPlastic ModelGlobal ModelJ2 SpecJ2 ModelNeedle SpecNeedle ProofData ProofCorr ProofCubic ProofJ2 ProofJ22 ProofJ23 ProofJ24.
Local Open Scope R_scope.
Local Notation ten := (M3 RN).

(** ** Bisection *)
Lemma lit6 : lit (n:=RN) 1 (10 ^ 6) = 1 / 10 ^ 6.
Proof. to_R. cbn. lra. Qed.
Lemma test_mid : forall a b c c', 0 <= a -> a < b -> (c = a \/ c = b) -> c' = (a + b) / 2 -> Rabs (c' - c) / Rabs c' = (b - a) / 2 / c'.
Proof.
  intros a b c c' Ha Hab Hc ->. rewrite (Rabs_pos_eq ((a + b) / 2)) by lra. f_equal. destruct Hc as [->| ->].
  - rewrite Rabs_pos_eq; lra.
  - rewrite Rabs_left; lra.
Qed.
Lemma bisect_bracket : forall F budget a b c x ok, c = (a + b) / 2 -> 0 <= a -> a < b -> 0 <= F a -> F b < 0 ->
  bisect (N:=RN) F budget a b c = (x, ok) ->
  exists a' b', a <= a' /\ a' < b' /\ b' <= b /\ x = (a' + b') / 2 /\ 0 <= F a' /\ F b' < 0 /\
    (ok = true -> (b' - a') / 2 < x / 10 ^ 6) /\
    (ok = false -> b' - a' = (b - a) / 2 ^ budget /\ ((0 < budget)%nat -> x / 10 ^ 6 <= (b' - a') / 2)).
Proof.
  intros F. induction budget as [|k IH]; intros a b c x ok Hc Ha Hab Fa Fb; cbn [bisect].
  - intros H. injection H as <- <-. exists a, b. split; [lra|]. split; [lra|]. split; [lra|]. split; [exact Hc|]. split; [exact Fa|]. split; [exact Fb|].
    split; [discriminate|]. intros _. split; [cbn; field|lia].
  - rewrite lit6. to_R.
    assert (E1 : Rltb 0 (F b) = false) by (apply Rltb_false; lra). rewrite E1. cbn [andb].
    assert (E2 : Rltb (F b) 0 = true) by (apply Rltb_true; lra). rewrite E2. cbn [andb].
    assert (STEP : forall a1 b1, (c = a1 \/ c = b1) -> a <= a1 -> a1 < b1 -> b1 <= b -> b1 - a1 = (b - a) / 2 -> 0 <= F a1 -> F b1 < 0 ->
      (if Rltb (Rabs ((a1 + b1) / 2 - c) / Rabs ((a1 + b1) / 2)) (1 / 10 ^ 6) then ((a1 + b1) / 2, true) else bisect (N:=RN) F k a1 b1 ((a1 + b1) / 2)) = (x, ok) ->
      exists a' b', a <= a' /\ a' < b' /\ b' <= b /\ x = (a' + b') / 2 /\ 0 <= F a' /\ F b' < 0 /\
        (ok = true -> (b' - a') / 2 < x / 10 ^ 6) /\
        (ok = false -> b' - a' = (b - a) / 2 ^ S k /\ ((0 < S k)%nat -> x / 10 ^ 6 <= (b' - a') / 2))).
    { intros a1 b1 H1 A1 B1 C1 L1 Fa1 Fb1. rewrite (test_mid a1 b1 c _ ltac:(lra) B1 H1 eq_refl).
      set (c' := (a1 + b1) / 2). assert (P : 0 < c') by (unfold c'; lra).
      destruct (Rltb ((b1 - a1) / 2 / c') (1 / 10 ^ 6)) eqn:C.
      - apply Rltb_true in C. intros H. injection H as <- <-. exists a1, b1. split; [exact A1|]. split; [exact B1|]. split; [exact C1|]. split; [reflexivity|].
        split; [exact Fa1|]. split; [exact Fb1|]. split; [|discriminate]. intros _. apply Rmult_lt_compat_r with (r := c') in C; [|exact P].
        replace ((b1 - a1) / 2 / c' * c') with ((b1 - a1) / 2) in C by (field; lra). lra.
      - apply Rltb_false in C. intros H. destruct (IH a1 b1 c' x ok eq_refl ltac:(lra) B1 Fa1 Fb1 H) as (a' & b' & Q1 & Q2 & Q3 & Q4 & Q5 & Q6 & Q7 & Q8).
        exists a', b'. split; [lra|]. split; [lra|]. split; [lra|]. split; [exact Q4|]. split; [exact Q5|]. split; [exact Q6|]. split; [exact Q7|].
        intros Hok. destruct (Q8 Hok) as [Q9 Q10]. split.
        + rewrite Q9, L1. change (2 ^ S k) with (2 * 2 ^ k). field. apply pow_nonzero. lra.
        + intros _. destruct k as [|k]; [|apply Q10; lia]. cbn [bisect] in H. injection H as Hx _. rewrite <- Hx. 
          assert (b' - a' = b1 - a1) by (rewrite Q9; cbn; field). rewrite H. apply Rmult_le_compat_r with (r := c') in C; [|lra].
          replace ((b1 - a1) / 2 / c' * c') with ((b1 - a1) / 2) in C by (field; lra). lra. }
    destruct (Rltb (F c) 0) eqn:E3.
    + apply Rltb_true in E3. rewrite !nabs_R. to_R. apply (STEP a c); try lra; right; reflexivity.
    + apply Rltb_false in E3. rewrite !nabs_R. to_R. apply (STEP c b); try lra; left; reflexivity.
Qed.
(** a residual that stays positive drives the multiplier to zero *)
Lemma bisect_left : forall F budget b, 0 < b -> (forall x, 0 < x <= b -> 0 < F x) -> bisect (N:=RN) F budget 0 b (b / 2) = (b / 2 / 2 ^ budget, false).
Proof.
  intros F. induction budget as [|k IH]; intros b Hb HF; cbn [bisect].
  - f_equal. cbn. field.
  - rewrite lit6. to_R.
    rewrite (proj2 (Rltb_true _ _) (HF b ltac:(lra))). cbn [andb]. rewrite (proj2 (Rltb_true _ _) (HF (b / 2) ltac:(lra))).
    rewrite !nabs_R. to_R. rewrite (test_mid 0 (b / 2) (b / 2) _ ltac:(lra) ltac:(lra) ltac:(now right) eq_refl).
    replace ((b / 2 - 0) / 2 / ((0 + b / 2) / 2)) with 1 by (field; lra).
    rewrite (proj2 (Rltb_false _ _)) by lra. replace ((0 + b / 2) / 2) with (b / 2 / 2) by lra.
    rewrite IH; [|lra|intros; apply HF; lra]. f_equal. change (2 ^ S k) with (2 * 2 ^ k). field. apply pow_nonzero. lra.
Qed.
Lemma bisect_left_half : forall F budget, (forall x, 0 < x <= 1 -> 0 < F x) -> bisect (N:=RN) F budget 0 1 ((0 + 1) / 2) = (/ 2 ^ S budget, false).
Proof.
  intros F budget HF. replace ((0 + 1) / 2) with (1 / 2) by lra. rewrite (bisect_left F budget 1 ltac:(lra) HF). f_equal. change (2 ^ S budget) with (2 * 2 ^ budget). field. apply pow_nonzero. lra.
Qed.

(** ** The power function of the library *)
Lemma cpow_pos_arg : forall x y, 0 < x -> cpow x y = Rpower x y.
Proof. intros x y H. unfold cpow. destruct (Rlt_dec 0 x); [reflexivity|lra]. Qed.
Lemma cpow_nonneg : forall x y, 0 <= cpow x y.
Proof. intros. unfold cpow. destruct (Rlt_dec 0 x); [left; apply exp_pos|]. destruct (Req_EM_T y 0); lra. Qed.
Lemma cpow_2 : forall x, 0 <= x -> cpow x 2 = x ^ 2.
Proof.
  intros x H. destruct (Req_dec x 0) as [->|D].
  - unfold cpow. destruct (Rlt_dec 0 0); [lra|]. destruct (Req_EM_T 2 0); [lra|]. ring.
  - rewrite cpow_pos_arg by lra. replace 2 with (INR 2) by (cbn; lra). rewrite Rpower_pow by lra. reflexivity.
Qed.
Lemma cpow_1 : forall x, 0 <= x -> cpow x 1 = x.
Proof.
  intros x H. destruct (Req_dec x 0) as [->|D].
  - unfold cpow. destruct (Rlt_dec 0 0); [lra|]. destruct (Req_EM_T 1 0); lra.
  - rewrite cpow_pos_arg by lra. apply Rpower_1. lra.
Qed.
Lemma cpow_0 : forall m, 0 < m -> cpow 0 m = 0.
Proof. intros m H. unfold cpow. destruct (Rlt_dec 0 0); [lra|]. destruct (Req_EM_T m 0); lra. Qed.
Lemma cpow_mono : forall x y m, 0 <= m -> 0 <= x <= y -> cpow x m <= cpow y m.
Proof.
  intros x y m Hm H. destruct (Req_dec x 0) as [->|D].
  - destruct (Req_dec m 0) as [->|D'].
    + unfold cpow. destruct (Rlt_dec 0 0); [lra|]. destruct (Req_EM_T 0 0); [|lra]. destruct (Rlt_dec 0 y); [|lra]. rewrite Rpower_O by lra. lra.
    + rewrite cpow_0 by lra. apply cpow_nonneg.
  - rewrite !cpow_pos_arg by lra. apply Rle_Rpower_l; lra.
Qed.
Lemma cpow_mult : forall x y m, 0 <= x -> 0 < y -> 0 < m -> cpow (x * y) m = cpow x m * cpow y m.
Proof.
  intros x y m Hx Hy Hm. destruct (Req_dec x 0) as [->|D].
  - rewrite Rmult_0_l, cpow_0 by exact Hm. ring.
  - rewrite !cpow_pos_arg by (try lra; apply Rmult_lt_0_compat; lra). symmetry. apply Rpower_mult_distr; lra.
Qed.
Lemma cpow_cont : forall m, 0 < m -> forall x, continuity_pt (fun x => cpow x m) x.
Proof.
  intros m Hm x. destruct (Rtotal_order x 0) as [H|[->|H]].
  - intros eps He. exists (- x). split; [lra|]. intros y [_ Hy]. cbn in *. unfold R_dist in *. unfold cpow.
    assert (y < 0) by (apply Rabs_def2 in Hy; lra). destruct (Rlt_dec 0 y); [lra|]. destruct (Rlt_dec 0 x); [lra|]. rewrite (Rminus_diag_eq _ _ eq_refl), Rabs_R0. exact He.
  - intros eps He. exists (Rpower eps (/ m)). split; [apply exp_pos|]. intros y [_ Hy]. cbn in *. unfold R_dist in *. rewrite cpow_0 by exact Hm. rewrite Rminus_0_r in *.
    rewrite Rabs_pos_eq by apply cpow_nonneg. destruct (Rlt_dec 0 y) as [P|P].
    + rewrite cpow_pos_arg by exact P. rewrite Rabs_pos_eq in Hy by lra.
      replace eps with (Rpower (Rpower eps (/ m)) m) by (rewrite Rpower_mult, Rinv_l, Rpower_1 by lra; reflexivity).
      unfold Rpower at 1 2. apply exp_increasing. apply Rmult_lt_compat_l; [exact Hm|]. apply ln_increasing; [exact P|exact Hy].
    + unfold cpow. destruct (Rlt_dec 0 y); [lra|]. destruct (Req_EM_T m 0); [lra|exact He].
  - assert (C : continuity_pt (fun x => Rpower x m) x).
    { apply derivable_continuous_pt. exists (m * Rpower x (m - 1)). apply derivable_pt_lim_power. exact H. }
    intros eps He. destruct (C eps He) as (al & Hal & C'). exists (Rmin al x). split; [apply Rmin_pos; lra|]. intros y [D Hy]. cbn in *. unfold R_dist in *.
    assert (0 < y) by (assert (Rmin al x <= x) by apply Rmin_r; apply Rabs_def2 in Hy; lra).
    rewrite !cpow_pos_arg by lra. apply C'. split; [exact D|]. assert (Rmin al x <= al) by apply Rmin_l. lra.
Qed.

(** the multiplier never leaves the interval *)
Lemma bisect_range : forall F budget a b c x ok, c = (a + b) / 2 -> a <= b -> bisect (N:=RN) F budget a b c = (x, ok) -> a <= x <= b.
Proof.
  intros F. induction budget as [|k IH]; intros a b c x ok Hc Hab; cbn [bisect].
  - intros H. injection H as <- <-. lra.
  - to_R. match goal with |- context [let (_, _) := ?p in _] => assert (EP : p = (a, c) \/ p = (c, b)) end.
    { destruct (Rltb 0 (F b) && Rltb 0 (F c))%bool; [now left|]. destruct (Rltb (F b) 0 && Rltb (F c) 0)%bool; [now left|now right]. }
    destruct EP as [-> | ->].
    + match goal with |- context [Rltb ?u ?v] => destruct (Rltb u v) end; [intros H; injection H as <- <-; lra|]. intros H. apply IH in H; [lra|reflexivity|lra].
    + match goal with |- context [Rltb ?u ?v] => destruct (Rltb u v) end; [intros H; injection H as <- <-; lra|]. intros H. apply IH in H; [lra|reflexivity|lra].
Qed.
