From Coq Require Import SpecFloat Reals Lra.
From Verif Require Import Base Num ModelPrint SpecPrint.
Local Open Scope Z_scope.

Lemma pow10_pos e : (0 < pow10 e)%R.
Proof. apply powerRZ_lt. lra. Qed.
Lemma pow10_add a b : pow10 (a + b) = (pow10 a * pow10 b)%R.
Proof. apply powerRZ_add. lra. Qed.
Lemma powerRZ_IZR b k : 0 <= k -> powerRZ (IZR b) k = IZR (b ^ k).
Proof.
  intros H. rewrite <- (Z2Nat.id k) by auto. generalize (Z.to_nat k). intros n. clear.
  induction n as [|n IH]; [reflexivity|].
  rewrite Nat2Z.inj_succ, Z.pow_succ_r by lia. rewrite mult_IZR, <- IH.
  rewrite <- Nat2Z.inj_succ, <- !pow_powerRZ. reflexivity.
Qed.
Lemma pow10_IZR k : 0 <= k -> pow10 k = IZR (10 ^ k).
Proof. intros. now apply (powerRZ_IZR 10). Qed.
Lemma pow10_neg k : pow10 (- k) = (/ pow10 k)%R.
Proof. apply powerRZ_neg'. Qed.
Lemma pow10_1 : pow10 1 = 10%R.
Proof. apply powerRZ_1. Qed.
Lemma pow10_le a b : a <= b -> (pow10 a <= pow10 b)%R.
Proof.
  intros H. replace b with (a + (b - a)) by lia. rewrite pow10_add.
  assert (1 <= pow10 (b - a))%R.
  { rewrite pow10_IZR by lia. apply IZR_le. assert (0 < 10 ^ (b - a)) by (apply Z.pow_pos_nonneg; lia). lia. }
  pose proof (pow10_pos a). nra.
Qed.
Lemma pow10_lt_inv a b : (pow10 a < pow10 b)%R -> a < b.
Proof. intros H. destruct (Z.lt_ge_cases a b) as [L|L]; auto. pose proof (pow10_le b a L). lra. Qed.

Section Pos.
  Variables num den : Z.
  Hypothesis num_pos : 0 < num.
  Hypothesis den_pos : 0 < den.
  Let v := (IZR num / IZR den)%R.
  Lemma den_R : (0 < IZR den)%R. Proof. now apply (IZR_lt 0). Qed.

  Lemma below_ok e : below_pow10 num den e = true <-> (v < pow10 e)%R.
  Proof.
    unfold below_pow10, v. pose proof den_R. destruct (Z.leb_spec 0 e) as [L|L].
    - rewrite Z.ltb_lt. rewrite pow10_IZR by auto. split; intros H0.
      + apply IZR_lt in H0. rewrite mult_IZR in H0. apply (Rmult_lt_reg_r (IZR den)); auto.
        unfold Rdiv. rewrite Rmult_assoc, Rinv_l by lra. lra.
      + apply lt_IZR. rewrite mult_IZR. apply (Rmult_lt_compat_r (IZR den)) in H0; auto.
        unfold Rdiv in H0. rewrite Rmult_assoc, Rinv_l in H0 by lra. lra.
    - rewrite Z.ltb_lt. replace e with (- (- e)) at 2 by lia. rewrite pow10_neg, pow10_IZR by lia.
      assert (P : (0 < IZR (10 ^ (- e)))%R) by (apply (IZR_lt 0), Z.pow_pos_nonneg; lia).
      split; intros H0.
      + apply IZR_lt in H0. rewrite mult_IZR in H0.
        apply (Rmult_lt_reg_r (IZR den * IZR (10 ^ (- e)))); [now apply Rmult_lt_0_compat|].
        replace (IZR num / IZR den * (IZR den * IZR (10 ^ (- e))))%R with (IZR num * IZR (10 ^ - e))%R by (field; lra).
        replace (/ IZR (10 ^ - e) * (IZR den * IZR (10 ^ - e)))%R with (IZR den) by (field; lra). exact H0.
      + apply lt_IZR. rewrite mult_IZR.
        apply (Rmult_lt_compat_r (IZR den * IZR (10 ^ (- e)))) in H0; [|now apply Rmult_lt_0_compat].
        replace (IZR num / IZR den * (IZR den * IZR (10 ^ (- e))))%R with (IZR num * IZR (10 ^ - e))%R in H0 by (field; lra).
        replace (/ IZR (10 ^ - e) * (IZR den * IZR (10 ^ - e)))%R with (IZR den) in H0 by (field; lra). exact H0.
  Qed.
  Lemma find_exp_ok fuel : forall e, (pow10 e <= v)%R -> (v < pow10 (e + Z.of_nat fuel))%R ->
    let X := find_exp fuel num den e in (pow10 X <= v < pow10 (X + 1))%R.
  Proof.
    induction fuel as [|k IH]; intros e H1 H2; cbn [find_exp].
    - rewrite Z.add_0_r in H2. lra.
    - destruct (below_pow10 num den (e + 1)) eqn:E.
      + apply below_ok in E. auto.
      + apply IH.
        * apply Rnot_lt_le. intros C. apply below_ok in C. congruence.
        * replace (e + 1 + Z.of_nat k) with (e + Z.of_nat (S k)) by lia. exact H2.
  Qed.
  (** rounding to the nearest integer *)
  Lemma round_ok p X : let M := round_dec p num den X in
    (Rabs (IZR M - v / pow10 (X - (p - 1))) <= 1 / 2)%R.
  Proof.
    unfold round_dec. set (s := X - (p - 1)).
    set (n := if 0 <=? s then num else num * 10 ^ (- s)). set (d := if 0 <=? s then den * 10 ^ s else den).
    assert (D : 0 < d). { unfold d. destruct (Z.leb_spec 0 s); auto. apply Z.mul_pos_pos; auto. apply Z.pow_pos_nonneg; lia. }
    assert (V : (v / pow10 s = IZR n / IZR d)%R).
    { pose proof den_R. unfold v, n, d. destruct (Z.leb_spec 0 s) as [L|L].
      - rewrite mult_IZR, pow10_IZR by auto. pose proof (pow10_pos s) as P. rewrite pow10_IZR in P by auto. field. lra.
      - replace s with (- (- s)) at 1 by lia. rewrite pow10_neg, pow10_IZR by lia. rewrite mult_IZR.
        assert (0 < IZR (10 ^ (- s)))%R by (apply (IZR_lt 0), Z.pow_pos_nonneg; lia). field. lra. }
    rewrite V. pose proof (Z.div_mod n d ltac:(lia)) as DM. pose proof (Z.mod_pos_bound n d D) as MB.
    assert (DR : (0 < IZR d)%R) by now apply (IZR_lt 0).
    assert (Q : (IZR n / IZR d = IZR (n / d) + IZR (n mod d) / IZR d)%R).
    { rewrite DM at 1. rewrite plus_IZR, mult_IZR. field. lra. }
    rewrite Q. set (r := n mod d) in *. set (q := n / d) in *.
    assert (LO : (2 * r <= d)%Z -> (IZR r / IZR d <= 1 / 2)%R).
    { intros H. apply IZR_le in H. rewrite mult_IZR in H. apply (Rmult_le_reg_r (IZR d)); auto. unfold Rdiv. rewrite Rmult_assoc, Rinv_l by lra. lra. }
    assert (HI : (d <= 2 * r)%Z -> (1 / 2 <= IZR r / IZR d)%R).
    { intros H. apply IZR_le in H. rewrite mult_IZR in H. apply (Rmult_le_reg_r (IZR d)); auto. unfold Rdiv. rewrite (Rmult_assoc (IZR r)), Rinv_l by lra. lra. }
    assert (R0 : (0 <= IZR r / IZR d)%R).
    { apply Rmult_le_pos; [apply (IZR_le 0); lia|]. left. now apply Rinv_0_lt_compat. }
    assert (R1 : (IZR r / IZR d <= 1)%R).
    { apply (Rmult_le_reg_r (IZR d)); auto. unfold Rdiv. rewrite Rmult_assoc, Rinv_l by lra. rewrite !Rmult_1_r, Rmult_1_l. apply IZR_le. lia. }
    apply Rabs_le.
    destruct (Z.ltb_spec (2 * r) d) as [A|A].
    - specialize (LO ltac:(lia)). lra.
    - destruct (Z.ltb_spec d (2 * r)) as [B|B].
      + specialize (HI ltac:(lia)). rewrite plus_IZR. lra.
      + specialize (HI ltac:(lia)). specialize (LO ltac:(lia)). destruct (Z.even q); rewrite ?plus_IZR; lra.
  Qed.
End Pos.

Lemma value_frac m e : (IZR (numerator m e) / IZR (denominator e) = double_value m e)%R.
Proof.
  unfold numerator, denominator, double_value. destruct (Z.leb_spec 0 e) as [L|L].
  - rewrite mult_IZR, (powerRZ_IZR 2) by auto. field.
  - replace e with (- (- e)) at 2 by lia. rewrite powerRZ_neg'. rewrite (powerRZ_IZR 2) by lia.
    assert (0 < IZR (2 ^ (- e)))%R by (apply (IZR_lt 0), Z.pow_pos_nonneg; lia). field. lra.
Qed.
Lemma frac_pos m e : 0 < numerator m e /\ 0 < denominator e.
Proof.
  unfold numerator, denominator. destruct (Z.leb_spec 0 e); split; try lia; try (apply Z.pow_pos_nonneg; lia).
Qed.
Lemma double_range m e : is_double m e -> (pow10 (-330) <= double_value m e < pow10 370)%R.
Proof.
  intros [Hm He]. unfold double_value.
  assert (P : forall k, (0 < powerRZ 2 k)%R) by (intros; apply powerRZ_lt; lra).
  assert (MON : forall a b, a <= b -> (powerRZ 2 a <= powerRZ 2 b)%R).
  { intros a b H. replace b with (a + (b - a)) by lia. rewrite powerRZ_add by lra.
    assert (1 <= powerRZ 2 (b - a))%R.
    { rewrite (powerRZ_IZR 2) by lia. apply IZR_le. assert (0 < 2 ^ (b - a)) by (apply Z.pow_pos_nonneg; lia). lia. }
    pose proof (P a). nra. }
  split.
  - apply Rle_trans with (powerRZ 2 (-1074)).
    + change (-330) with (Z.opp 330). rewrite pow10_neg. change (-1074) with (Z.opp 1074). rewrite powerRZ_neg'.
      rewrite pow10_IZR, (powerRZ_IZR 2) by lia. apply Rinv_le_contravar.
      * apply (IZR_lt 0). vm_compute. reflexivity.
      * apply IZR_le. vm_compute. discriminate.
    + pose proof (MON (-1074) e ltac:(lia)). pose proof (P e). assert (1 <= IZR (Zpos m))%R by (apply IZR_le; lia). nra.
  - apply Rlt_le_trans with (powerRZ 2 1024).
    + change 1024 with (53 + 971). rewrite powerRZ_add by lra. rewrite (powerRZ_IZR 2 53) by lia.
      pose proof (MON e 971 ltac:(lia)). pose proof (P e). pose proof (P 971). apply IZR_lt in Hm.
      assert (0 < IZR (Zpos m))%R by (apply (IZR_lt 0); lia).
      apply Rle_lt_trans with (IZR (Zpos m) * powerRZ 2 971)%R; [apply Rmult_le_compat_l; lra|]. apply Rmult_lt_compat_r; auto.
    + rewrite pow10_IZR, (powerRZ_IZR 2) by lia. apply IZR_le. vm_compute. discriminate.
Qed.

(** The unrounded exponent of a double. *)
Lemma exp_ok m e : is_double m e -> let X := find_exp 700 (numerator m e) (denominator e) (-330) in
  (pow10 X <= double_value m e < pow10 (X + 1))%R.
Proof.
  intros D. destruct (frac_pos m e) as [F1 F2]. rewrite <- value_frac.
  destruct (double_range m e D) as [R1 R2]. rewrite <- value_frac in R1, R2.
  apply find_exp_ok; auto.
Qed.
Lemma exp_unique v X Y : (pow10 X <= v < pow10 (X + 1))%R -> (pow10 Y <= v < pow10 (Y + 1))%R -> X = Y.
Proof.
  intros [A B] [C D]. assert (X < Y + 1) by (apply pow10_lt_inv; lra). assert (Y < X + 1) by (apply pow10_lt_inv; lra). lia.
Qed.
Lemma near_int M z : (Rabs (IZR M - IZR z) < 1)%R -> M = z.
Proof.
  intros H. rewrite <- minus_IZR in H. rewrite <- abs_IZR in H. apply lt_IZR in H. lia.
Qed.

Lemma shape_aux p v M X : 0 < p -> (pow10 X <= v < pow10 (X + 1))%R ->
  (Rabs (IZR M - v / pow10 (X - (p - 1))) <= 1 / 2)%R ->
  let '(M', X') := finish p M X in
  digits p M' /\ (Rabs (decimal_value p M' X' - v) <= 1 / 2 * pow10 (X' - (p - 1)))%R.
Proof.
  intros Hp EX RO. unfold finish.
  assert (U : (0 < pow10 (X - (p - 1)))%R) by apply pow10_pos.
  assert (E1 : pow10 X = (pow10 (p - 1) * pow10 (X - (p - 1)))%R) by (rewrite <- pow10_add; f_equal; lia).
  assert (E2 : pow10 (X + 1) = (pow10 p * pow10 (X - (p - 1)))%R) by (rewrite <- pow10_add; f_equal; lia).
  assert (E3 : pow10 (X + 1 - (p - 1)) = (10 * pow10 (X - (p - 1)))%R) by (replace (X + 1 - (p - 1)) with (1 + (X - (p - 1))) by lia; rewrite pow10_add, pow10_1; reflexivity).
  unfold decimal_value. rewrite E1, E2 in EX. rewrite (pow10_IZR (p - 1)), (pow10_IZR p) in EX by lia. clear E1 E2.
  remember (pow10 (X - (p - 1))) as u eqn:Eu.
  assert (VU : (v / u * u = v)%R) by (field; lra).
  assert (LO : (IZR (10 ^ (p - 1)) <= v / u)%R) by (apply (Rmult_le_reg_r u); lra).
  assert (HI : (v / u < IZR (10 ^ p))%R) by (apply (Rmult_lt_reg_r u); lra).
  assert (RO' : (- (1/2) <= IZR M - v / u <= 1 / 2)%R) by (unfold Rabs in RO; destruct (Rcase_abs _) in RO; lra).
  assert (ML : 10 ^ (p - 1) <= M) by (assert (10 ^ (p - 1) < M + 1); [apply lt_IZR; rewrite plus_IZR; lra|lia]).
  assert (MH : M <= 10 ^ p) by (assert (M < 10 ^ p + 1); [apply lt_IZR; rewrite plus_IZR; lra|lia]).
  assert (AB : (Rabs (IZR M * u - v) <= 1 / 2 * u)%R).
  { replace (IZR M * u - v)%R with ((IZR M - v / u) * u)%R by (rewrite Rmult_minus_distr_r, VU; reflexivity).
    rewrite Rabs_mult, (Rabs_pos_eq u) by lra. apply Rmult_le_compat_r; lra. }
  assert (P10 : 10 ^ p = 10 ^ (p - 1) * 10). { replace p with (p - 1 + 1) at 1 by lia. rewrite Z.pow_add_r by lia. reflexivity. }
  assert (0 < 10 ^ (p - 1)) by (apply Z.pow_pos_nonneg; lia).
  destruct (Z.eqb_spec M (10 ^ p)) as [EM|EM]; unfold digits.
  - split; [lia|]. rewrite E3. replace (IZR (10 ^ (p - 1)) * (10 * u))%R with (IZR M * u)%R; [lra|].
    rewrite EM, P10, mult_IZR. ring.
  - split; [lia|]. rewrite <- Eu. exact AB.
Qed.
Lemma close_aux v M X M' X' : digits 6 M -> (Rabs (v - decimal_value 6 M X) <= 1 / 25 * pow10 (X - 5))%R ->
  (pow10 X' <= v < pow10 (X' + 1))%R -> (Rabs (IZR M' - v / pow10 (X' - (6 - 1))) <= 1 / 2)%R ->
  finish 6 M' X' = (M, X).
Proof.
  intros [M1 M2] H EX RO. unfold finish.
  unfold decimal_value in H. change (X - (6 - 1)) with (X - 5) in H. remember (pow10 (X - 5)) as u eqn:Eu.
  assert (U : (0 < u)%R) by (subst u; apply pow10_pos).
  change (6 - 1) with 5 in M1, RO. apply IZR_le in M1 as M1R. assert (M2R : (IZR M <= IZR (10 ^ 6) - 1)%R).
  { rewrite <- minus_IZR. apply IZR_le. lia. }
  change (IZR (10 ^ 5)) with 100000%R in M1R. change (IZR (10 ^ 6)) with 1000000%R in M2R.
  assert (HV : (- (1 / 25) * u <= v - IZR M * u <= 1 / 25 * u)%R).
  { unfold Rabs in H. destruct (Rcase_abs _) in H; lra. }
  assert (E1 : pow10 X = (100000 * u)%R).
  { replace X with (5 + (X - 5)) at 1 by lia. rewrite pow10_add, (pow10_IZR 5) by lia. now subst. }
  assert (E2 : pow10 (X + 1) = (1000000 * u)%R).
  { replace (X + 1) with (6 + (X - 5)) at 1 by lia. rewrite pow10_add, (pow10_IZR 6) by lia. now subst. }
  destruct (Rle_dec (pow10 X) v) as [L|L].
  - assert (X' = X). { apply (exp_unique v); auto. split; auto. rewrite E2. nra. }
    subst X'. rewrite <- Eu in RO.
    assert (v / u * u = v)%R by (field; lra).
    assert (M' = M).
    { apply near_int. 
      assert (Rabs (v / u - IZR M) <= 1 / 25)%R.
      { apply Rabs_le. split; apply (Rmult_le_reg_r u); auto; lra. }
      replace (IZR M' - IZR M)%R with ((IZR M' - v / u) + (v / u - IZR M))%R by ring.
      eapply Rle_lt_trans; [apply Rabs_triang|]. lra. }
    subst M'. destruct (Z.eqb_spec M (10 ^ 6)); [lia|reflexivity].
  - apply Rnot_le_lt in L. rewrite E1 in L.
    assert (EM : M = 100000).
    { assert (M < 100001); [|lia]. apply lt_IZR. apply (Rmult_lt_reg_r u); auto. lra. }
    remember (pow10 (X - 6)) as w eqn:Ew. assert (W : (0 < w)%R) by (subst w; apply pow10_pos).
    assert (UW : (u = 10 * w)%R).
    { subst u w. replace (X - 5) with (1 + (X - 6)) by lia. now rewrite pow10_add, pow10_1. }
    assert (EX1 : X' = X - 1).
    { apply (exp_unique v); auto. split.
      - replace (X - 1) with (5 + (X - 6)) by lia. rewrite pow10_add, (pow10_IZR 5) by lia. rewrite <- Ew. change (IZR (10 ^ 5)) with 100000%R.
        rewrite EM in HV. lra.
      - replace (X - 1 + 1) with X by lia. rewrite E1. exact L. }
    subst X'. replace (X - 1 - 5) with (X - 6) in RO by lia. rewrite <- Ew in RO.
    assert (v / w * w = v)%R by (field; lra).
    assert (EM' : M' = 1000000).
    { apply near_int. 
      assert (Rabs (v / w - 1000000) <= 4 / 10)%R.
      { rewrite EM in HV. apply Rabs_le. split; apply (Rmult_le_reg_r w); auto; lra. }
      replace (IZR M' - IZR 1000000)%R with ((IZR M' - v / w) + (v / w - 1000000))%R by ring.
      eapply Rle_lt_trans; [apply Rabs_triang|]. lra. }
    rewrite EM'. change (1000000 =? 10 ^ 6) with true. cbn iota. rewrite EM. f_equal. lia.
Qed.
Lemma print_pos_split p m e : is_double m e -> exists M X, print_pos p (numerator m e) (denominator e) = finish p M X /\
  (pow10 X <= double_value m e < pow10 (X + 1))%R /\
  (Rabs (IZR M - double_value m e / pow10 (X - (p - 1))) <= 1 / 2)%R.
Proof.
  intros D. unfold print_pos. exists (round_dec p (numerator m e) (denominator e) (find_exp 700 (numerator m e) (denominator e) (-330))).
  exists (find_exp 700 (numerator m e) (denominator e) (-330)). split; [exact eq_refl|]. split; [exact (exp_ok m e D)|].
  rewrite <- value_frac. apply round_ok. exact (proj2 (frac_pos m e)).
Qed.
Lemma print_pos_shape p m e : is_double m e -> 0 < p ->
  let '(M, X) := print_pos p (numerator m e) (denominator e) in
  digits p M /\ (Rabs (decimal_value p M X - double_value m e) <= 1 / 2 * pow10 (X - (p - 1)))%R.
Proof.
  intros D Hp. destruct (print_pos_split p m e D) as (M & X & -> & H1 & H2). now apply shape_aux.
Qed.
Lemma print_pos_close m e M X : is_double m e -> digits 6 M ->
  (Rabs (double_value m e - decimal_value 6 M X) <= 1 / 25 * pow10 (X - 5))%R ->
  print_pos 6 (numerator m e) (denominator e) = (M, X).
Proof.
  intros D HM H. destruct (print_pos_split 6 m e D) as (M' & X' & -> & H1 & H2). now apply (close_aux (double_value m e)).
Qed.

Lemma eqb_refl (x : FN) : x <> S754_nan -> eqb x x = true.
Proof.
  destruct x as [s|s| |s m e]; intros H; try (now destruct H); try (destruct s; reflexivity).
  cbn. unfold SFeqb, SFcompare. destruct s; rewrite Z.compare_refl, Pos.compare_cont_refl; reflexivity.
Qed.
(** A number equal to two positive doubles makes them the same. *)
Lemma eqb_two (x : FN) m e m' e' : eqb x (S754_finite false m e) = true -> eqb x (S754_finite false m' e') = true ->
  e = e' /\ m = m'.
Proof.
  cbn. unfold SFeqb. destruct x as [s|s| |s a b]; try (destruct s); cbn [SFcompare]; try discriminate.
  destruct (Z.compare_spec b e); try discriminate. destruct (Z.compare_spec b e'); try discriminate.
  destruct (Pos.compare_spec a m) as [A|A|A]; rewrite ?Pos.compare_cont_spec in *; intros H1 H2.
  all: fold (Pos.compare a m) in H1; fold (Pos.compare a m') in H2.
  all: destruct (Pos.compare_spec a m) as [A1|A1|A1]; try discriminate; destruct (Pos.compare_spec a m') as [A2|A2|A2]; try discriminate.
  all: split; congruence.
Qed.
