From Coq Require Import Reals Lra Lia Psatz.
From Verif Require Import Base Num ModelPlastic SpecPlastic.
Local Open Scope R_scope.

(** ** the model over the reals *)
Lemma cube_root_cube : forall z, 0 < z -> cube_root z * cube_root z * cube_root z = z.
Proof.
  intros z H. unfold cube_root. rewrite <- !Rpower_plus. replace (/ 3 + / 3 + / 3) with 1 by lra. now apply Rpower_1.
Qed.
Lemma cube_root_pos : forall z, 0 < cube_root z.
Proof. intros. unfold cube_root, Rpower. apply exp_pos. Qed.

Lemma nabs_R : forall a, nabs (N:=RN) a = Rabs a.
Proof.
  intros a. unfold nabs. to_R. unfold Rltb. destruct (Rlt_dec a 0); [rewrite Rabs_left|rewrite Rabs_right]; lra.
Qed.

(** the cubic (x + 1/alpha)^2 (x + s) = N, s >= 0 *)
Section Cubic.
  Variables be s Nn : R.
  Hypothesis Hb : 0 < be.
  Hypothesis Hs : 0 <= s.
  Definition pol x := (x + be) * (x + be) * (x + s) - Nn.
  Let a := 2 * be + s.
  Let b := be * be + 2 * be * s.
  Let c := be * be * s - Nn.
  Let Q := (a * a - 3 * b) / 9.
  Let R0 := (2 * a * a * a - 9 * a * b + 27 * c) / 54.

  Lemma pol_inc : forall x y, 0 <= x < y -> pol x < pol y.
  Proof.
    intros x y [H0 H]. unfold pol.
    assert ((x + be) * (x + be) < (y + be) * (y + be)) by nra.
    assert ((x + be) * (x + be) * (x + s) <= (x + be) * (x + be) * (y + s)) by (apply Rmult_le_compat_l; nra).
    assert ((x + be) * (x + be) * (y + s) < (y + be) * (y + be) * (y + s)) by (apply Rmult_lt_compat_r; nra).
    lra.
  Qed.
  Lemma pol_depressed : forall t, pol (t - a / 3) = t * t * t - 3 * Q * t + 2 * R0.
  Proof. intros t. unfold pol, R0, Q, c, b, a. field. Qed.
  Lemma Q_sqr : Q = ((be - s) / 3) * ((be - s) / 3).
  Proof. unfold Q, b, a. field. Qed.

  (** a positive root exists only when the polynomial is negative at zero *)
  Lemma root_pos : forall x, pol x = 0 -> 0 < x -> pol 0 < 0.
  Proof. intros x H Hx. rewrite <- H. apply pol_inc. lra. Qed.
  Lemma root_unique : forall x y, pol x = 0 -> pol y = 0 -> 0 < x -> 0 < y -> x = y.
  Proof.
    intros x y H1 H2 Hx Hy. destruct (Rtotal_order x y) as [L|[E|L]]; auto; apply (fun h => pol_inc _ _ h) in L + idtac.
    - assert (P := pol_inc x y (conj (Rlt_le _ _ Hx) L)). lra.
    - assert (P := pol_inc y x (conj (Rlt_le _ _ Hy) L)). lra.
  Qed.

  (** radical branch *)
  Section Radical.
    Hypothesis HR : Q * Q * Q <= R0 * R0.
    Hypothesis HR0 : R0 <> 0.
    Let sg := if Rlt_dec 0 R0 then 1 else if Rlt_dec R0 0 then -1 else 0.
    Let D := sqrt (R0 * R0 - Q * Q * Q).
    Let u := cube_root (Rabs R0 + D).
    Let A := - sg * u.
    Let B := Q / A.
    Lemma radical_facts : A <> 0 /\ A * B = Q /\ A * A * A + B * B * B = - 2 * R0.
    Proof.
      assert (HD : 0 <= D) by apply sqrt_pos.
      assert (HD2 : D * D = R0 * R0 - Q * Q * Q) by (apply sqrt_sqrt; lra).
      assert (Hab : 0 < Rabs R0) by now apply Rabs_pos_lt.
      assert (Hu : u * u * u = Rabs R0 + D) by (apply cube_root_cube; lra).
      assert (Hup : 0 < u) by apply cube_root_pos.
      assert (Hsg : sg * sg = 1 /\ sg * Rabs R0 = R0).
      { unfold sg. destruct (Rlt_dec 0 R0) as [h|h]; [rewrite Rabs_right by lra; lra|].
        destruct (Rlt_dec R0 0) as [h'|h']; [rewrite Rabs_left by lra; lra|lra]. }
      destruct Hsg as [S1 S2].
      assert (HA : A <> 0). { unfold A. intros C. assert (sg = 0) by nra. nra. }
      assert (HAB : A * B = Q) by (unfold B; field; auto).
      repeat split; auto.
      assert (HA3 : A * A * A = - sg * (Rabs R0 + D)).
      { unfold A. replace (- sg * u * (- sg * u) * (- sg * u)) with (- (sg * sg) * sg * (u * u * u)) by ring. rewrite S1, Hu. ring. }
      assert (HB3 : A * A * A * (B * B * B) = Q * Q * Q).
      { replace (A * A * A * (B * B * B)) with ((A * B) * (A * B) * (A * B)) by ring. now rewrite HAB. }
      assert (HA3' : A * A * A <> 0) by (apply Rmult_integral_contrapositive_currified; [apply Rmult_integral_contrapositive_currified|]; auto).
      assert (Rabs R0 * Rabs R0 = R0 * R0) by (destruct (Rcase_abs R0); [rewrite Rabs_left by lra|rewrite Rabs_right by lra]; ring).
      assert (E : A * A * A * (B * B * B) = A * A * A * (- sg * (Rabs R0 - D))).
      { rewrite HB3, HA3. replace (- sg * (Rabs R0 + D) * (- sg * (Rabs R0 - D))) with ((sg * sg) * (Rabs R0 * Rabs R0 - D * D)) by ring.
        rewrite S1, HD2, H. ring. }
      apply Rmult_eq_reg_l in E; auto. rewrite HA3, E. replace (- sg * (Rabs R0 + D) + - sg * (Rabs R0 - D)) with (-2 * (sg * Rabs R0)) by ring.
      rewrite S2. ring.
    Qed.
    Lemma radical_root : pol (A + B - a / 3) = 0.
    Proof.
      destruct radical_facts as (HA & HAB & H3). rewrite pol_depressed.
      replace ((A + B) * (A + B) * (A + B)) with (A * A * A + B * B * B + 3 * (A * B) * (A + B)) by ring. rewrite H3, HAB. ring.
    Qed.
    Lemma radical_pos : pol 0 < 0 -> 0 < A + B - a / 3.
    Proof.
      intros H. destruct radical_facts as (HA & HAB & H3).
      set (t1 := A + B) in *.
      assert (F : forall t, t * t * t - 3 * Q * t + 2 * R0 = (t - t1) * (t * t + t1 * t + t1 * t1 - 3 * Q)).
      { intros t. assert (P := radical_root). fold t1 in P. rewrite pol_depressed in P.
        replace (2 * R0) with (- (t1 * t1 * t1 - 3 * Q * t1)) by lra. ring. }
      assert (P0 : pol 0 = (a / 3 - t1) * ((a / 3) * (a / 3) + t1 * (a / 3) + t1 * t1 - 3 * Q)).
      { rewrite <- F, <- pol_depressed. f_equal. ring. }
      assert (Hq : 0 <= (a / 3) * (a / 3) + t1 * (a / 3) + t1 * t1 - 3 * Q).
      { assert (H4 : 4 * Q <= t1 * t1).
        { assert (E : t1 * t1 - 4 * (A * B) = Rsqr (A - B)) by (unfold t1, Rsqr; ring). pose proof (Rle_0_sqr (A - B)). rewrite HAB in E. lra. }
        clear - H4. clearbody t1 Q. generalize (a / 3). intros w.
        assert (E : w * w + t1 * w + t1 * t1 - 3 * Q = Rsqr (w + t1 / 2) + 3 / 4 * (t1 * t1 - 4 * Q)) by (unfold Rsqr; field).
        pose proof (Rle_0_sqr (w + t1 / 2)). lra. }
      rewrite P0 in H. destruct (Rle_lt_dec (t1 - a / 3) 0); [|auto]. exfalso.
      assert (0 <= a / 3 - t1) by lra. nra.
    Qed.
  End Radical.

  (** trigonometric branch *)
  Section Trig.
    Hypothesis HR : R0 * R0 < Q * Q * Q.
    Let q := sqrt Q.
    Let th := acos (R0 / sqrt (Q * Q * Q)).
    Lemma Q_pos : 0 < Q.
    Proof. 
      destruct (Rle_lt_dec Q 0) as [h|h]; auto. exfalso. pose proof (Rle_0_sqr R0) as h1. pose proof (Rle_0_sqr Q) as h2. unfold Rsqr in *.
      assert (h3 : 0 <= Q * Q * - Q) by (apply Rmult_le_pos; lra). lra.
    Qed.
    Lemma q_facts : 0 < q /\ q * q = Q /\ sqrt (Q * Q * Q) = q * q * q.
    Proof.
      pose proof Q_pos. assert (0 < q) by now apply sqrt_lt_R0. assert (q * q = Q) by (apply sqrt_sqrt; lra).
      repeat split; auto. rewrite <- H1. replace (q * q * (q * q) * (q * q)) with (Rsqr (q * q * q)) by (unfold Rsqr; ring).
      apply sqrt_Rsqr. assert (0 < q * q) by nra. nra.
    Qed.
    Lemma cos_th : q * q * q * cos th = R0.
    Proof.
      destruct q_facts as (H1 & H2 & H3). unfold th. rewrite H3.
      assert (Hq3 : 0 < q * q * q) by (assert (0 < q * q) by nra; nra).
      assert (Hlt : R0 * R0 < (q * q * q) * (q * q * q)) by (replace (q * q * q * (q * q * q)) with ((q * q) * (q * q) * (q * q)) by ring; now rewrite H2).
      assert (- (q * q * q) < R0 < q * q * q) by (split; nra).
      rewrite cos_acos.
      - field. lra.
      - assert (E : R0 / (q * q * q) * (q * q * q) = R0) by (field; lra).
        clear - H E Hq3. clearbody R0. revert H E Hq3. generalize (q * q * q). intros w H E Hq3.
        split; apply Rmult_le_reg_r with w; auto; rewrite E; lra.
    Qed.
    Let cth := cos (th / 3).
    Let sth := sin (th / 3).
    Lemma cs : sth * sth = 1 - cth * cth.
    Proof. unfold sth, cth. pose proof (sin2_cos2 (th / 3)). unfold Rsqr in *. lra. Qed.
    Lemma cos3 : 4 * cth * cth * cth - 3 * cth = cos th.
    Proof.
      unfold cth. replace (cos th) with (cos (2 * (th / 3) + th / 3)) by (f_equal; field).
      rewrite cos_plus, cos_2a, sin_2a. fold cth sth.
      replace (2 * sth * cth * sth) with (2 * cth * (sth * sth)) by ring. rewrite cs. ring.
    Qed.
    Lemma c23 : cos (2 * PI / 3) = - / 2.
    Proof.
      replace (2 * PI / 3) with (2 * (PI / 3)) by field. rewrite cos_2a, cos_PI3, sin_PI3.
      assert (sqrt 3 * sqrt 3 = 3) by (apply sqrt_sqrt; lra). unfold Rdiv. nra.
    Qed.
    Lemma s23 : sin (2 * PI / 3) = sqrt 3 / 2.
    Proof. replace (2 * PI / 3) with (2 * (PI / 3)) by field. rewrite sin_2a, cos_PI3, sin_PI3. field. Qed.
    Let t1 := -2 * q * cos (th / 3).
    Let t2 := -2 * q * cos (th / 3 + 2 * PI / 3).
    Let t3 := -2 * q * cos (th / 3 - 2 * PI / 3).
    Lemma trig_factor : forall t, t * t * t - 3 * Q * t + 2 * R0 = (t - t1) * (t - t2) * (t - t3).
    Proof.
      intros t. destruct q_facts as (H1 & H2 & H3). unfold t1, t2, t3. rewrite cos_plus, cos_minus, c23, s23. fold cth sth.
      assert (S3 : sqrt 3 * sqrt 3 = 3) by (apply sqrt_sqrt; lra). pose proof cs as C1. pose proof cos3 as C2. pose proof cos_th as C3.
      rewrite <- C3, <- C2, <- H2.
      replace ((t - -2 * q * cth) * (t - -2 * q * (cth * - / 2 - sth * (sqrt 3 / 2))) * (t - -2 * q * (cth * - / 2 + sth * (sqrt 3 / 2))))
        with ((t + 2 * q * cth) * ((t - q * cth) * (t - q * cth) - q * q * (sth * sth) * (sqrt 3 * sqrt 3))) by field.
      rewrite S3, C1. ring.
    Qed.
    Lemma pol_factor : forall x, pol x = (x - (t1 - a / 3)) * (x - (t2 - a / 3)) * (x - (t3 - a / 3)).
    Proof.
      intros x. replace x with ((x + a / 3) - a / 3) at 1 by ring. rewrite pol_depressed, trig_factor. ring.
    Qed.
    Lemma trig_roots : pol (t1 - a / 3) = 0 /\ pol (t2 - a / 3) = 0 /\ pol (t3 - a / 3) = 0.
    Proof. rewrite !pol_factor. repeat split; ring. Qed.
    Lemma trig_pos : pol 0 < 0 -> 0 < t1 - a / 3 \/ 0 < t2 - a / 3 \/ 0 < t3 - a / 3.
    Proof.
      rewrite pol_factor. generalize (t1 - a / 3) (t2 - a / 3) (t3 - a / 3). intros x y z H.
      destruct (Rlt_dec 0 x); auto. destruct (Rlt_dec 0 y); auto. destruct (Rlt_dec 0 z); auto. exfalso.
      assert (0 <= (0 - x) * (0 - y)) by (apply Rmult_le_pos; lra).
      assert (0 <= (0 - x) * (0 - y) * (0 - z)) by (apply Rmult_le_pos; lra). lra.
    Qed.
  End Trig.
End Cubic.

(** ** the solver *)
Section Solver.
  Variable dmax : R.

  Lemma smaller_cases : forall (P : R -> Prop) m x, (m = dmax \/ P m /\ 0 < m) -> (0 < x -> P x) ->
    (smaller_root (N:=RN) m x = dmax \/ P (smaller_root (N:=RN) m x) /\ 0 < smaller_root (N:=RN) m x).
  Proof.
    intros P m x Hm Hx. unfold smaller_root. to_R. destruct (Rltb 0 x) eqn:E; [|exact Hm]. cbn [andb].
    apply Rltb_true in E. destruct (Rltb _ _); [|exact Hm]. right. split; auto.
  Qed.
  (** with a positive root below DBL_MAX the result is below DBL_MAX *)
  Lemma smaller_le : forall m x, 0 < m -> smaller_root (N:=RN) m x <= m /\ (0 < x -> smaller_root (N:=RN) m x <= x) /\ 0 < smaller_root (N:=RN) m x.
  Proof.
    intros m x Hm. unfold smaller_root. rewrite !nabs_R. to_R. destruct (Rltb 0 x) eqn:E; cbn [andb].
    - apply Rltb_true in E. rewrite (Rabs_right x), (Rabs_right m) by lra. destruct (Rltb x m) eqn:F; [apply Rltb_true in F|apply Rltb_false in F]; lra.
    - apply Rltb_false in E. lra.
  Qed.

  Lemma update_cases : forall n lam psi al H, 0 < al -> 0 < H -> 0 <= lam -> 0 <= psi -> 0 < n -> 0 < dmax ->
    n * n / (2 * H) < dmax ->
    let x := update_R dmax n lam psi al H in
    (psi + H * lam < n * n / 2 /\ 0 < x /\ n * n / (2 * ((1 + al * x) * (1 + al * x))) = psi + H * (lam + x)) \/
    (n * n / 2 <= psi + H * lam /\ x = 0).
  Proof.
    intros n lam psi al H Hal HH Hlam Hpsi Hn Hd Hbig x.
    set (be := / al). set (s := lam + psi / H). set (Nn := n * n / (2 * H * (al * al))).
    assert (Hbe : 0 < be) by now apply Rinv_0_lt_compat.
    assert (Hs : 0 <= s). { unfold s. assert (0 <= psi / H) by (apply Rmult_le_pos; [auto|left; now apply Rinv_0_lt_compat]). lra. }
    assert (Hal2 : 0 < al * al) by nra.
    assert (PE : forall y, pol be s Nn y = ((1 + al * y) * (1 + al * y) * (psi + H * (lam + y)) - n * n / 2) / (H * (al * al))).
    { intros y. unfold pol, be, s, Nn. field. lra. }
    assert (HHal : 0 < / (H * (al * al))) by (apply Rinv_0_lt_compat; nra).
    assert (P0 : pol be s Nn 0 < 0 <-> psi + H * lam < n * n / 2).
    { rewrite PE. replace ((1 + al * 0) * (1 + al * 0) * (psi + H * (lam + 0)) - n * n / 2) with (psi + H * lam - n * n / 2) by ring.
      unfold Rdiv at 1. split; intros; [|assert (psi + H * lam - n * n / 2 < 0) by lra; nra].
      destruct (Rlt_dec (psi + H * lam) (n * n / 2)); auto. exfalso. assert (0 <= (psi + H * lam - n * n / 2) * / (H * (al * al))) by (apply Rmult_le_pos; lra). lra. }
    assert (sol : forall y, pol be s Nn y = 0 -> 0 < y -> n * n / (2 * ((1 + al * y) * (1 + al * y))) = psi + H * (lam + y)).
    { intros y Hy Hpos. rewrite PE in Hy. unfold Rdiv at 1 in Hy. apply Rmult_integral in Hy as [Hy|Hy]; [|lra].
      assert (0 < 1 + al * y) by nra.
      assert (E : n * n = 2 * ((1 + al * y) * (1 + al * y) * (psi + H * (lam + y)))) by lra. rewrite E. field. lra. }
    assert (small : forall y, pol be s Nn y = 0 -> 0 < y -> y < dmax).
    { intros y Hy Hpos. rewrite PE in Hy. unfold Rdiv at 1 in Hy. apply Rmult_integral in Hy as [Hy|Hy]; [|lra].
      assert (1 <= (1 + al * y) * (1 + al * y)). { assert (0 < al * y) by nra. nra. }
      assert (H * y <= n * n / 2). { assert (0 <= psi + H * lam) by nra. assert (0 < H * y) by nra. nra. }
      apply Rle_lt_trans with (n * n / (2 * H)); auto. apply Rmult_le_reg_l with H; auto.
      replace (H * (n * n / (2 * H))) with (n * n / 2) by (field; lra). auto. }
    assert (Ea : 2 / al + lam + psi / H = 2 * be + s) by (unfold be, s; field; lra).
    assert (Eb : (H + 2 * al * H * lam + 2 * al * psi) / (al * al * H) = be * be + 2 * be * s) by (unfold be, s; field; lra).
    assert (Ec : (2 * H * lam + 2 * psi - n * n) / (2 * al * al * H) = be * be * s - Nn) by (unfold be, s, Nn; field; lra).
    assert (main : (pol be s Nn x = 0 /\ 0 < x) \/ (x = 0 /\ ~ pol be s Nn 0 < 0)).
    { unfold x, update_R, updateDeltaLambda. to_R. rewrite Ea, Eb, Ec.
      set (a := 2 * be + s). set (b := be * be + 2 * be * s). set (c := be * be * s - Nn).
      set (Q := (a * a - 3 * b) / 9). set (R0 := (2 * a * a * a - 9 * a * b + 27 * c) / 54).
      destruct (Rltb (R0 * R0) (Q * Q * Q)) eqn:E.
      - apply Rltb_true in E.
        pose proof (trig_roots be s Nn E) as (T1 & T2 & T3). pose proof (trig_pos be s Nn E) as TP.
        fold a b c in T1, T2, T3, TP. fold Q R0 in T1, T2, T3, TP.
        set (th := acos (R0 / sqrt (Q * Q * Q))) in *.
        replace (- (2)) with (-2) by lra.
        set (r1 := -2 * sqrt Q * cos (th / 3) - a / 3) in *.
        set (r2 := -2 * sqrt Q * cos (th / 3 + 2 * PI / 3) - a / 3) in *.
        set (r3 := -2 * sqrt Q * cos (th / 3 - 2 * PI / 3) - a / 3) in *.
        set (m1 := smaller_root (N:=RN) dmax r1). set (m2 := smaller_root (N:=RN) m1 r2). set (m3 := smaller_root (N:=RN) m2 r3).
        destruct (smaller_le dmax r1 Hd) as (A1 & A2 & A3). fold m1 in A1, A2, A3.
        destruct (smaller_le m1 r2 A3) as (B1 & B2 & B3). fold m2 in B1, B2, B3.
        destruct (smaller_le m2 r3 B3) as (C1 & C2 & C3). fold m3 in C1, C2, C3.
        assert (M1 := smaller_cases (fun y => pol be s Nn y = 0) dmax r1 (or_introl eq_refl) (fun _ => T1)). fold m1 in M1.
        assert (M2 := smaller_cases (fun y => pol be s Nn y = 0) m1 r2 M1 (fun _ => T2)). fold m2 in M2.
        assert (M3 := smaller_cases (fun y => pol be s Nn y = 0) m2 r3 M2 (fun _ => T3)). fold m3 in M3.
        destruct (Reqb m3 dmax) eqn:F.
        + apply Reqb_true in F. right. split; auto. intros C. destruct (TP C) as [K|[K|K]].
          * specialize (A2 K). pose proof (small _ T1 K). lra.
          * specialize (B2 K). pose proof (small _ T2 K). lra.
          * specialize (C2 K). pose proof (small _ T3 K). lra.
        + apply Reqb_false in F. left. destruct M3 as [M3|M3]; [contradiction|auto].
      - apply Rltb_false in E.
        assert (HR0 : R0 <> 0).
        { intros C. assert (EQ : Q = ((be - s) / 3) * ((be - s) / 3)) by (unfold Q, b, a; field).
          rewrite C in E. assert (Q3 : Q * Q * Q <= 0) by lra.
          assert (Qz : Q = 0). { assert (0 <= Q) by (rewrite EQ; apply Rle_0_sqr). clear - H0 Q3. clearbody Q. destruct (Req_dec Q 0); auto. assert (0 < Q) by lra. assert (0 < Q * Q) by nra. assert (0 < Q * Q * Q) by nra. lra. }
          assert (be = s). { rewrite Qz in EQ. symmetry in EQ. apply Rmult_integral in EQ. destruct EQ; lra. }
          assert (ER : R0 = - Nn / 2). { unfold R0, c, b, a. rewrite <- H0. field. }
          assert (0 < Nn). { unfold Nn. apply Rmult_lt_0_compat; [nra|apply Rinv_0_lt_compat; nra]. } lra. }
        pose proof (radical_root be s Nn E HR0) as RR. pose proof (radical_pos be s Nn E HR0) as RP.
        fold a b c in RR, RP. fold Q R0 in RR, RP.
        assert (ES : sign_of (N:=RN) R0 = if Rlt_dec 0 R0 then 1 else if Rlt_dec R0 0 then -1 else 0).
        { unfold sign_of. to_R. unfold Rltb. destruct (Rlt_dec 0 R0); auto. destruct (Rlt_dec R0 0); auto; lra. }
        rewrite ES, nabs_R.
        match goal with |- context [if Rltb ?v 0 then _ else _] => set (val := v) in * end.
        assert (RP' : pol be s Nn 0 < 0 -> 0 < val) by exact RP.
        assert (RR' : pol be s Nn val = 0) by exact RR.
        destruct (Rltb val 0) eqn:F; [apply Rltb_true in F|apply Rltb_false in F].
        + right. split; auto. intros C. specialize (RP' C). lra.
        + destruct (Req_dec val 0) as [V|V].
          * right. split; auto. intros C. specialize (RP' C). lra.
          * left. split; auto. lra. }
    destruct main as [[M1 M2]|[M1 M2]].
    - left. assert (pol be s Nn 0 < 0) by (eapply root_pos; eauto). apply P0 in H0. auto.
    - right. split; auto. destruct (Rle_lt_dec (n * n / 2) (psi + H * lam)); auto. exfalso. apply M2. now apply P0.
  Qed.

  (** the consistency equation has at most one positive solution *)
  Lemma consistency_unique : forall n lam psi al H x y, 0 < al -> 0 < H -> 0 <= lam -> 0 <= psi -> 0 < x -> 0 < y ->
    n * n / (2 * ((1 + al * x) * (1 + al * x))) = psi + H * (lam + x) ->
    n * n / (2 * ((1 + al * y) * (1 + al * y))) = psi + H * (lam + y) -> x = y.
  Proof.
    intros n lam psi al H x y Hal HH Hlam Hpsi Hx Hy E1 E2.
    assert (W : forall z, 0 < z -> n * n / (2 * ((1 + al * z) * (1 + al * z))) = psi + H * (lam + z) ->
       pol (/ al) (lam + psi / H) (n * n / (2 * H * (al * al))) z = 0).
    { intros z Hz E. assert (0 < 1 + al * z) by nra.
      assert (E' : n * n / 2 = (1 + al * z) * (1 + al * z) * (psi + H * (lam + z))) by (rewrite <- E; field; lra).
      unfold pol. replace ((z + / al) * (z + / al) * (z + (lam + psi / H)) - n * n / (2 * H * (al * al)))
        with (((1 + al * z) * (1 + al * z) * (psi + H * (lam + z)) - n * n / 2) / (H * (al * al))) by (field; lra).
      rewrite <- E'. unfold Rdiv. ring. }
    assert (0 <= psi / H) by (apply Rmult_le_pos; [auto|left; now apply Rinv_0_lt_compat]).
    eapply (root_unique (/ al) (lam + psi / H)); eauto; [now apply Rinv_0_lt_compat|lra].
  Qed.
End Solver.
