From Coq Require Import Reals Lra Lia.
From Verif Require Import Base Num ModelNeigh SpecDamage ModelForce ModelGlobal ModelPals SpecForce SpecEnergy SpecPals ProofData ProofDamage ProofFrame ProofForce ProofMaterial ProofCorr ProofEnergy ProofEnergy2 ProofPals ProofPals2 ProofPals3 ProofPals4.

Section Classical.
  Local Open Scope R_scope.
  Local Notation vec := (V3 RN).
  Definition e6 (r : nat) (d : vec) : R := nth r (dev_probes (N:=RN) d) 0.
  Lemma sq6_nth : forall r d, (r < 6)%nat -> nth r (sq6 d) 0 = e6 r d * e6 r d.
  Proof. intros r d Hr. unfold sq6, e6. do 6 (destruct r as [|r]; [reflexivity|]). lia. Qed.
  Lemma vlen_sq : forall d : vec, vlen d * vlen d = vx d * vx d + vy d * vy d + vz d * vz d.
  Proof. intros [a b c]. unfold vlen, vdot. cbn [vx vy vz]. to_R. apply sqrt_sqrt. nra. Qed.
  Lemma e6_val : forall d : vec, vlen d <> 0 ->
    e6 0 d = vx d * vx d / vlen d - vlen d / 3 /\ e6 1 d = vy d * vy d / vlen d - vlen d / 3 /\ e6 2 d = vz d * vz d / vlen d - vlen d / 3 /\
    e6 3 d = 2 * (vx d * vy d) / vlen d /\ e6 4 d = 2 * (vx d * vz d) / vlen d /\ e6 5 d = 2 * (vy d * vz d) / vlen d.
  Proof. intros [a b c] H. repeat split; reflexivity. Qed.
  Lemma e6_sum : forall d : vec, vlen d <> 0 -> e6 0 d + e6 1 d + e6 2 d = 0.
  Proof.
    intros d H. destruct (e6_val d H) as (-> & -> & -> & _). pose proof (vlen_sq d) as Q.
    replace (vx d * vx d / vlen d - vlen d / 3 + (vy d * vy d / vlen d - vlen d / 3) + (vz d * vz d / vlen d - vlen d / 3))
      with ((vx d * vx d + vy d * vy d + vz d * vz d - vlen d * vlen d) / vlen d) by (field; exact H).
    rewrite Q. unfold Rdiv. ring.
  Qed.
  Lemma devf_diag : forall a b c (d : vec), vlen d <> 0 -> devf (diag a b c) d = a * e6 0 d + b * e6 1 d + c * e6 2 d.
  Proof.
    intros a b c d H. destruct (e6_val d H) as (-> & -> & -> & _). unfold devf.
    replace (felt (diag a b c) d) with (a * (vx d * vx d) + b * (vy d * vy d) + c * (vz d * vz d)).
    - replace (trace (diag a b c)) with (a + b + c) by (unfold trace, diag; cbn; rring). field. exact H.
    - destruct d as [p q r]. unfold felt, rotate, diag, vdot. cbn. rring.
  Qed.
  Lemma devf_shear : forall s r (d : vec), (3 <= r < 6)%nat -> vlen d <> 0 -> devf (scaled s (E6 r)) d = s * e6 r d.
  Proof.
    intros s r d Hr H. destruct (e6_val d H) as (_ & _ & _ & V3 & V4 & V5). destruct d as [p q t]. unfold devf. set (L := vlen (v3 p q t)) in *. clearbody L.
    assert (r = 3 \/ r = 4 \/ r = 5)%nat as [-> | [-> | ->]] by lia; [rewrite V3|rewrite V4|rewrite V5]; clear V3 V4 V5;
      unfold scaled, E6, matching_strains, diag, trace, felt, rotate, vdot, vscale, vadd; cbn; to_R; change (T RN) with R in *; field; exact H.
  Qed.
  Lemma dev_axes : forall (q : nat -> nat -> R) (w : nat -> R) (a b c : R) js k,
    (forall j, In j js -> q 0%nat j + q 1%nat j + q 2%nat j = 0) ->
    (forall r, (r < 3)%nat -> jsum (fun _ j => w j * (q r j * q r j)) k js = 2 / 3) ->
    jsum (fun _ j => w j * ((a * q 0%nat j + b * q 1%nat j + c * q 2%nat j) * (a * q 0%nat j + b * q 1%nat j + c * q 2%nat j))) k js = a * a + b * b + c * c - (a + b + c) * (a + b + c) / 3.
  Proof.
    intros q w a b c js k HZ HT.
    rewrite (jsum_ext _ (fun _ j => ((a * a - a * b - a * c + b * c) * (w j * (q 0%nat j * q 0%nat j)) + (b * b - a * b - b * c + a * c) * (w j * (q 1%nat j * q 1%nat j)))
        + (c * c - a * c - b * c + a * b) * (w j * (q 2%nat j * q 2%nat j)))).
    - rewrite !jsum_plus, !jsum_scal, !HT by lia. field.
    - intros i j Hi. pose proof (HZ j (nth_error_In _ _ Hi)) as Z. replace (q 2%nat j) with (- q 0%nat j - q 1%nat j) by lra. ring.
  Qed.

  Variables (omega0 sigma0 : R -> R -> R) (K MU h : R) (x : list vec) (v : list R) (ms : list (list R * list R)) (n p k : nat) (js : list nat).
  Variable (solve : list (list R) -> list R -> outcome (list R)).
  Hypothesis (HS : solves solve) (HM : multipliers (N:=RN) solve omega0 sigma0 h x v p js = Ok (lt_of ms p))
    (Lx : length x = n) (Hp : (p < n)%nat) (HB : forall j, In j js -> (j < n)%nat) (HO : off (nth p x vzero) x js).
  Let W y := pen omega0 sigma0 K MU h x v ms y p k js.
  Let th y := pth omega0 h x v ms y p k js.

  Lemma axes_energy : forall a b c, (forall r, (r < 3)%nat -> seen (nth p x vzero) x v js (E6 r)) ->
    second_order (fun g => W (map (strained g (diag a b c)) x)) (classical_energy K MU (diag a b c)).
  Proof.
    intros a b c Hs.
    assert (HF : fits x v p js (diag a b c)).
    { intros E HE. destruct (In_nth _ _ (diag 0 0 0) HE) as (r & Hr & <-). cbn in Hr. destruct (Compare_dec.lt_dec r 3) as [H3|H3]; [left; apply Hs; exact H3|]. right; left.
      assert (r = 3 \/ r = 4 \/ r = 5)%nat as [-> | [-> | ->]] by lia; unfold inner, matching_strains, diag, vdot; cbn; rring. }
    pose proof (energy_order omega0 sigma0 K MU h x v ms n p k js solve HS HM Lx Hp HB HO (diag a b c) HF) as G.
    match type of G with second_order _ ?l => replace (classical_energy K MU (diag a b c)) with l; [exact G|] end.
    unfold classical_energy. f_equal. f_equal.
    transitivity (a * a + b * b + c * c - (a + b + c) * (a + b + c) / 3).
    - rewrite (jsum_ext _ (fun _ j => sgw sigma0 h x ms p j * nth j v 0 * ((a * e6 0 (bd x p j) + b * e6 1 (bd x p j) + c * e6 2 (bd x p j)) * (a * e6 0 (bd x p j) + b * e6 1 (bd x p j) + c * e6 2 (bd x p j))))).
      + apply (dev_axes (fun r j => e6 r (bd x p j)) (fun j => sgw sigma0 h x ms p j * nth j v 0)).
        * intros j Hin. apply e6_sum. apply (b_off x p js HO j Hin).
        * intros r Hr. destruct (matched omega0 sigma0 h x v ms p k js solve HS HM r ltac:(lia) (Hs r Hr)) as [_ G2].
          rewrite (jsum_ext _ (fun _ j => sgw sigma0 h x ms p j * nth r (sq6 (bd x p j)) 0 * nth j v 0)).
          -- rewrite G2. unfold dev_targets. do 3 (destruct r as [|r]; [reflexivity|]). lia.
          -- intros i j _. rewrite sq6_nth by lia. ring.
      + intros i j Hi. rewrite devf_diag by (apply (b_off x p js HO j (nth_error_In _ _ Hi))). ring.
    - unfold inner, trace, diag, vdot. cbn. to_R. change (T RN) with R in *. field.
  Qed.
  Lemma shear_energy : forall s r, (3 <= r < 6)%nat -> seen (nth p x vzero) x v js (E6 r) ->
    second_order (fun g => W (map (strained g (scaled s (E6 r))) x)) (classical_energy K MU (scaled s (E6 r))).
  Proof.
    intros s r Hr Hs.
    assert (HF : fits x v p js (scaled s (E6 r))).
    { intros E HE. destruct (In_nth _ _ (diag 0 0 0) HE) as (i & Hi & <-). cbn in Hi. destruct (Nat.eq_dec i r) as [->|N]; [left; exact Hs|]. right; left.
      assert (r = 3 \/ r = 4 \/ r = 5)%nat as [-> | [-> | ->]] by lia; do 6 (destruct i as [|i]; [unfold inner, scaled, E6, matching_strains, diag, vdot; cbn; first [rring | congruence]|]); lia. }
    pose proof (energy_order omega0 sigma0 K MU h x v ms n p k js solve HS HM Lx Hp HB HO _ HF) as G.
    match type of G with second_order _ ?l => replace (classical_energy K MU (scaled s (E6 r))) with l; [exact G|] end.
    unfold classical_energy. f_equal. f_equal.
    transitivity (s * s * 2).
    - destruct (matched omega0 sigma0 h x v ms p k js solve HS HM r ltac:(lia) Hs) as [_ G2].
      replace (nth r dev_targets 0) with 2 in G2 by (assert (r = 3 \/ r = 4 \/ r = 5)%nat as [-> | [-> | ->]] by lia; reflexivity).
      rewrite <- G2, <- jsum_scal. apply jsum_ext. intros i j Hi.
      rewrite devf_shear by (auto; apply (b_off x p js HO j (nth_error_In _ _ Hi))). rewrite sq6_nth by lia. ring.
    - assert (r = 3 \/ r = 4 \/ r = 5)%nat as [-> | [-> | ->]] by lia; unfold inner, trace, scaled, E6, matching_strains, diag, vdot; cbn; to_R; change (T RN) with R in *; field.
  Qed.
  Lemma uniform : forall g, -1 < g -> (forall r, (r < 3)%nat -> seen (nth p x vzero) x v js (E6 r)) ->
    th (map (strained g (diag 1 1 1)) x) = 3 * g /\ W (map (strained g (diag 1 1 1)) x) = 1 / 2 * K * (3 * g) * (3 * g) /\
    forall j, In j js -> eps x (map (strained g (diag 1 1 1)) x) (3 * g) p j = 0.
  Proof.
    intros g Hg Hs.
    assert (EX : forall j, In j js -> ext x (map (strained g (diag 1 1 1)) x) p j = g * ze x p j).
    { intros j Hin. pose proof (HB j Hin) as Hjn. unfold ext.
      rewrite !(nth_indep (map (strained g (diag 1 1 1)) x) vzero (strained g (diag 1 1 1) vzero)) by (rewrite map_length; lia). rewrite !map_nth.
      assert (SV : forall a c : vec, vsub (strained g (diag 1 1 1) a) (strained g (diag 1 1 1) c) = vscale (N:=RN) (1 + g) (vsub a c)).
      { intros [] []. apply v3_ext; unfold strained, rotate, diag; cbn; rring. }
      rewrite SV. fold (bd x p j). unfold ze. fold (bd x p j).
      assert (VS : vlen (vscale (N:=RN) (1 + g) (bd x p j)) = (1 + g) * vlen (bd x p j)).
      { unfold vlen. replace (vdot (vscale (N:=RN) (1 + g) (bd x p j)) (vscale (N:=RN) (1 + g) (bd x p j))) with ((1 + g) * (1 + g) * vdot (bd x p j) (bd x p j)).
        - change (sqrt ((1 + g) * (1 + g) * vdot (bd x p j) (bd x p j)) = (1 + g) * sqrt (vdot (bd x p j) (bd x p j))).
          rewrite sqrt_mult; [|nra|destruct (bd x p j) as [a1 a2 a3]; unfold vdot; cbn [vx vy vz]; to_R; nra]. f_equal. apply sqrt_square. lra.
        - destruct (bd x p j) as [a1 a2 a3]. unfold vdot, vscale. cbn [vx vy vz]. rring. }
      rewrite VS. ring. }
    assert (T1 : th (map (strained g (diag 1 1 1)) x) = 3 * g).
    { unfold th, pth.
      rewrite (jsum_ext _ (fun _ j => g * ((omw omega0 h x ms p j * nth 0 (probes (N:=RN) (bd x p j)) 0 * nth j v 0 + omw omega0 h x ms p j * nth 1 (probes (N:=RN) (bd x p j)) 0 * nth j v 0) + omw omega0 h x ms p j * nth 2 (probes (N:=RN) (bd x p j)) 0 * nth j v 0))).
      - rewrite jsum_scal, !jsum_plus.
        rewrite (proj1 (matched omega0 sigma0 h x v ms p k js solve HS HM 0 ltac:(lia) (Hs 0%nat ltac:(lia)))), (proj1 (matched omega0 sigma0 h x v ms p k js solve HS HM 1 ltac:(lia) (Hs 1%nat ltac:(lia)))),
          (proj1 (matched omega0 sigma0 h x v ms p k js solve HS HM 2 ltac:(lia) (Hs 2%nat ltac:(lia)))). unfold targets. cbn [nth]. ring.
      - intros i j Hi. rewrite (EX j (nth_error_In _ _ Hi)). unfold ze. fold (bd x p j). pose proof (vlen_sq (bd x p j)) as Q.
        transitivity (g * omw omega0 h x ms p j * nth j v 0 * (vlen (bd x p j) * vlen (bd x p j))); [ring|]. rewrite Q. unfold probes. cbn [nth]. to_R. ring. }
    assert (EP : forall j, In j js -> eps x (map (strained g (diag 1 1 1)) x) (3 * g) p j = 0).
    { intros j Hin. unfold eps. rewrite (EX j Hin). field. }
    split; [exact T1|]. split; [|exact EP].
    unfold W, pen. unfold th in T1. rewrite T1, jsum_zero; [ring|]. intros i j Hi. rewrite (EP j (nth_error_In _ _ Hi)). ring.
  Qed.
End Classical.
