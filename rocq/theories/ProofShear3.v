From Coq Require Import Reals Lra Lia ZArith.
From Verif Require Import Base Num ModelNeigh SpecDamage ModelForce ModelDiffusion ModelEnergy ModelShear SpecForce SpecEnergy SpecShear ProofData ProofDamage ProofFrame ProofForce ProofMaterial ProofCorr ProofEnergy ProofEnergy2 ProofEnergy3 ProofEnergy4 ProofShear ProofShear2.
Local Open Scope R_scope.
Local Notation vec := (V3 RN).

(** ** elastic steps of the hardening solid *)
Lemma hardening_elastic : forall update K MU H sigma h n nbrs x y v m scf lam th f out,
  cloud_ok (N:=RN) n nbrs x y v -> per_point (N:=RN) nbrs m -> per_point (N:=RN) nbrs scf -> per_point (N:=RN) nbrs lam ->
  dilatations (dilatation (N:=RN) (fun _ _ => 1) h 0 None x y v (repeat 0 (num_bonds nbrs)) None m) 0 0 nbrs = Ok th ->
  run_kernel (hardening (N:=RN) update K MU H sigma h x y v m th (repeat 0 (num_bonds nbrs)) scf (repeat 0 (num_bonds nbrs)) lam) nbrs (repeat vzero n) = Ok (f, out) ->
  Forall (fun o => pp_elastic (fst o) = true) out ->
  exists W, multiphysics_evaluation (N:=RN) (fun _ _ => 1) K MU h 0 None x y (repeat 0 (length nbrs)) v m scf (repeat 0 (num_bonds nbrs)) nbrs = Ok (f, W, th).
Proof.
  intros update K MU H sigma h n nbrs x y v m scf lam th f out HC Lm Ls Ll Hth HR HE.
  pose proof HC as (Lx & Ly & Lv & Ln & Hj). unfold per_point in *.
  assert (LP : length (repeat 0 (length nbrs)) = length nbrs) by apply repeat_length.
  destruct (multi_closed (fun _ _ => 1) K MU h 0 None n nbrs x y (repeat 0 (length nbrs)) v m scf (repeat 0 (num_bonds nbrs)) HC Lm (repeat_length _ _) I Ls LP) as (f' & out' & R' & E).
  assert (TH : th = pmap (th_sum (fun _ _ => 1) h 0 None x v m (repeat 0 (num_bonds nbrs)) y) 0 0 nbrs).
  { pose proof (dilatations_closed (fun _ _ => 1) h 0 None x v m (repeat 0 (num_bonds nbrs)) nbrs n Lx Lv Ln Hj Lm (repeat_length _ _) I y Ly) as D.
    pose proof (eq_trans (eq_sym Hth) D) as Q. injection Q as Q. exact Q. }
  rewrite TH in *. clear TH Hth.
  set (ths := pmap (th_sum (fun _ _ => 1) h 0 None x v m (repeat 0 (num_bonds nbrs)) y) 0 0 nbrs) in *.
  set (K1 := hardening _ _ _ _ _ _ _ _ _ _ _ _ _ _ _) in HR.
  change (run_kernel (coupled (N:=RN) (fun _ _ => 1) K MU h 0 None x y (repeat 0 (length nbrs)) v m ths scf (repeat 0 (num_bonds nbrs))) nbrs (repeat vzero n) = Ok (f', out')) in R'.
  set (K2 := coupled _ _ _ _ _ _ _ _ _ _ _ _ _ _) in R'.
  destruct (run_sim K1 K2 (fun a => a) (fun p d1 d2 => pp_elastic d1 = true /\ exists s, pp_alpha d1 = s * 15 * MU / pp_m d1 /\ d2 = (pp_X d1, pp_Y d1, (pp_m d1, pp_theta d1, s, 0), None)) (fun _ _ _ => True)) with (nbrs := nbrs) (f := @repeat vec vzero n) (f' := f) (out := out) as (out2 & S1 & _); auto.
  - repeat split; reflexivity.
  - split; [|split].
    + intros p js d1 Hp Hd.
      destruct (run_out K1 nbrs _ _ _ HR) as [_ RO]. destruct (RO p js Hp) as (d & ss & N1 & N2 & _).
      assert (d = d1) by (rewrite Hd in N2; now injection N2). subst d.
      eapply Forall_forall in HE; [|eapply nth_error_In; exact N1]. cbn [fst] in HE.
      assert (Hpl : (p < length nbrs)%nat) by (apply nth_error_Some; congruence).
      cbn [pre K1 hardening] in Hd. unfold hard_pre in Hd. cbn [pre K2 coupled].
      rewrite (at_nth vec vzero x p), (at_nth vec vzero y p) in * by lia. cbn [bind] in *.
      rewrite (at_nth (T RN) 0 m p) in * by rlia. cbn [bind] in *.
      assert (LT : (p < length ths)%nat) by (unfold ths; rewrite pmap_len; exact Hpl).
      rewrite (at_nth (T RN) 0 ths p) in * by exact LT. cbn [bind] in *.
      rewrite (at_nth (T RN) 0 lam p) in Hd by rlia. rewrite (at_nth (T RN) 0 scf p) in * by rlia. cbn [bind opt_at] in *.
      apply bind_Ok in Hd as (n2 & _ & Hd). cbv zeta in Hd.
      rewrite (at_nth (T RN) 0 (repeat 0 (length nbrs)) p) by (rewrite repeat_length; exact Hpl). cbn [bind].
      eexists. split; [reflexivity|]. rewrite zeros. split; [exact HE|]. exists (nth p scf 0).
      match type of Hd with (if ?b then _ else _) = _ => destruct b end; injection Hd as <-; cbn [pp_elastic] in HE; [discriminate|].
      cbn [pp_alpha pp_m pp_X pp_Y pp_theta]. split; reflexivity.
    + intros p k j d1 d2 fb s Hb (EL & sc & EA & ->) Hbond. cbn [bond K1 hardening] in Hbond. cbn [bond K2 coupled].
      unfold plastic_bond in Hbond. pose proof (bond_at_In _ _ _ _ _ Hb Hj) as Hjn. cbv beta in Hjn.
      rewrite (at_nth vec vzero x j), (at_nth vec vzero y j) in * by lia. cbn [bind] in *.
      assert (Hk : (k < num_bonds nbrs)%nat) by (exact (proj2 (bond_at_bound _ _ _ _ Hb))).
      rewrite (at_nth (T RN) 0 (repeat 0 (num_bonds nbrs)) k) in * by (rewrite repeat_length; exact Hk). cbn [bind] in *.
      cbv zeta in Hbond. rewrite EL, zeros in Hbond. apply Ok_pair in Hbond as [-> _].
      eexists. split; [|exact I]. rewrite zeros. f_equal. apply f_equal2; [|reflexivity]. f_equal.
      unfold coupled_t, ed_of, thermal. rewrite EA. to_R. change (T RN) with R in *. unfold Rdiv. ring.
    + intros p k j r _ Hr. exact Hr.
  - rewrite map_id in S1. rewrite map_id in S1. pose proof (eq_trans (eq_sym R') S1) as Q. apply Ok_pair in Q as [Q _].
    eexists. rewrite E. rewrite Q. reflexivity.
Qed.

(** ** a point with six neighbours *)
Definition cross (Q : vec -> vec) : list vec :=
  map Q [v3 (N:=RN) 0 0 0; v3 (N:=RN) 1 0 0; v3 (N:=RN) (-1) 0 0; v3 (N:=RN) 0 1 0; v3 (N:=RN) 0 (-1) 0; v3 (N:=RN) 0 0 1; v3 (N:=RN) 0 0 (-1)].
Definition cross_nbrs : list (list nat) := [[1; 2; 3; 4; 5; 6]%nat].
Definition cross_v : list R := [1; 1; 1; 1; 1; 1; 1].
Lemma cross_cloud : forall Q y, length y = 7%nat -> cloud_ok (N:=RN) 7 cross_nbrs (cross Q) y cross_v.
Proof. intros Q y L. repeat split; auto; cbn; [lia|repeat constructor]. Qed.
Lemma cross_self : no_self cross_nbrs.
Proof. intros [|[|p]] js H; cbn in H; try discriminate. injection H as <-. cbn. lia. Qed.
Lemma dev_six : forall md (x : list vec) g (l : nat -> R),
  (forall j, In j [1; 2; 3; 4; 5; 6]%nat -> ze x 0 j = 1 /\ ex 0 None x (probed g x md 0) 0 j = l j - 1) ->
  let t := (l 1%nat + l 2%nat + l 3%nat + l 4%nat + l 5%nat + l 6%nat) / 6 in
  dev (fun _ _ => 1) 1 g x cross_v [6] 0 (repeat 0 (num_bonds cross_nbrs)) md 0 0 [1; 2; 3; 4; 5; 6]%nat =
  Rsqr (l 1%nat - t) + Rsqr (l 2%nat - t) + Rsqr (l 3%nat - t) + Rsqr (l 4%nat - t) + Rsqr (l 5%nat - t) + Rsqr (l 6%nat - t).
Proof.
  intros md x g l H t.
  pose proof (H 1%nat ltac:(cbn; auto)) as [A1 B1]. pose proof (H 2%nat ltac:(cbn; auto)) as [A2 B2]. pose proof (H 3%nat ltac:(cbn; auto)) as [A3 B3].
  pose proof (H 4%nat ltac:(cbn; tauto)) as [A4 B4]. pose proof (H 5%nat ltac:(cbn; tauto)) as [A5 B5]. pose proof (H 6%nat ltac:(cbn; tauto)) as [A6 B6]. clear H.
  unfold dev, dev_sum, dil, th_sum, om. cbn [jsum]. cbn [nth cross_v repeat num_bonds cross_nbrs].
  rewrite !A1, !A2, !A3, !A4, !A5, !A6, !B1, !B2, !B3, !B4, !B5, !B6. unfold t, Rsqr. cbn. field.
Qed.
Lemma cross_mass : forall Q, (forall j, In j [1; 2; 3; 4; 5; 6]%nat -> ze (cross Q) 0 j = 1) ->
  dilatations (fun p _ js => weightedVolume (N:=RN) (fun _ _ => 1) (cross Q) cross_v 1 p js) 0 0 cross_nbrs = Ok [6].
Proof.
  intros Q H.
  destruct (masses (fun _ _ => 1) 1 7 cross_nbrs (cross Q) (cross Q) cross_v (cross_cloud Q (cross Q) eq_refl)) as [m Hm].
  destruct (intact_whole (fun _ _ => 1) 1 7 cross_nbrs (cross Q) cross_v m (cross_cloud Q (cross Q) eq_refl) Hm) as [Lm [_ I]].
  specialize (I 0%nat _ eq_refl). rewrite intact_closed in I. unfold md_sum in I. cbn [jsum] in I. cbn [nth cross_v repeat num_bonds cross_nbrs] in I.
  pose proof (H 1%nat ltac:(cbn; auto)) as A1. pose proof (H 2%nat ltac:(cbn; auto)) as A2. pose proof (H 3%nat ltac:(cbn; auto)) as A3.
  pose proof (H 4%nat ltac:(cbn; tauto)) as A4. pose proof (H 5%nat ltac:(cbn; tauto)) as A5. pose proof (H 6%nat ltac:(cbn; tauto)) as A6.
  rewrite !A1, !A2, !A3, !A4, !A5, !A6 in I. unfold om in I.
  destruct m as [|a [|b m]]; try discriminate. cbn [nth_error] in I. injection I as I. rewrite Hm. f_equal. f_equal. rewrite I. cbn. ring.
Qed.
Lemma cross_factor : forall Q y (d : shear_mode -> R), (forall j, In j [1; 2; 3; 4; 5; 6]%nat -> ze (cross Q) 0 j = 1) -> length y = 7%nat ->
  (forall md, dev (fun _ _ => 1) 1 (1 / 1000000) (cross Q) cross_v [6] 0 (repeat 0 (num_bonds cross_nbrs)) md 0 0 [1; 2; 3; 4; 5; 6]%nat = d md) ->
  multiphysics_initialize (N:=RN) true (fun _ _ => 1) 1 (cross Q) y cross_v cross_nbrs =
  Ok ([6], [4 * (1 / 1000000) * (1 / 1000000) * 6 / Rmax (Rmax (d XY) (d ZX)) (d YZ) / 15]).
Proof.
  intros Q y d HZ Ly HD. pose proof (cross_mass Q HZ) as Hm. unfold multiphysics_initialize. rewrite Hm. cbn [bind].
  rewrite (proj2 (initialized (fun _ _ => 1) 1 7 cross_nbrs (cross Q) y cross_v [6] (cross_cloud Q y Ly) cross_self Hm)).
  cbn [bind pmap cross_nbrs]. unfold factor_at, dev_max. change (lit (n:=RN) 1 1000000) with (1 / 1000000).
  rewrite <- (HD XY), <- (HD ZX), <- (HD YZ). reflexivity.
Qed.
(** turned about the third axis *)
Definition turned : rot := Rot (v3 (N:=RN) (3 / 5) (4 / 5) 0) (v3 (N:=RN) (-4 / 5) (3 / 5) 0) (v3 (N:=RN) 0 0 1).
Lemma turned_orthogonal : orthogonal turned.
Proof. unfold orthogonal, turned. cbn. unfold vdot. cbn. repeat split; rring || lra. Qed.
Ltac six := cbn [In]; intros j [<-|[<-|[<-|[<-|[<-|[<-|[]]]]]]].
Lemma sq1 : forall a, a = 1 -> sqrt a = 1.
Proof. intros a ->. apply sqrt_1. Qed.
Lemma cross_lattice : exists f, 10 ^ 12 < f /\ forall y, length y = 7%nat ->
  multiphysics_initialize (N:=RN) true (fun _ _ => 1) 1 (cross (fun a => a)) y cross_v cross_nbrs = Ok ([6], [f]).
Proof.
  set (s := sqrt (1 + Rsqr (1 / 1000000))).
  assert (ZE : forall j, In j [1; 2; 3; 4; 5; 6]%nat -> ze (cross (fun a => a)) 0 j = 1).
  { six; unfold ze, vlen; apply sq1; cbn; unfold vdot; cbn; rring. }
  assert (D : forall md, dev (fun _ _ => 1) 1 (1 / 1000000) (cross (fun a => a)) cross_v [6] 0 (repeat 0 (num_bonds cross_nbrs)) md 0 0 [1; 2; 3; 4; 5; 6]%nat = 4 / 3 * Rsqr (s - 1)).
  { intros md.
    rewrite (dev_six md _ _ (fun j => match md, j with XY, 5%nat => 1 | XY, 6%nat => 1 | ZX, 3%nat => 1 | ZX, 4%nat => 1 | YZ, 1%nat => 1 | YZ, 2%nat => 1 | _, _ => s end)).
    - destruct md; unfold Rsqr; field.
    - intros j Hj. split; [now apply ZE|]. unfold ex, shift, dTat. rewrite (ZE j Hj). revert j Hj.
      destruct md; six; rewrite Rmult_0_l, Rminus_0_r; f_equal; unfold vlen; try (apply sq1; cbn; unfold vdot; cbn; rring); unfold s; change (sqr_root (n:=RN)) with sqrt; f_equal; cbn; unfold vdot, Rsqr; cbn; rring. }
  exists (4 * (1 / 1000000) * (1 / 1000000) * 6 / (4 / 3 * Rsqr (s - 1)) / 15). split.
  - assert (S2 : s * s = 1 + Rsqr (1 / 1000000)) by (apply sqrt_sqrt; unfold Rsqr; lra).
    assert (P : 1 < s) by (rewrite <- sqrt_1; apply sqrt_lt_1; unfold Rsqr; lra). unfold Rsqr in *.
    assert (B : s - 1 <= 1 / 2 / 1000000 / 1000000) by nra.
    assert (PP : 0 < (s - 1) * (s - 1)) by nra.
    replace (4 * (1 / 1000000) * (1 / 1000000) * 6 / (4 / 3 * ((s - 1) * (s - 1))) / 15) with (12 / 10 * (1 / 1000000) * (1 / 1000000) / ((s - 1) * (s - 1))) by (field; lra).
    apply (Rmult_lt_reg_r ((s - 1) * (s - 1))); [exact PP|]. replace (12 / 10 * (1 / 1000000) * (1 / 1000000) / ((s - 1) * (s - 1)) * ((s - 1) * (s - 1))) with (12 / 10 * (1 / 1000000) * (1 / 1000000)) by (field; lra).
    assert (Q : (s - 1) * (s - 1) <= (1 / 2 / 1000000 / 1000000) * (1 / 2 / 1000000 / 1000000)) by nra.
    apply (Rle_lt_trans _ (10 ^ 12 * ((1 / 2 / 1000000 / 1000000) * (1 / 2 / 1000000 / 1000000)))); [|lra].
    apply Rmult_le_compat_l; [|exact Q]. apply pow_le. lra.
  - intros y Ly. rewrite (cross_factor _ y (fun _ => 4 / 3 * Rsqr (s - 1)) ZE Ly D). assert (RM : forall q, Rmax q q = q) by (intros q; apply Rmax_left, Rle_refl). rewrite !RM. reflexivity.
Qed.
Lemma cross_turned : exists f, 0 < f < 1 /\ forall y, length y = 7%nat ->
  multiphysics_initialize (N:=RN) true (fun _ _ => 1) 1 (cross (rotate turned)) y cross_v cross_nbrs = Ok ([6], [f]).
Proof.
  set (g := 1 / 1000000). set (a := sqrt (1 + 48 / 25 * g + g * g)). set (b := sqrt (1 - 48 / 25 * g + g * g)).
  assert (ZE : forall j, In j [1; 2; 3; 4; 5; 6]%nat -> ze (cross (rotate turned)) 0 j = 1).
  { six; unfold ze, vlen; apply sq1; cbn; unfold vdot; cbn; to_R; change (T RN) with R in *; field. }
  set (d := fun md => dev (fun _ _ => 1) 1 (1 / 1000000) (cross (rotate turned)) cross_v [6] 0 (repeat 0 (num_bonds cross_nbrs)) md 0 0 [1; 2; 3; 4; 5; 6]%nat).
  assert (D : d XY = 2 * Rsqr (a - (a + b + 1) / 3) + 2 * Rsqr (b - (a + b + 1) / 3) + 2 * Rsqr (1 - (a + b + 1) / 3)).
  { unfold d.
    rewrite (dev_six XY _ _ (fun j => match j with 1%nat | 2%nat => a | 3%nat | 4%nat => b | _ => 1 end)).
    - unfold Rsqr; field.
    - intros j Hj. split; [now apply ZE|]. unfold ex, shift, dTat. rewrite (ZE j Hj). revert j Hj.
      six; rewrite Rmult_0_l, Rminus_0_r; f_equal; unfold vlen; try (apply sq1; cbn; unfold vdot; cbn; to_R; change (T RN) with R in *; field);
      unfold a, b; change (sqr_root (n:=RN)) with sqrt; f_equal; cbn; unfold vdot, Rsqr; cbn; to_R; change (T RN) with R in *; unfold g; field. }
  assert (A2 : a * a = 1 + 48 / 25 * g + g * g) by (apply sqrt_sqrt; unfold g; lra).
  assert (B2 : b * b = 1 - 48 / 25 * g + g * g) by (apply sqrt_sqrt; unfold g; lra).
  assert (A0 : 0 <= a) by apply sqrt_pos. assert (B0 : 0 <= b) by apply sqrt_pos.
  assert (G : g = 1 / 1000000) by reflexivity.
  assert (A1 : 1 + 95 / 100 * g <= a) by (apply Rsqr_incr_0_var; [unfold Rsqr; rewrite A2, G; lra|exact A0]).
  assert (B1 : b <= 1 - 95 / 100 * g) by (apply Rsqr_incr_0_var; [unfold Rsqr; rewrite B2, G; lra|rewrite G; lra]).
  assert (BIG : 36 / 10 * (g * g) <= d XY).
  { rewrite D. unfold Rsqr.
    assert (U1 : 95 / 100 * g <= a - (a + b + 1) / 3) by lra. assert (U2 : 95 / 100 * g <= (a + b + 1) / 3 - b) by lra. rewrite G in *. nra. }
  set (mx := Rmax (Rmax (d XY) (d ZX)) (d YZ)).
  assert (MX : 36 / 10 * (g * g) <= mx) by (pose proof (Rmax_l (d XY) (d ZX)); pose proof (Rmax_l (Rmax (d XY) (d ZX)) (d YZ)); unfold mx; lra).
  assert (MP : 0 < mx) by (rewrite G in *; lra).
  exists (4 * g * g * 6 / mx / 15). split; [split|].
  - rewrite G. unfold Rdiv. repeat apply Rmult_lt_0_compat; try lra. now apply Rinv_0_lt_compat.
  - apply (Rmult_lt_reg_r mx); [exact MP|]. replace (4 * g * g * 6 / mx / 15 * mx) with (24 / 15 * (g * g)) by (field; lra). rewrite G in *. lra.
  - intros y Ly. rewrite (cross_factor _ y d ZE Ly (fun md => eq_refl)). reflexivity.
Qed.

Lemma inverse_alg : forall MU mp dm q c f, mp <> 0 -> dm <> 0 -> f = 4 * c * c * mp / dm / 15 -> f <> 0 ->
  1 / 2 * (15 * MU / mp * (1 / f)) * q = 2 * MU * Rsqr c / Rsqr f * (q / dm).
Proof.
  intros MU mp dm q c f A B F F0. unfold Rsqr.
  assert (C : c * c = 15 * f * dm / (4 * mp)) by (rewrite F; field; auto).
  transitivity (2 * MU * (15 * f * dm / (4 * mp)) / (f * f) * (q / dm)); [field; auto|]. rewrite <- C. reflexivity.
Qed.

(** ** translations *)
Lemma dil_ext : forall f g nbrs, (forall p k js, at_point nbrs p k js -> f p k js = g p k js) -> dilatations (N:=RN) f 0 0 nbrs = dilatations g 0 0 nbrs.
Proof.
  intros f g nbrs H. apply (visit (fun l p k => dilatations (N:=RN) f p k l = dilatations g p k l)); [reflexivity|].
  intros js rest p k Ha IH. cbn [dilatations]. rewrite (H _ _ _ Ha). destruct (g p k js); cbn [bind]; auto.
  change (1 + p)%nat with (S p). now rewrite IH.
Qed.
Lemma sub_shift : forall c a b : vec, vsub (vadd c a) (vadd c b) = vsub a b.
Proof. intros [] [] []. apply v3_ext; cbn; rring. Qed.
Lemma shape_shift : forall md g c X a, shape md g (vadd c X) (vadd c a) = vadd c (shape md g X a).
Proof. intros md g [] [] []. destruct md; apply v3_ext; cbn; rring. Qed.
Lemma nth_shift : forall c (x : list vec) n j, length x = n -> (j < n)%nat -> nth j (map (vadd c) x) vzero = vadd c (nth j x vzero).
Proof. intros c x n j L H. rewrite (nth_indep _ vzero (vadd c vzero)) by (rewrite map_length, L; exact H). apply map_nth. Qed.
Lemma translated : forall omega h n nbrs x y y' v c, cloud_ok (N:=RN) n nbrs x y v -> no_self nbrs -> length y' = n ->
  multiphysics_initialize (N:=RN) true omega h (map (vadd c) x) y' v nbrs = multiphysics_initialize (N:=RN) true omega h x y v nbrs.
Proof.
  intros omega h n nbrs x y y' v c HC HS Ly.
  assert (HT : cloud_ok (N:=RN) n nbrs (map (vadd c) x) y' v) by (destruct HC as (A1 & A2 & A3); split; [now rewrite map_length|]; tauto).
  pose proof HC as (Lx & _ & Lv & Ln & Hj).
  assert (B : forall p k js, at_point nbrs p k js -> (p < n)%nat /\ forall j, In j js -> (j < n)%nat).
  { intros p k js [Hp _]. split; [assert ((p < length nbrs)%nat) by (apply nth_error_Some; congruence); lia|].
    intros j Hi. eapply Forall_forall in Hj; [|eapply nth_error_In; exact Hp]. eapply Forall_forall in Hj; eauto. }
  assert (W : forall p k js, at_point nbrs p k js -> weightedVolume (N:=RN) omega (map (vadd c) x) v h p js = weightedVolume omega x v h p js).
  { intros p k js Ha. destruct (B _ _ _ Ha) as [Hp HJ]. unfold weightedVolume.
    rewrite !(at_nth vec vzero) by (try rewrite map_length; rlia). cbn [bind]. rewrite (nth_shift c x n p Lx Hp).
    generalize (ofZ (n:=RN) 0). clear Ha. induction js as [|j js IH]; intros acc; cbn [foldM]; [reflexivity|].
    pose proof (HJ j (or_introl eq_refl)) as Hjn. rewrite (at_nth (T RN) 0 v j) by rlia. rewrite !(at_nth vec vzero) by (try rewrite map_length; rlia). cbn [bind].
    rewrite (nth_shift c x n j Lx Hjn), sub_shift. apply IH. intros; apply HJ; now right. }
  unfold multiphysics_initialize. rewrite (dil_ext (fun p _ js => weightedVolume (N:=RN) omega (map (vadd c) x) v h p js) (fun p _ js => weightedVolume (N:=RN) omega x v h p js) nbrs) by exact W.
  destruct (masses omega h n nbrs x y v HC) as [m Hm]. rewrite Hm. cbn [bind].
  assert (Hm' : dilatations (fun p _ js => weightedVolume (N:=RN) omega (map (vadd c) x) v h p js) 0 0 nbrs = Ok m) by (rewrite <- Hm; apply dil_ext; exact W).
  rewrite (proj2 (initialized omega h n nbrs (map (vadd c) x) y' v m HT HS Hm')), (proj2 (initialized omega h n nbrs x y v m HC HS Hm)). cbn [bind].
  f_equal. apply f_equal2; [reflexivity|]. apply pmap_ext. intros p k js Ha. destruct (B _ _ _ Ha) as [Hp HJ].
  assert (ZE : forall j, In j js -> ze (map (vadd c) x) p j = ze x p j) by (intros j Hi; unfold ze; rewrite (nth_shift c x n p Lx Hp), (nth_shift c x n j Lx (HJ j Hi)), sub_shift; reflexivity).
  assert (EX : forall md j, In j js -> ex 0 None (map (vadd c) x) (probed (lit (n:=RN) 1 1000000) (map (vadd c) x) md p) p j = ex 0 None x (probed (lit (n:=RN) 1 1000000) x md p) p j).
  { intros md j Hi. unfold ex, shift, dTat. rewrite (ZE j Hi).
    assert (LT : length (map (vadd c) x) = n) by (rewrite map_length; exact Lx).
    rewrite !(probed_nth _ _ n LT) by auto. rewrite !(probed_nth _ _ n Lx) by auto.
    rewrite (nth_shift c x n p Lx Hp), (nth_shift c x n j Lx (HJ j Hi)), !shape_shift, sub_shift. reflexivity. }
  assert (DV : forall md, dev omega h (lit (n:=RN) 1 1000000) (map (vadd c) x) v m 0 (repeat 0 (num_bonds nbrs)) md p k js = dev omega h (lit (n:=RN) 1 1000000) x v m 0 (repeat 0 (num_bonds nbrs)) md p k js).
  { intros md. unfold dev.
    assert (DL : dil omega h (lit (n:=RN) 1 1000000) (map (vadd c) x) v m 0 (repeat 0 (num_bonds nbrs)) md p k js = dil omega h (lit (n:=RN) 1 1000000) x v m 0 (repeat 0 (num_bonds nbrs)) md p k js).
    { unfold dil, th_sum. apply jsum_ext. intros i j Hi. apply nth_error_In in Hi. cbv beta. unfold om. rewrite (EX md j Hi), (ZE j Hi). reflexivity. }
    rewrite DL. unfold dev_sum. apply jsum_ext. intros i j Hi. apply nth_error_In in Hi. cbv beta. unfold om. rewrite (EX md j Hi), (ZE j Hi). reflexivity. }
  unfold factor_at, dev_max. rewrite !DV. reflexivity.
Qed.

(** ** binary64 *)
Lemma lonely_points : forall omega h x v m s nbrs p0 y, shear_points (N:=FN) omega h (lit (n:=FN) 1 1000000) x v m p0 nbrs y = Ok s ->
  forall p, nth_error nbrs p = Some [] -> nth_error m (p0 + p) = Some (ofZ (n:=FN) 0) -> nth_error s p = Some SpecFloat.S754_nan.
Proof.
  intros omega h x v m s nbrs. revert s. induction nbrs as [|js nbrs IH]; intros s p0 y E p Hp Hm; [destruct p; discriminate|].
  cbn [shear_points] in E. apply bind_Ok in E as ([y' f] & E1 & E). apply bind_Ok in E as (r & E2 & E). injection E as <-.
  destruct p as [|p]; cbn [nth_error] in *.
  - injection Hp as ->. rewrite Nat.add_0_r in Hm. unfold shear_point in E1. unfold at_ub at 1 in E1. rewrite Hm in E1. cbn [bind] in E1.
    assert (PR : forall md y y1 q, probe (N:=FN) omega h (lit (n:=FN) 1 1000000) x v (ofZ (n:=FN) 0) p0 [] md y = Ok (y1, q) -> q = ofZ (n:=FN) 0).
    { intros md y2 y3 q H. unfold probe in H. apply bind_Ok in H as (X & _ & H). apply bind_Ok in H as (y4 & _ & H). cbn [set_pure_shear foldM bind] in H.
      apply bind_Ok in H as (Y & _ & H). cbn [norm_deviatoric dilatation_one foldM bind] in H. now injection H. }
    apply bind_Ok in E1 as ([y1 s1] & P1 & E1). apply PR in P1 as ->. apply bind_Ok in E1 as ([y2 s2] & P2 & E1). apply PR in P2 as ->.
    apply bind_Ok in E1 as ([y3 s3] & P3 & E1). apply PR in P3 as ->. apply bind_Ok in E1 as (X & _ & E1). apply bind_Ok in E1 as (y4 & _ & E1).
    apply Ok_pair in E1 as [_ ->]. f_equal.
  - apply (IH r (1 + p0)%nat y' E2 p Hp). now replace (1 + p0 + p)%nat with (p0 + S p)%nat by lia.
Qed.
Lemma lonely_nan : forall omega h x y v nbrs m s p, multiphysics_initialize (N:=FN) true omega h x y v nbrs = Ok (m, s) ->
  nth_error nbrs p = Some [] -> nth_error s p = Some SpecFloat.S754_nan.
Proof.
  intros omega h x y v nbrs m s p E Hp. unfold multiphysics_initialize in E. apply bind_Ok in E as (m' & Em & E). apply bind_Ok in E as (s' & Es & E). injection E as -> ->.
  apply (lonely_points _ _ _ _ _ _ _ _ _ Es p Hp). cbn [Nat.add].
  assert (G : forall l p0 k0 m p, dilatations (fun p _ js => weightedVolume (N:=FN) omega x v h p js) p0 k0 l = Ok m -> nth_error l p = Some [] -> nth_error m p = Some (ofZ (n:=FN) 0)).
  { induction l as [|js l IH]; intros p0 k0 mm q H Hq; [destruct q; discriminate|]. cbn [dilatations] in H.
    apply bind_Ok in H as (t & Ht & H). apply bind_Ok in H as (r & Hr & H). injection H as <-. destruct q as [|q]; cbn [nth_error] in *.
    - injection Hq as ->. unfold weightedVolume in Ht. apply bind_Ok in Ht as (X & _ & Ht). cbn [foldM] in Ht. now injection Ht as <-.
    - eapply IH; eauto. }
  eapply G; eauto.
Qed.
Definition pair_x : list (V3 FN) := [v3 (N:=FN) (ofZ (n:=FN) 0) (ofZ (n:=FN) 0) (ofZ (n:=FN) 0); v3 (N:=FN) (ofZ (n:=FN) 1) (ofZ (n:=FN) 0) (ofZ (n:=FN) 0)].
Definition corner_x : list vec := [v3 (N:=RN) 0 0 0; v3 (N:=RN) 1 1 0; v3 (N:=RN) 1 (-1) 0].
Lemma corner_ok : cloud_ok (N:=RN) 3 [[1%nat; 2%nat]] corner_x corner_x [1; 1; 1] /\ no_self [[1%nat; 2%nat]] /\
  exists S, In S shears /\ uneven corner_x 0 [1%nat; 2%nat] (S (1 / 1000000) (nth 0 corner_x vzero)).
Proof.
  split; [repeat split; cbn; auto; repeat constructor|]. split.
  { intros [|[|p]] js H; cbn in H; try discriminate. injection H as <-. cbn. lia. }
  exists shear_xy. split; [now left|]. exists 1%nat, 2%nat. split; [cbn; auto|]. split; [cbn; auto|]. rewrite <- !vlen_dist. unfold vlen. cbn [nth corner_x].
  change (sqr_root (n:=RN)) with sqrt. unfold vdot, vsub, shear_xy. cbn. intros E.
  apply (f_equal Rsqr) in E. rewrite !Rsqr_mult, !Rsqr_sqrt in E; [unfold Rsqr in E; lra|..]; lra.
Qed.
Definition pair_w (_ _ : FN) : FN := ofZ (n:=FN) 1.
Definition pair_v : list FN := [ofZ (n:=FN) 1; ofZ (n:=FN) 1].
Definition pair_init := multiphysics_initialize (N:=FN) true pair_w (ofZ (n:=FN) 2) pair_x pair_x pair_v [[1%nat]; [0%nat]].
Definition pair_eval (m s : list FN) := multiphysics_evaluation (N:=FN) pair_w (ofZ (n:=FN) 1) (ofZ (n:=FN) 1) (ofZ (n:=FN) 2) (ofZ (n:=FN) 0) None pair_x pair_x [ofZ (n:=FN) 0; ofZ (n:=FN) 0] pair_v m s [ofZ (n:=FN) 0; ofZ (n:=FN) 0] [[1%nat]; [0%nat]].
Definition pair_s : option (list SpecFloat.spec_float) := match pair_init with Ok (_, s) => Some s | _ => None end.
Definition pair_f : option (list SpecFloat.spec_float) :=
  match pair_init with Ok (m, s) => match pair_eval m s with Ok (f, _, _) => Some (map vx f) | _ => None end | _ => None end.
Lemma pair_s_is : pair_s = Some [SpecFloat.S754_infinity false; SpecFloat.S754_infinity false].
Proof. vm_compute. reflexivity. Qed.
Lemma pair_f_is : pair_f = Some [SpecFloat.S754_nan; SpecFloat.S754_nan].
Proof. vm_compute. reflexivity. Qed.
Lemma pair_nan : exists x v m s f W th,
  multiphysics_initialize (N:=FN) true (fun _ _ => ofZ (n:=FN) 1) (ofZ (n:=FN) 2) x x v [[1%nat]; [0%nat]] = Ok (m, s) /\
  s = [SpecFloat.S754_infinity false; SpecFloat.S754_infinity false] /\
  multiphysics_evaluation (N:=FN) (fun _ _ => ofZ (n:=FN) 1) (ofZ (n:=FN) 1) (ofZ (n:=FN) 1) (ofZ (n:=FN) 2) (ofZ (n:=FN) 0) None x x [ofZ (n:=FN) 0; ofZ (n:=FN) 0] v m s [ofZ (n:=FN) 0; ofZ (n:=FN) 0] [[1%nat]; [0%nat]] = Ok (f, W, th) /\
  map vx f = [SpecFloat.S754_nan; SpecFloat.S754_nan].
Proof.
  pose proof pair_s_is as A. pose proof pair_f_is as B. unfold pair_s, pair_f in A, B.
  destruct pair_init as [[m s]|?|] eqn:E; try discriminate. destruct (pair_eval m s) as [[[f W] th]|?|] eqn:E2; try discriminate.
  exists pair_x, pair_v, m, s, f, W, th. split; [exact E|]. split; [now injection A|]. split; [exact E2|]. now injection B.
Qed.
