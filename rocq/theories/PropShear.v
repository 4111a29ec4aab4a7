(** * C64: shear correction factor *)
From Coq Require Import Reals Lra Lia ZArith.
From Verif Require Import Base Num ModelNeigh SpecDamage ModelForce ModelDiffusion ModelEnergy ModelShear SpecForce SpecEnergy SpecShear ProofData ProofDamage ProofFrame ProofForce ProofMaterial ProofCorr ProofEnergy ProofEnergy2 ProofEnergy3 ProofEnergy4 ProofEnergy5 ProofShear ProofShear2 ProofShear3.
Local Open Scope R_scope.
Local Notation vec := (V3 RN).

(** Initialisation succeeds, and what the scratch copy of the coordinates held does not matter. *)
Theorem C64_total : forall apply omega h n nbrs x y v, cloud_ok (N:=RN) n nbrs x y v -> no_self nbrs ->
  exists m s, per_point (N:=RN) nbrs m /\ per_point (N:=RN) nbrs s /\ (apply = false -> forall a, In a s -> a = 1) /\
    forall y', length y' = n -> multiphysics_initialize (N:=RN) apply omega h x y' v nbrs = Ok (m, s).
Proof.
  intros apply omega h n nbrs x y v HC HS. destruct (masses omega h n nbrs x y v HC) as [m Hm].
  assert (HC' : forall y', length y' = n -> cloud_ok (N:=RN) n nbrs x y' v) by (intros y' L; destruct HC as (A & B & C); repeat split; tauto).
  destruct (initialized omega h n nbrs x y v m HC HS Hm) as [Lm _].
  exists m. destruct apply.
  - eexists. split; [exact Lm|]. split; [|split; [discriminate|]]; cycle 1.
    + intros y' Ly. unfold multiphysics_initialize. rewrite Hm. cbn [bind].
      rewrite (proj2 (initialized omega h n nbrs x y' v m (HC' y' Ly) HS Hm)). reflexivity.
    + apply pmap_len.
  - exists (map (fun _ => 1) nbrs). split; [exact Lm|]. split; [apply map_length|]. split.
    + intros _ a Ha. apply in_map_iff in Ha as (? & <- & _). reflexivity.
    + intros y' Ly. unfold multiphysics_initialize. rewrite Hm. reflexivity.
Qed.
Print Assumptions C64_total.

Lemma factor_alg : forall MU mp dm q c, mp <> 0 -> dm <> 0 -> 1 / 2 * (15 * MU / mp * (4 * c * c * mp / dm / 15)) * q = 2 * MU * Rsqr c * (q / dm).
Proof. intros MU mp dm q c A B. unfold Rsqr. field. auto. Qed.

(** With the factors of the material the reported energy density of a point, beyond that of its dilatation, is the
    classical 2 mu g^2 in one of the three pure shears of the whole body about the point, and not more in the others. *)
Theorem C64_energy : forall omega K MU h al n nbrs x y0 v pr m scf, let g := 1 / 1000000 in
  cloud_ok (N:=RN) n nbrs x y0 v -> no_self nbrs -> (forall d, 0 < omega d h) -> (forall a, In a v -> 0 < a) -> 0 <= MU -> per_point (N:=RN) nbrs pr ->
  multiphysics_initialize (N:=RN) true omega h x y0 v nbrs = Ok (m, scf) ->
  forall p js, nth_error nbrs p = Some js -> (exists S, In S shears /\ uneven x p js (S g (nth p x vzero))) ->
  0 < nth p scf 0 /\
  (exists S, In S shears /\ exists f W th,
    multiphysics_evaluation (N:=RN) omega K MU h al None x (map (S g (nth p x vzero)) x) pr v m scf (repeat 0 (num_bonds nbrs)) nbrs = Ok (f, W, th) /\
    nth p W 0 = 1 / 2 * K * Rsqr (nth p th 0) + 2 * MU * Rsqr g) /\
  (forall S, In S shears -> exists f W th,
    multiphysics_evaluation (N:=RN) omega K MU h al None x (map (S g (nth p x vzero)) x) pr v m scf (repeat 0 (num_bonds nbrs)) nbrs = Ok (f, W, th) /\
    nth p W 0 <= 1 / 2 * K * Rsqr (nth p th 0) + 2 * MU * Rsqr g).
Proof.
  intros omega K MU h al n nbrs x y0 v pr m scf g HC HS Hw Hv HMU Lp E p js Hp U.
  unfold multiphysics_initialize in E. apply bind_Ok in E as (m' & Hm & E). apply bind_Ok in E as (s & Es & E). injection E as -> ->.
  destruct (initialized omega h n nbrs x y0 v m HC HS Hm) as [Lm Es']. rewrite Es' in Es. injection Es as <-.
  assert (HC' : cloud_ok (N:=RN) n nbrs x x v) by (destruct HC as (A & B & C); repeat split; tauto).
  change g with (lit (n:=RN) 1 1000000) in U |- *. clear g.
  assert (M : 0 < nth p m 0) by (destruct U as (S & _ & U); eapply mass_pos; eauto).
  pose proof (dm_pos omega h n nbrs x v m 0 p js HC' Hw Hv Hp U) as D.
  set (dm := dev_max _ _ _ _ _ _ _ _ _ _ _) in D.
  assert (F : nth p (pmap (factor_at omega h (lit (n:=RN) 1 1000000) x v m 0 (repeat 0 (num_bonds nbrs))) 0 0 nbrs) 0 = 4 * (1 / 1000000) * (1 / 1000000) * nth p m 0 / dm / 15).
  { rewrite (nth_error_nth _ p 0 (pmap_nth R _ nbrs p (offset nbrs p) js (conj Hp eq_refl))). reflexivity. }
  assert (EN : forall md, exists f W th,
    multiphysics_evaluation (N:=RN) omega K MU h al None x (map (shape md (lit (n:=RN) 1 1000000) (nth p x vzero)) x) pr v m (pmap (factor_at omega h (lit (n:=RN) 1 1000000) x v m 0 (repeat 0 (num_bonds nbrs))) 0 0 nbrs) (repeat 0 (num_bonds nbrs)) nbrs = Ok (f, W, th) /\
    nth p W 0 = 1 / 2 * K * Rsqr (nth p th 0) + 2 * MU * Rsqr (1 / 1000000) * (dev omega h (lit (n:=RN) 1 1000000) x v m 0 (repeat 0 (num_bonds nbrs)) md p (offset nbrs p) js / dm)).
  { intros md. destruct (probe_energy omega h n nbrs x v m al p js HC' Hm Hp K MU pr (pmap (factor_at omega h (lit (n:=RN) 1 1000000) x v m 0 (repeat 0 (num_bonds nbrs))) 0 0 nbrs) Lp (pmap_len _ _ _ _ _) md) as (f & W & th & E1 & E2).
    exists f, W, th. split; [exact E1|]. rewrite E2, F. f_equal.
    assert (AL : dev omega h (lit (n:=RN) 1 1000000) x v m al (repeat 0 (num_bonds nbrs)) md p (offset nbrs p) js = dev omega h (lit (n:=RN) 1 1000000) x v m 0 (repeat 0 (num_bonds nbrs)) md p (offset nbrs p) js) by reflexivity.
    rewrite AL. apply factor_alg; lra. }
  destruct (dv_max omega h nbrs x v m 0 p js) as [[md0 X1] X2]. fold dm in X1, X2.
  split; [|split].
  - apply (Rlt_le_trans _ (4 * (1 / 1000000) * (1 / 1000000) * nth p m 0 / dm / 15)); [|right; symmetry; exact F].
    unfold Rdiv. repeat apply Rmult_lt_0_compat; try lra. now apply Rinv_0_lt_compat.
  - exists (shape md0). split; [apply in_shears; eauto|]. destruct (EN md0) as (f & W & th & E1 & E2). exists f, W, th. split; [exact E1|].
    rewrite E2. rewrite X1. change (Rsqr (lit (n:=RN) 1 1000000)) with (Rsqr (1 / 1000000)). unfold Rdiv at 3. rewrite Rinv_r by lra. change (T RN) with R in *. ring.
  - intros S HI. apply in_shears in HI as [md ->]. destruct (EN md) as (f & W & th & E1 & E2). exists f, W, th. split; [exact E1|].
    rewrite E2. change (Rsqr (lit (n:=RN) 1 1000000)) with (Rsqr (1 / 1000000)).
    assert (Q : dev omega h (lit (n:=RN) 1 1000000) x v m 0 (repeat 0 (num_bonds nbrs)) md p (offset nbrs p) js / dm <= 1).
    { apply (Rmult_le_reg_r dm); [lra|]. specialize (X2 md). field_simplify; lra. }
    pose proof (Rle_0_sqr (1 / 1000000)) as SQ.
    assert (2 * MU * Rsqr (1 / 1000000) * (dev omega h (lit (n:=RN) 1 1000000) x v m 0 (repeat 0 (num_bonds nbrs)) md p (offset nbrs p) js / dm) <= 2 * MU * Rsqr (1 / 1000000) * 1); [|lra].
    apply Rmult_le_compat_l; [|exact Q]. apply Rmult_le_pos; lra.
Qed.
Print Assumptions C64_energy.

(** The elastic-plastic hardening solid multiplies its shear stiffness by its factors: as long as no point yields, its
    forces are those of the multiphysics solid with these factors, and C61_multiphysics gives their potential. *)
Theorem C64_hardening_response : forall update K MU H sigma h n nbrs x y v m scf lam th f out,
  cloud_ok (N:=RN) n nbrs x y v -> per_point (N:=RN) nbrs m -> per_point (N:=RN) nbrs scf -> per_point (N:=RN) nbrs lam ->
  dilatations (dilatation (N:=RN) (fun _ _ => 1) h 0 None x y v (repeat 0 (num_bonds nbrs)) None m) 0 0 nbrs = Ok th ->
  run_kernel (hardening (N:=RN) update K MU H sigma h x y v m th (repeat 0 (num_bonds nbrs)) scf (repeat 0 (num_bonds nbrs)) lam) nbrs (repeat vzero n) = Ok (f, out) ->
  Forall (fun o => pp_elastic (fst o) = true) out ->
  exists W, multiphysics_evaluation (N:=RN) (fun _ _ => 1) K MU h 0 None x y (repeat 0 (length nbrs)) v m scf (repeat 0 (num_bonds nbrs)) nbrs = Ok (f, W, th).
Proof. exact hardening_elastic. Qed.
Print Assumptions C64_hardening_response.

(** But the hardening solid is given the inverse factors: the energy of C64_energy comes out as 2 mu g^2 / f^2, where f is
    the factor that would make it 2 mu g^2. *)
Theorem C64_hardening_refuted : forall omega K MU h al n nbrs x y0 v pr m scf inv, let g := 1 / 1000000 in
  cloud_ok (N:=RN) n nbrs x y0 v -> no_self nbrs -> (forall d, 0 < omega d h) -> (forall a, In a v -> 0 < a) -> 0 <= MU -> per_point (N:=RN) nbrs pr ->
  multiphysics_initialize (N:=RN) true omega h x y0 v nbrs = Ok (m, scf) ->
  hardening_initialize (N:=RN) true omega h x y0 v nbrs = Ok (m, inv) ->
  forall p js, nth_error nbrs p = Some js -> (exists S, In S shears /\ uneven x p js (S g (nth p x vzero))) ->
  0 < nth p scf 0 /\
  (exists S, In S shears /\ exists f W th,
    multiphysics_evaluation (N:=RN) omega K MU h al None x (map (S g (nth p x vzero)) x) pr v m inv (repeat 0 (num_bonds nbrs)) nbrs = Ok (f, W, th) /\
    nth p W 0 = 1 / 2 * K * Rsqr (nth p th 0) + 2 * MU * Rsqr g / Rsqr (nth p scf 0)) /\
  (forall S, In S shears -> exists f W th,
    multiphysics_evaluation (N:=RN) omega K MU h al None x (map (S g (nth p x vzero)) x) pr v m inv (repeat 0 (num_bonds nbrs)) nbrs = Ok (f, W, th) /\
    nth p W 0 <= 1 / 2 * K * Rsqr (nth p th 0) + 2 * MU * Rsqr g / Rsqr (nth p scf 0)).
Proof.
  intros omega K MU h al n nbrs x y0 v pr m scf inv g HC HS Hw Hv HMU Lp E EI p js Hp U.
  assert (INV : inv = map (fun a => 1 / a) scf).
  { unfold multiphysics_initialize in E. unfold hardening_initialize in EI. apply bind_Ok in E as (m' & Hm & E). apply bind_Ok in E as (s & Es & E). injection E as -> ->.
    rewrite Hm in EI. cbn [bind] in EI. rewrite Es in EI. cbn [bind] in EI. injection EI as <-. reflexivity. }
  destruct (C64_total true omega h n nbrs x y0 v HC HS) as (m' & s' & Lm & Ls & _ & ES). rewrite (ES y0) in E by apply HC. injection E as -> ->.
  pose proof (ES y0 (proj1 (proj2 HC))) as E. clear ES.
  destruct (C64_energy omega K MU h al n nbrs x y0 v pr m scf HC HS Hw Hv HMU Lp E p js Hp U) as (F0 & _ & _).
  unfold multiphysics_initialize in E. apply bind_Ok in E as (m' & Hm & E). apply bind_Ok in E as (s & Es & E). injection E as -> ->.
  destruct (initialized omega h n nbrs x y0 v m HC HS Hm) as [_ Es']. rewrite Es' in Es.
  assert (HC' : cloud_ok (N:=RN) n nbrs x x v) by (destruct HC as (A & B & C); repeat split; tauto).
  change g with (lit (n:=RN) 1 1000000) in U |- *. clear g.
  assert (M : 0 < nth p m 0) by (destruct U as (S & _ & U); eapply mass_pos; eauto).
  pose proof (dm_pos omega h n nbrs x v m 0 p js HC' Hw Hv Hp U) as D.
  set (dm := dev_max _ _ _ _ _ _ _ _ _ _ _) in D.
  assert (F : nth p scf 0 = 4 * (1 / 1000000) * (1 / 1000000) * nth p m 0 / dm / 15).
  { injection Es as <-. rewrite (nth_error_nth _ p 0 (pmap_nth R _ nbrs p (offset nbrs p) js (conj Hp eq_refl))). reflexivity. }
  assert (Hpl : (p < length nbrs)%nat) by (apply nth_error_Some; congruence).
  assert (FI : nth p inv 0 = 1 / nth p scf 0).
  { rewrite INV. unfold per_point in Ls. rewrite (nth_indep _ 0 (1 / 0)) by (rewrite map_length; rlia). apply (map_nth (fun a => 1 / a)). }
  assert (Li : per_point (N:=RN) nbrs inv) by (unfold per_point in *; rewrite INV, map_length; exact Ls).
  assert (EN : forall md, exists f W th,
    multiphysics_evaluation (N:=RN) omega K MU h al None x (map (shape md (lit (n:=RN) 1 1000000) (nth p x vzero)) x) pr v m inv (repeat 0 (num_bonds nbrs)) nbrs = Ok (f, W, th) /\
    nth p W 0 = 1 / 2 * K * Rsqr (nth p th 0) + 2 * MU * Rsqr (1 / 1000000) / Rsqr (nth p scf 0) * (dev omega h (lit (n:=RN) 1 1000000) x v m 0 (repeat 0 (num_bonds nbrs)) md p (offset nbrs p) js / dm)).
  { intros md. destruct (probe_energy omega h n nbrs x v m al p js HC' Hm Hp K MU pr inv Lp Li md) as (f & W & th & E1 & E2).
    exists f, W, th. split; [exact E1|]. rewrite E2. change (T RN) with R in *. rewrite FI. f_equal.
    assert (AL : dev omega h (lit (n:=RN) 1 1000000) x v m al (repeat 0 (num_bonds nbrs)) md p (offset nbrs p) js = dev omega h (lit (n:=RN) 1 1000000) x v m 0 (repeat 0 (num_bonds nbrs)) md p (offset nbrs p) js) by reflexivity.
    rewrite AL. apply (inverse_alg MU (nth p m 0) dm _ (1 / 1000000)); [lra|lra|exact F|apply Rgt_not_eq; exact F0]. }
  destruct (dv_max omega h nbrs x v m 0 p js) as [[md0 X1] X2]. fold dm in X1, X2.
  split; [exact F0|]. split.
  - exists (shape md0). split; [apply in_shears; eauto|]. destruct (EN md0) as (f & W & th & E1 & E2). exists f, W, th. split; [exact E1|].
    rewrite E2. rewrite X1. change (Rsqr (lit (n:=RN) 1 1000000)) with (Rsqr (1 / 1000000)).
    replace (dm / dm) with 1 by (field; lra). f_equal. apply Rmult_1_r.
  - intros S HI. apply in_shears in HI as [md ->]. destruct (EN md) as (f & W & th & E1 & E2). exists f, W, th. split; [exact E1|].
    rewrite E2. change (Rsqr (lit (n:=RN) 1 1000000)) with (Rsqr (1 / 1000000)).
    assert (Q : dev omega h (lit (n:=RN) 1 1000000) x v m 0 (repeat 0 (num_bonds nbrs)) md p (offset nbrs p) js / dm <= 1).
    { apply (Rmult_le_reg_r dm); [lra|]. specialize (X2 md). field_simplify; lra. }
    apply Rplus_le_compat_l. rewrite <- (Rmult_1_r (2 * MU * Rsqr (1 / 1000000) / Rsqr (nth p scf 0))) at 2.
    apply Rmult_le_compat_l; [|exact Q]. unfold Rdiv at 1. apply Rmult_le_pos; [apply Rmult_le_pos; [lra|apply Rle_0_sqr]|].
    left. apply Rinv_0_lt_compat. apply Rlt_0_sqr. apply Rgt_not_eq. exact F0.
Qed.
Print Assumptions C64_hardening_refuted.

(** The factor depends on how the body lies in the coordinate system: a point with six neighbours at distance 1 along the
    axes has its shear stiffness raised more than 10^12 times; turned by a rotation about the third axis, it is lowered. *)
Theorem C64_isotropy_refuted : exists nbrs x v Q f f', orthogonal Q /\ cloud_ok (N:=RN) 7 nbrs x x v /\ no_self nbrs /\ 10 ^ 12 < f /\ 0 < f' < 1 /\
  multiphysics_initialize (N:=RN) true (fun _ _ => 1) 1 x x v nbrs = Ok ([6], [f]) /\
  multiphysics_initialize (N:=RN) true (fun _ _ => 1) 1 (map (rotate Q) x) (map (rotate Q) x) v nbrs = Ok ([6], [f']).
Proof.
  destruct cross_lattice as (f & A & B). destruct cross_turned as (f' & C & D).
  exists cross_nbrs, (cross (fun a => a)), cross_v, turned, f, f'.
  split; [exact turned_orthogonal|]. split; [now apply cross_cloud|]. split; [exact cross_self|]. split; [exact A|]. split; [exact C|]. split; [now apply B|].
  assert (EQ : map (rotate turned) (cross (fun a => a)) = cross (rotate turned)) by (unfold cross; now rewrite map_id).
  rewrite EQ. now apply D.
Qed.
Print Assumptions C64_isotropy_refuted.

(** Translations do not matter. *)
Theorem C64_translation : forall omega h n nbrs x y y' v c, cloud_ok (N:=RN) n nbrs x y v -> no_self nbrs -> length y' = n ->
  multiphysics_initialize (N:=RN) true omega h (map (vadd c) x) y' v nbrs = multiphysics_initialize (N:=RN) true omega h x y v nbrs.
Proof. exact translated. Qed.
Print Assumptions C64_translation.

(** In binary64: every point without neighbours gets NaN ... *)
Theorem C64_lonely_refuted : forall omega h x y v nbrs m s p, multiphysics_initialize (N:=FN) true omega h x y v nbrs = Ok (m, s) ->
  nth_error nbrs p = Some [] -> nth_error s p = Some SpecFloat.S754_nan.
Proof. exact lonely_nan. Qed.
Print Assumptions C64_lonely_refuted.

(** ... and two points that are each other's only neighbours get an infinite factor, and forces that are NaN in the
    undeformed body. *)
Theorem C64_pair_refuted : exists x v m s f W th,
  multiphysics_initialize (N:=FN) true (fun _ _ => ofZ (n:=FN) 1) (ofZ (n:=FN) 2) x x v [[1%nat]; [0%nat]] = Ok (m, s) /\
  s = [SpecFloat.S754_infinity false; SpecFloat.S754_infinity false] /\
  multiphysics_evaluation (N:=FN) (fun _ _ => ofZ (n:=FN) 1) (ofZ (n:=FN) 1) (ofZ (n:=FN) 1) (ofZ (n:=FN) 2) (ofZ (n:=FN) 0) None x x [ofZ (n:=FN) 0; ofZ (n:=FN) 0] v m s [ofZ (n:=FN) 0; ofZ (n:=FN) 0] [[1%nat]; [0%nat]] = Ok (f, W, th) /\
  map vx f = [SpecFloat.S754_nan; SpecFloat.S754_nan].
Proof. exact pair_nan. Qed.
Print Assumptions C64_pair_refuted.

(** A point with two neighbours, stretched differently by the shear in the first plane. *)
Example C64_corner : cloud_ok (N:=RN) 3 [[1%nat; 2%nat]] corner_x corner_x [1; 1; 1] /\ no_self [[1%nat; 2%nat]] /\
  exists S, In S shears /\ uneven corner_x 0 [1%nat; 2%nat] (S (1 / 1000000) (nth 0 corner_x vzero)).
Proof. exact corner_ok. Qed.
