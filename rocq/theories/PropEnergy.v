(** * C61, C62: stored elastic energy and the energy output *)
From Coq Require Import Reals Lra Lia.
From Verif Require Import Base Num ModelNeigh SpecDamage ModelForce ModelDiffusion ModelGlobal ModelEnergy SpecForce SpecGlobal SpecEnergy ProofData ProofDamage ProofFrame ProofForce ProofMaterial ProofCorr ProofEnergy ProofEnergy2 ProofEnergy3 ProofEnergy4 ProofEnergy5 ProofEnergy6.
Local Open Scope R_scope.
Local Notation vec := (V3 RN).

(** ** C61 *)

(** An undamaged elastic body: the reported energy is the potential of the reported forces.  Along every motion of the
    points the total of the reported energy densities changes at the rate at which work is done against the forces. *)
Theorem C61_elastic : forall omega K MU h al deltaT n nbrs x v m y t w,
  cloud_ok (N:=RN) n nbrs x x v -> opt_ok (per_point (N:=RN) nbrs) deltaT ->
  dilatations (fun p _ js => weightedVolume (N:=RN) omega x v h p js) 0 0 nbrs = Ok m -> (forall a, In a m -> a <> 0) ->
  moves y t w -> length w = n -> apart nbrs (y t) ->
  exists F W th, (forall s, elastic_evaluation (N:=RN) omega K MU h al deltaT x (y s) v m (repeat 0 (num_bonds nbrs)) nbrs = Ok (F s, W s, th s)) /\
    derivable_pt_lim (fun s => total v (W s)) t (- power v (F t) w).
Proof.
  intros omega K MU h al deltaT n nbrs x v m y t w HC LT HM Hm HV Lw HA.
  destruct (intact_whole omega h n nbrs x v m HC HM) as [Lm HI].
  destruct (damaged_potential omega K MU h al deltaT n nbrs x v m (repeat 0 (num_bonds nbrs)) m y t w HC Lm (repeat_length _ _) LT Hm) as (F & W & th & E & D); auto.
  { intros b Hb. left. exact (repeat_spec _ _ _ Hb). }
  exists F, W, th. split; [exact E|]. eapply derivable_pt_lim_ext; [|exact D]. intros s. cbv beta. f_equal.
  assert (C : cloud_ok (N:=RN) n nbrs x (y s) v) by (destruct HC as (A1 & A2 & A3); repeat split; try tauto; rewrite (proj1 HV); exact Lw).
  destruct (elastic_closed omega K MU h al deltaT n nbrs x (y s) v m (repeat 0 (num_bonds nbrs)) C Lm (repeat_length _ _) LT) as (f & out & _ & E2).
  rewrite (E s) in E2. injection E2 as E2 E3 E4. rewrite E3, E4. apply mended_same; try (rewrite pmap_len; symmetry; exact Lm). exact Hm.
Qed.
Print Assumptions C61_elastic.

(** The Stored_Elastic_Energy output: at every owned point the energy density times the volume ... *)
Theorem C61_stored_values : forall W v : list R, (length W <= length v)%nat ->
  exists S : list R, stored_energies (N:=RN) W v = Ok S /\ length S = length W /\
    forall i w a, nth_error W i = Some w -> nth_error v i = Some a -> nth_error S i = Some (a * w).
Proof.
  induction W as [|w W IH]; intros [|a v] L; try (cbn in L; lia).
  - exists []. split; [reflexivity|]. split; [reflexivity|]. intros [|i]; discriminate.
  - exists []. split; [reflexivity|]. split; [reflexivity|]. intros [|i]; discriminate.
  - destruct (IH v) as (S & E & LS & H); [cbn in L; lia|]. exists (w * a :: S). cbn [stored_energies]. change (T RN) with R in *. rewrite E. split; [reflexivity|].
    split; [cbn; now rewrite LS|]. intros [|i] w' a' H1 H2; cbn in H1, H2 |- *; [|now apply H]. injection H1 as <-. injection H2 as <-. f_equal. apply Rmult_comm.
Qed.
Print Assumptions C61_stored_values.

(** ... so that in an undamaged elastic body the sum of this output is the potential of the reported forces. *)
Theorem C61_stored : forall omega K MU h al deltaT n nbrs x v m y t w,
  cloud_ok (N:=RN) n nbrs x x v -> opt_ok (per_point (N:=RN) nbrs) deltaT ->
  dilatations (fun p _ js => weightedVolume (N:=RN) omega x v h p js) 0 0 nbrs = Ok m -> (forall a, In a m -> a <> 0) ->
  moves y t w -> length w = n -> apart nbrs (y t) ->
  exists F S, (forall s, exists W th, elastic_evaluation (N:=RN) omega K MU h al deltaT x (y s) v m (repeat 0 (num_bonds nbrs)) nbrs = Ok (F s, W, th) /\
                         stored_energies (N:=RN) W v = Ok (S s : list R)) /\
    derivable_pt_lim (fun s => Rsum (S s)) t (- power v (F t) w).
Proof.
  intros omega K MU h al deltaT n nbrs x v m y t w HC LT HM Hm HV Lw HA.
  destruct (C61_elastic omega K MU h al deltaT n nbrs x v m y t w HC LT HM Hm HV Lw HA) as (F & W & th & E & D).
  exists F, (fun s => map (fun p => fst p * snd p) (combine (W s : list R) v)).
  assert (LW : forall s, (length (W s) <= length v)%nat).
  { intros s. assert (C : cloud_ok (N:=RN) n nbrs x (y s) v) by (destruct HC as (A1 & A2 & A3); repeat split; try tauto; rewrite (proj1 HV); exact Lw).
    destruct (intact_whole omega h n nbrs x v m HC HM) as [Lm _].
    destruct (elastic_closed omega K MU h al deltaT n nbrs x (y s) v m (repeat 0 (num_bonds nbrs)) C Lm (repeat_length _ _) LT) as (f & out & _ & E2).
    rewrite (E s) in E2. injection E2 as E2 E3 E4. rewrite E3, pmap_len. destruct HC as (_ & _ & A3 & A4 & _). change (T RN) with R in *. lia. }
  assert (P : forall W v : list R, (length W <= length v)%nat -> stored_energies (N:=RN) W v = Ok (map (fun p => fst p * snd p) (combine W v)) /\
    Rsum (map (fun p => fst p * snd p) (combine W v)) = total v W).
  { clear. induction W as [|w W IH]; intros [|a v] L; try (cbn in L; lia); try (split; reflexivity). destruct (IH v) as (A & B); [cbn in L; lia|].
    cbn [stored_energies combine map fst snd total]. change (T RN) with R in *. rewrite A. split; [reflexivity|].
    refine (eq_trans (f_equal (Rplus (w * a)) B) _). ring. }
  split.
  - intros s. exists (W s), (th s). split; [apply E|]. exact (proj1 (P (W s) v (LW s))).
  - eapply derivable_pt_lim_ext; [|exact D]. intros s. cbv beta. symmetry. exact (proj2 (P (W s) v (LW s))).
Qed.
Print Assumptions C61_stored.

(** A body with broken bonds: the potential is the reported energy plus the term that [mended] adds at every point that
    has lost bonds. *)
Theorem C61_damaged : forall omega K MU h al deltaT n nbrs x v m dmg md y t w,
  cloud_ok (N:=RN) n nbrs x x v -> per_point (N:=RN) nbrs m -> per_bond (N:=RN) nbrs dmg -> opt_ok (per_point (N:=RN) nbrs) deltaT ->
  (forall a, In a m -> a <> 0) -> (forall b, In b dmg -> b = 0 \/ b = 1) -> intact_volumes omega h x v dmg nbrs md ->
  moves y t w -> length w = n -> apart nbrs (y t) ->
  exists F W th, (forall s, elastic_evaluation (N:=RN) omega K MU h al deltaT x (y s) v m dmg nbrs = Ok (F s, W s, th s)) /\
    derivable_pt_lim (fun s => total v (mended MU (W s) (th s) m md)) t (- power v (F t) w).
Proof. exact damaged_potential. Qed.
Print Assumptions C61_damaged.

(** The multiphysics material: the fluid pressure, held fixed, does work on the dilatation. *)
Theorem C61_multiphysics : forall omega K MU h al deltaT n nbrs x pr v m scf dmg md y t w,
  cloud_ok (N:=RN) n nbrs x x v -> per_point (N:=RN) nbrs m -> per_bond (N:=RN) nbrs dmg -> opt_ok (per_point (N:=RN) nbrs) deltaT ->
  per_point (N:=RN) nbrs scf -> per_point (N:=RN) nbrs pr ->
  (forall a, In a m -> a <> 0) -> (forall b, In b dmg -> b = 0 \/ b = 1) -> intact_volumes omega h x v dmg nbrs md ->
  moves y t w -> length w = n -> apart nbrs (y t) ->
  exists F W th, (forall s, multiphysics_evaluation (N:=RN) omega K MU h al deltaT x (y s) pr v m scf dmg nbrs = Ok (F s, W s, th s)) /\
    derivable_pt_lim (fun s => total v (mended_fluid MU (W s) (th s) m md scf pr)) t (- power v (F t) w).
Proof. exact fluid_potential. Qed.
Print Assumptions C61_multiphysics.

(** Points that move as Newton's law says under the reported forces keep the sum of kinetic energy and reported energy. *)
Theorem C61_energy_conserved : forall omega K MU h al deltaT n nbrs x v m rho y w a F W th,
  cloud_ok (N:=RN) n nbrs x x v -> opt_ok (per_point (N:=RN) nbrs) deltaT ->
  dilatations (fun p _ js => weightedVolume (N:=RN) omega x v h p js) 0 0 nbrs = Ok m -> (forall b, In b m -> b <> 0) ->
  length rho = n -> (forall t, moves y t (w t) /\ moves w t (a t) /\ length (a t) = n /\ apart nbrs (y t)) ->
  (forall t, elastic_evaluation (N:=RN) omega K MU h al deltaT x (y t) v m (repeat 0 (num_bonds nbrs)) nbrs = Ok (F t, W t, th t)) ->
  (forall t, newton rho (a t) (F t)) ->
  forall t1 t2, kinetic_energy rho v (w t1) + total v (W t1) = kinetic_energy rho v (w t2) + total v (W t2).
Proof.
  intros omega K MU h al deltaT n nbrs x v m rho y w a F W th HC LT HM Hm Lr HV HE HN.
  assert (D : forall t, derivable_pt_lim (fun s => kinetic_energy rho v (w s) + total v (W s)) t 0).
  { intros t. destruct (HV t) as (V1 & V2 & La & HA).
    assert (Lw : forall s, length (w s) = length (a t)) by apply V2.
    destruct (C61_elastic omega K MU h al deltaT n nbrs x v m y t (w t) HC LT HM Hm V1 ltac:(rewrite Lw; exact La) HA) as (F' & W' & th' & E & D).
    assert (EF : forall s, F' s = F s /\ W' s = W s) by (intros s; specialize (E s); rewrite HE in E; injection E as -> -> _; auto).
    eapply lim_eq'; [apply (derivable_pt_lim_plus (fun s => kinetic_energy rho v (w s)) (fun s => total v (W s)))|].
    - apply (ke_rate t rho v w (a t) (F t)); auto; [rewrite La; exact Lr|rewrite La; apply HC].
    - eapply derivable_pt_lim_ext; [|exact D]. intros s. cbv beta. now rewrite (proj2 (EF s)).
    - rewrite (proj1 (EF t)). lra. }
  intros t1 t2.
  set (g := fun s => kinetic_energy rho v (w s) + total v (W s)) in *.
  assert (pr : derivable g) by (intros t; exists 0; apply D).
  apply (null_derivative_1 g pr). intros t. apply derive_pt_eq_0. apply D.
Qed.
Print Assumptions C61_energy_conserved.

(** The reported energy density is never negative ... *)
Theorem C61_nonnegative : forall omega K MU h al deltaT n nbrs x y v m dmg,
  cloud_ok (N:=RN) n nbrs x y v -> per_point (N:=RN) nbrs m -> per_bond (N:=RN) nbrs dmg -> opt_ok (per_point (N:=RN) nbrs) deltaT ->
  0 <= K -> 0 <= MU -> (forall d, 0 <= omega d h) -> (forall a, In a v -> 0 <= a) -> (forall a, In a m -> 0 < a) -> (forall b, In b dmg -> b <= 1) ->
  exists f W th, elastic_evaluation (N:=RN) omega K MU h al deltaT x y v m dmg nbrs = Ok (f, W, th) /\ length W = length nbrs /\ forall e, In e W -> 0 <= e.
Proof.
  intros omega K MU h al deltaT n nbrs x y v m dmg HC Lm Ld LT HK HMU Hw Hv Hm Hd.
  destruct (elastic_closed omega K MU h al deltaT n nbrs x y v m dmg HC Lm Ld LT) as (f & out & _ & E).
  eexists _, _, _. split; [exact E|]. split; [apply pmap_len|]. intros e He. apply In_nth_error in He as [p Hp].
  destruct (nth_error nbrs p) as [js|] eqn:Ep.
  - rewrite (pmap_nth _ _ nbrs p (offset nbrs p) js) in Hp by (split; auto). injection Hp as <-.
    destruct HC as (A1 & A2 & A3 & A4 & A5). eapply energy_nonneg; eauto. split; auto.
  - apply nth_error_None in Ep. rewrite (proj2 (nth_error_None _ _)) in Hp; [discriminate|]. rewrite pmap_len. exact Ep.
Qed.
Print Assumptions C61_nonnegative.

(** ... and vanishes at a point exactly when every bond of the point that is not broken has its reference length. *)
Theorem C61_zero_iff : forall omega K MU h al n nbrs x y v m dmg,
  cloud_ok (N:=RN) n nbrs x y v -> per_point (N:=RN) nbrs m -> per_bond (N:=RN) nbrs dmg ->
  0 < K -> 0 < MU -> (forall d, 0 < omega d h) -> (forall a, In a v -> 0 < a) -> (forall a, In a m -> 0 < a) -> (forall b, In b dmg -> b = 0 \/ b = 1) ->
  exists f W th, elastic_evaluation (N:=RN) omega K MU h al None x y v m dmg nbrs = Ok (f, W, th) /\
    forall p e, nth_error W p = Some e ->
      (e = 0 <-> forall k j, bond_at nbrs p k j -> nth k dmg 0 <> 1 -> dist (nth p y vzero) (nth j y vzero) = dist (nth p x vzero) (nth j x vzero)).
Proof.
  intros omega K MU h al n nbrs x y v m dmg HC Lm Ld HK HMU Hw Hv Hm Hd.
  destruct (elastic_closed omega K MU h al None n nbrs x y v m dmg HC Lm Ld I) as (f & out & _ & E).
  eexists _, _, _. split; [exact E|]. intros p e Hp.
  destruct (nth_error nbrs p) as [js|] eqn:Ep.
  2: { apply nth_error_None in Ep. rewrite (proj2 (nth_error_None _ _)) in Hp; [discriminate|]. rewrite pmap_len. exact Ep. }
  rewrite (pmap_nth _ _ nbrs p (offset nbrs p) js) in Hp by (split; auto). injection Hp as <-.
  destruct HC as (A1 & A2 & A3 & A4 & A5).
  rewrite (energy_zero omega K MU h al x v m dmg nbrs n A3 A5 Lm Ld HK HMU Hw Hv Hm Hd y p (offset nbrs p) js (conj Ep eq_refl)).
  unfold ex, shift, dTat, ze. setoid_rewrite vlen_dist. split.
  - intros H k j (js' & i & B1 & B2 & ->) Hb. rewrite Ep in B1. injection B1 as <-. specialize (H i j B2 Hb). change (T RN) with R in *. lra.
  - intros H i j Hi Hb. rewrite (H (offset nbrs p + i)%nat j); [ring| |exact Hb]. exists js, i. auto.
Qed.
Print Assumptions C61_zero_iff.

(** A rigid motion stores nothing. *)
Theorem C61_rigid : forall omega K MU h al n nbrs x v m dmg Q c, orthogonal Q ->
  cloud_ok (N:=RN) n nbrs x x v -> per_point (N:=RN) nbrs m -> per_bond (N:=RN) nbrs dmg ->
  exists f th, elastic_evaluation (N:=RN) omega K MU h al None x (map (move Q c) x) v m dmg nbrs = Ok (f, repeat 0 (length nbrs), th).
Proof.
  intros omega K MU h al n nbrs x v m dmg Q c HQ (A1 & A2 & A3 & A4 & A5) Lm Ld.
  assert (HC : cloud_ok (N:=RN) n nbrs x (map (move Q c) x) v) by (repeat split; auto; now rewrite map_length).
  destruct (elastic_closed omega K MU h al None n nbrs x (map (move Q c) x) v m dmg HC Lm Ld I) as (f & out & _ & E).
  exists f. eexists. etransitivity; [exact E|]. f_equal. apply f_equal2; [|reflexivity]. apply f_equal.
  assert (Z : forall p k js, at_point nbrs p k js -> energy_at omega K MU h al None x v m dmg None (map (move Q c) x) p k js = 0).
  { intros p k js Ha.
    assert (EX : forall i j, nth_error js i = Some j -> ex al None x (map (move Q c) x) p j = 0).
    { intros i j Hi. destruct (bond_lt dmg nbrs n A5 Ld _ _ _ Ha _ _ Hi) as [B1 _].
      assert (Hp : (p < n)%nat) by (destruct Ha as [H _]; assert ((p < length nbrs)%nat) by (apply nth_error_Some; congruence); lia).
      unfold ex, shift, dTat, ze.
      rewrite !(nth_indep (map (move Q c) x) vzero (move Q c vzero)) by (rewrite map_length; lia). rewrite !map_nth, move_len by exact HQ. ring. }
    unfold energy_at.
    assert (T0 : th_sum omega h al None x v m dmg (map (move Q c) x) p k js = 0).
    { unfold th_sum. apply jsum_zero. intros i j Hi. rewrite (EX i j Hi). unfold Rdiv. ring. }
    assert (D0 : dev_sum omega h al None x v dmg (map (move Q c) x) (th_sum omega h al None x v m dmg (map (move Q c) x) p k js) p k js = 0).
    { apply jsum_zero. intros i j Hi. rewrite (EX i j Hi), T0. field. }
    rewrite D0, T0. ring. }
  apply (nth_ext _ _ 0 0); [rewrite pmap_len, repeat_length; reflexivity|].
  intros p Hp. rewrite pmap_len in Hp.
  transitivity 0; [|symmetry; exact (repeat_spec _ _ _ (nth_In _ _ ltac:(rewrite repeat_length; exact Hp)))].
  destruct (nth_error nbrs p) as [js|] eqn:Ep; [|apply nth_error_None in Ep; lia].
  erewrite nth_error_nth; [|apply (pmap_nth _ _ nbrs p (offset nbrs p) js); split; auto]. apply Z. split; auto.
Qed.
Print Assumptions C61_rigid.

(** A rod of three points; the point in the middle is joined to the other two.  The right-hand point is moved to
    [1 + s^2]. *)
Definition rod_x : list vec := [v3 (N:=RN) 0 0 0; v3 (N:=RN) 1 0 0; v3 (N:=RN) (-1) 0 0].
Definition rod_y (s : R) : list vec := [v3 (N:=RN) 0 0 0; v3 (N:=RN) (1 + s * s) 0 0; v3 (N:=RN) (-1) 0 0].
Definition rod_w (t : R) : list vec := [v3 (N:=RN) 0 0 0; v3 (N:=RN) (2 * t) 0 0; v3 (N:=RN) 0 0 0].
Definition rod_nbrs : list (list nat) := [[1%nat; 2%nat]; [0%nat]; [0%nat]].

Lemma axis_len : forall u : vec, vy u = 0 -> vz u = 0 -> vlen u = Rabs (vx u).
Proof.
  intros [a b c] H1 H2. cbn [vx vy vz] in *. subst. unfold vlen, vdot. cbn [vx vy vz].
  change (sqrt (a * a + 0 * 0 + 0 * 0) = Rabs a). rewrite <- sqrt_Rsqr_abs. f_equal. unfold Rsqr. ring.
Qed.
Lemma rod_len : forall u v0 : vec, vy u = 0 -> vz u = 0 -> vy v0 = 0 -> vz v0 = 0 -> vlen (vsub u v0) = Rabs (vx u - vx v0).
Proof. intros u v0 H1 H2 H3 H4. apply axis_len; unfold vsub; cbn [vy vz]; to_R; rewrite ?H1, ?H2, ?H3, ?H4; ring. Qed.
Ltac rod_abs := repeat match goal with |- context [Rabs ?e] =>
  first [replace (Rabs e) with e by (symmetry; apply Rabs_right; nra) | replace (Rabs e) with (- e) by (symmetry; apply Rabs_left1; nra)] end.
Lemma rod_moves : forall t, moves rod_y t (rod_w t).
Proof.
  intros t. split; [reflexivity|].
  assert (Z : forall c, derivable_pt_lim (fun _ => c) t 0) by (intros c; apply derivable_pt_lim_const).
  intros [|[|[|i]]] a Ha; cbn in Ha; try (destruct i; discriminate); injection Ha as <-; cbn [nth rod_y vx vy vz]; repeat split; try apply Z.
  eapply lim_eq'; [apply (derivable_pt_lim_plus (fun _ => 1) (fun s => s * s)); [apply Z|apply (derivable_pt_lim_mult id id); apply derivable_pt_lim_id]|].
  cbn. unfold id. ring.
Qed.
Lemma rod_apart : forall t, apart rod_nbrs (rod_y t).
Proof.
  intros t p k j Y YP (js & i & B1 & B2 & _) HY HYP E.
  destruct p as [|[|[|p]]]; cbn in B1; try (destruct p; discriminate); injection B1 as <-; cbn in HY; injection HY as <-;
    destruct i as [|[|i]]; cbn in B2; try discriminate; try (destruct i; discriminate); injection B2 as <-; cbn in HYP; injection HYP as HYP;
    rewrite <- HYP in E; apply (f_equal (@vx RN)) in E; cbn [vx] in E; change (T RN) with R in *; nra.
Qed.
Lemma rod_cloud : cloud_ok (N:=RN) 3 rod_nbrs rod_x rod_x [1; 1; 1].
Proof. repeat split; cbn; auto; repeat constructor. Qed.
Lemma rod_m : dilatations (fun p _ js => weightedVolume (N:=RN) (fun _ _ => 1) rod_x [1; 1; 1] 2 p js) 0 0 rod_nbrs = Ok [2; 1; 1].
Proof.
  unfold rod_nbrs, rod_x. cbn [dilatations weightedVolume foldM at_ub nth_error bind vsub vdot vx vy vz length Nat.add].
  f_equal. unfold vdot, vsub. cbn [vx vy vz]. to_R. change (ofZ 0) with 0.
  repeat (apply f_equal2; [ring|]). reflexivity.
Qed.
Lemma rod_intact : intact_volumes (fun _ _ => 1) 2 rod_x [1; 1; 1] [0; 1; 0; 1] rod_nbrs [1; 1; 0].
Proof.
  split; [reflexivity|]. intros [|[|[|p]]] js Hp; cbn in Hp; try (destruct p; discriminate); injection Hp as <-; [change (offset rod_nbrs 0) with 0%nat|change (offset rod_nbrs 1) with 2%nat|change (offset rod_nbrs 2) with 3%nat]; cbn [nth_error intact_volume nth rod_x num_bonds firstn length fold_right Nat.add];
    f_equal; rewrite <- ?vlen_dist, ?rod_len by reflexivity; cbn [vx]; rod_abs; unfold Rsqr; ring.
Qed.

(** Non-vacuity of C61_elastic: the rod, undamaged, at any time of its motion. *)
Example C61_elastic_rod : forall K MU t,
  exists F W th, (forall s, elastic_evaluation (N:=RN) (fun _ _ => 1) K MU 2 0 None rod_x (rod_y s) [1; 1; 1] [2; 1; 1] [0; 0; 0; 0] rod_nbrs = Ok (F s, W s, th s)) /\
    derivable_pt_lim (fun s => total [1; 1; 1] (W s)) t (- power [1; 1; 1] (F t) (rod_w t)).
Proof.
  intros K MU t.
  apply (C61_elastic (fun _ _ => 1) K MU 2 0 None 3 rod_nbrs rod_x [1; 1; 1] [2; 1; 1] rod_y t (rod_w t) rod_cloud I rod_m); [|apply rod_moves|reflexivity|apply rod_apart].
  intros a [<-|[<-|[<-|[]]]]; apply R1_neq_R0 || (apply Rgt_not_eq; lra).
Qed.

(** With broken bonds the reported energy is not the potential of the forces, whatever the moduli: the bond of the rod
    between the middle and the left-hand point is broken. *)
Theorem C61_damaged_refuted : forall K MU t, MU <> 0 -> t <> 0 ->
  exists omega h n nbrs x v m dmg y w,
    cloud_ok (N:=RN) n nbrs x x v /\ per_bond (N:=RN) nbrs dmg /\ (forall b, In b dmg -> b = 0 \/ b = 1) /\
    dilatations (fun p _ js => weightedVolume (N:=RN) omega x v h p js) 0 0 nbrs = Ok m /\ (forall a, In a m -> a <> 0) /\
    moves y t w /\ length w = n /\ apart nbrs (y t) /\
    exists F W th, (forall s, elastic_evaluation (N:=RN) omega K MU h 0 None x (y s) v m dmg nbrs = Ok (F s, W s, th s)) /\
      ~ derivable_pt_lim (fun s => total v (W s)) t (- power v (F t) w).
Proof.
  intros K MU t HMU Ht.
  exists (fun _ _ => 1), 2, 3%nat, rod_nbrs, rod_x, [1; 1; 1], [2; 1; 1], [0; 1; 0; 1], rod_y, (rod_w t).
  assert (Hm : forall a, In a [2; 1; 1] -> a <> 0) by (intros a [<-|[<-|[<-|[]]]]; apply R1_neq_R0 || (apply Rgt_not_eq; lra)).
  assert (Hd : forall b, In b [0; 1; 0; 1] -> b = 0 \/ b = 1) by (intros b Hb; cbn in Hb; tauto || (decompose [or] Hb; subst; auto; contradiction)).
  split; [exact rod_cloud|]. split; [reflexivity|]. split; [exact Hd|]. split; [exact rod_m|]. split; [exact Hm|].
  split; [apply rod_moves|]. split; [reflexivity|]. split; [apply rod_apart|].
  destruct (C61_damaged (fun _ _ => 1) K MU 2 0 None 3 rod_nbrs rod_x [1; 1; 1] [2; 1; 1] [0; 1; 0; 1] [1; 1; 0] rod_y t (rod_w t) rod_cloud eq_refl eq_refl I Hm Hd rod_intact (rod_moves t) eq_refl (rod_apart t)) as (F & W & th & E & D).
  exists F, W, th. split; [exact E|]. intros D2.
  assert (TH : forall s, length (W s) = 3%nat /\ th s = [3 * (s * s) / 2; 3 * (s * s); 0]).
  { intros s. assert (C : cloud_ok (N:=RN) 3 rod_nbrs rod_x (rod_y s) [1; 1; 1]) by (repeat split; cbn; auto; repeat constructor).
    destruct (elastic_closed (fun _ _ => 1) K MU 2 0 None 3 rod_nbrs rod_x (rod_y s) [1; 1; 1] [2; 1; 1] [0; 1; 0; 1] C eq_refl eq_refl I) as (f & out & _ & E2).
    pose proof (eq_trans (eq_sym (E s)) E2) as E5. apply Ok_pair in E5 as [E3 E4]. apply (f_equal snd) in E3. cbn [snd] in E3. rewrite <- E3, <- E4. split; [apply pmap_len|].
    cbn [pmap rod_nbrs length Nat.add]. unfold th_sum, ex, shift, dTat, om, ze. cbn [jsum nth rod_x rod_y Nat.add].
    rewrite !rod_len by reflexivity. cbn [vx]. rod_abs. repeat (apply f_equal2; [field|]). reflexivity. }
  assert (DC : derivable_pt_lim (fun s => total [1; 1; 1] (mended MU (W s) (th s) [2; 1; 1] [1; 1; 0]) - total [1; 1; 1] (W s)) t 0).
  { eapply lim_eq'; [exact (derivable_pt_lim_minus _ _ _ _ _ D D2)|]. ring. }
  assert (DC2 : derivable_pt_lim (fun s => 15 / 16 * MU * (s * s * (s * s))) t (15 / 4 * MU * (t * t * t))).
  { eapply lim_eq'; [apply (derivable_pt_lim_scal (fun s => s * s * (s * s))); apply (derivable_pt_lim_mult (fun s => s * s) (fun s => s * s)); apply (derivable_pt_lim_mult id id); apply derivable_pt_lim_id|].
    unfold id. field. }
  assert (U : 15 / 4 * MU * (t * t * t) = 0).
  { eapply uniqueness_limite; [exact DC2|]. eapply derivable_pt_lim_ext; [|exact DC]. intros s. cbv beta.
    destruct (TH s) as [LW ->]. destruct (W s) as [|w0 [|w1 [|w2 [|w3 l]]]]; try discriminate. cbn [mended total]. field. }
  apply Rmult_integral in U as [U|U]; [lra|]. repeat (apply Rmult_integral in U as [U|U]; [|auto]). auto.
Qed.
Print Assumptions C61_damaged_refuted.

(** Non-vacuity of C61_multiphysics, C61_nonnegative and C61_zero_iff: the rod with its broken bond. *)
Example C61_rod_hypotheses : forall MU t, 0 < MU ->
  (exists F W th, (forall s, multiphysics_evaluation (N:=RN) (fun _ _ => 1) 1 MU 2 0 (Some [1; 2; 3]) rod_x (rod_y s) [5; 6; 7] [1; 1; 1] [2; 1; 1] [1; 2; 1] [0; 1; 0; 1] rod_nbrs = Ok (F s, W s, th s)) /\
    derivable_pt_lim (fun s => total [1; 1; 1] (mended_fluid MU (W s) (th s) [2; 1; 1] [1; 1; 0] [1; 2; 1] [5; 6; 7])) t (- power [1; 1; 1] (F t) (rod_w t))) /\
  exists f W th, elastic_evaluation (N:=RN) (fun _ _ => 1) 1 MU 2 0 None rod_x (rod_y t) [1; 1; 1] [2; 1; 1] [0; 1; 0; 1] rod_nbrs = Ok (f, W, th) /\
    (forall e, In e W -> 0 <= e) /\
    forall p e, nth_error W p = Some e ->
      (e = 0 <-> forall k j, bond_at rod_nbrs p k j -> nth k [0; 1; 0; 1] 0 <> 1 -> dist (nth p (rod_y t) vzero) (nth j (rod_y t) vzero) = dist (nth p rod_x vzero) (nth j rod_x vzero)).
Proof.
  intros MU t HMU.
  assert (Hm : forall a, In a [2; 1; 1] -> 0 < a) by (intros a [<-|[<-|[<-|[]]]]; lra).
  assert (Hv : forall a, In a [1; 1; 1] -> 0 < a) by (intros a [<-|[<-|[<-|[]]]]; lra).
  assert (Hd : forall b, In b [0; 1; 0; 1] -> b = 0 \/ b = 1) by (intros b Hb; cbn in Hb; decompose [or] Hb; subst; auto; contradiction).
  split.
  - apply (C61_multiphysics (fun _ _ => 1) 1 MU 2 0 (Some [1; 2; 3]) 3 rod_nbrs rod_x [5; 6; 7] [1; 1; 1] [2; 1; 1] [1; 2; 1] [0; 1; 0; 1] [1; 1; 0] rod_y t (rod_w t) rod_cloud eq_refl eq_refl eq_refl eq_refl eq_refl); auto.
    + intros a Ha. apply Rgt_not_eq, Hm, Ha.
    + exact rod_intact.
    + apply rod_moves.
    + apply rod_apart.
  - assert (C : cloud_ok (N:=RN) 3 rod_nbrs rod_x (rod_y t) [1; 1; 1]) by (repeat split; cbn; auto; repeat constructor).
    destruct (C61_nonnegative (fun _ _ => 1) 1 MU 2 0 None 3 rod_nbrs rod_x (rod_y t) [1; 1; 1] [2; 1; 1] [0; 1; 0; 1] C eq_refl eq_refl I) as (f & W & th & E & _ & P); try lra; try (intros; lra); auto.
    { intros a Ha. left. auto. } { intros b Hb. destruct (Hd b Hb); lra. }
    destruct (C61_zero_iff (fun _ _ => 1) 1 MU 2 0 3 rod_nbrs rod_x (rod_y t) [1; 1; 1] [2; 1; 1] [0; 1; 0; 1] C eq_refl eq_refl) as (f' & W' & th' & E' & P'); try lra; try (intros; lra); auto.
    exists f, W, th. split; [exact E|]. split; [exact P|]. pose proof (eq_trans (eq_sym E') E) as E2. apply Ok_pair in E2 as [E3 _]. apply (f_equal snd) in E3. cbn [snd] in E3. rewrite E3. exact P'.
Qed.

(** Non-vacuity of C61_energy_conserved: two points joined by a bond, swinging about their reference distance. *)
Definition swing_x : list vec := [v3 (N:=RN) 0 0 0; v3 (N:=RN) 1 0 0].
Definition swing_y (t : R) : list vec := [v3 (N:=RN) (- (cos t / 4)) 0 0; v3 (N:=RN) (1 + cos t / 4) 0 0].
Definition swing_w (t : R) : list vec := [v3 (N:=RN) (sin t / 4) 0 0; v3 (N:=RN) (- (sin t / 4)) 0 0].
Definition swing_a (t : R) : list vec := [v3 (N:=RN) (cos t / 4) 0 0; v3 (N:=RN) (- (cos t / 4)) 0 0].
Example C61_swing : forall MU, exists W th,
  (forall t, elastic_evaluation (N:=RN) (fun _ _ => 1) (/ 36) MU 2 0 None swing_x (swing_y t) [1; 1] [1; 1] [0; 0] [[1%nat]; [0%nat]] = Ok (swing_a t, W t, th t)) /\
  W 0 <> W (PI / 2) /\
  forall t1 t2, kinetic_energy [1; 1] [1; 1] (swing_w t1) + total [1; 1] (W t1) = kinetic_energy [1; 1] [1; 1] (swing_w t2) + total [1; 1] (W t2).
Proof.
  intros MU.
  assert (B : forall t, -1 <= cos t <= 1) by (intros; split; apply COS_bound).
  assert (E : forall t, elastic_evaluation (N:=RN) (fun _ _ => 1) (/ 36) MU 2 0 None swing_x (swing_y t) [1; 1] [1; 1] [0; 0] [[1%nat]; [0%nat]]
    = Ok (swing_a t, [/ 32 * (cos t * cos t); / 32 * (cos t * cos t)], [3 / 2 * cos t; 3 / 2 * cos t])).
  { intros t. specialize (B t).
    assert (C : cloud_ok (N:=RN) 2 [[1%nat]; [0%nat]] swing_x (swing_y t) [1; 1]) by (repeat split; cbn; auto; repeat constructor).
    destruct (elastic_closed (fun _ _ => 1) (/ 36) MU 2 0 None 2 [[1%nat]; [0%nat]] swing_x (swing_y t) [1; 1] [1; 1] [0; 0] C eq_refl eq_refl I) as (f & out & RUN & E).
    etransitivity; [exact E|].
    assert (TH : pmap (th_sum (fun _ _ => 1) 2 0 None swing_x [1; 1] [1; 1] [0; 0] (swing_y t)) 0 0 [[1%nat]; [0%nat]] = [3 / 2 * cos t; 3 / 2 * cos t]).
    { cbn [pmap length Nat.add]. unfold th_sum, ex, shift, dTat, om, ze. cbn [jsum nth swing_x swing_y Nat.add].
      rewrite !rod_len by reflexivity. cbn [vx]. rod_abs. repeat (apply f_equal2; [field|]). reflexivity. }
    f_equal. apply f_equal2; [|exact TH]. apply f_equal2.
    - match type of RUN with context [pmap ?a ?b ?c ?d] => change (pmap a b c d) with (pmap (th_sum (fun _ _ : R => 1) 2 0 None swing_x [1; 1] [1; 1] [0; 0] (swing_y t)) 0 0 [[1%nat]; [0%nat]]) in RUN end.
      rewrite TH in RUN. unfold run_kernel, swing_x, swing_y in RUN.
      cbn [point_loop bond_loop lps pre bond vols bond_volumes cell_volumes at_ub nth_error bind opt_at add_at sub_at upd_ub upd Nat.add length repeat] in RUN.
      unfold add_at, sub_at, upd_ub, upd in RUN.
      cbn [at_ub nth_error bind length Nat.ltb Nat.leb firstn skipn app upd_ub upd] in RUN.
      apply Ok_pair in RUN as [RUN _]. rewrite <- ?RUN, ?RUN.
      rewrite !rod_len by reflexivity. unfold swing_a, along, lps_t, thermal, vmulr, vdivr, vscale, vsub, vadd, vzero. cbn [vx vy vz repeat]. to_R. change (T RN) with R in *.
      rod_abs. repeat (apply f_equal2; [apply v3_ext; cbn [vx vy vz]; to_R; change (T RN) with R in *; field; repeat split; first [apply Rgt_not_eq; lra|apply Rlt_not_eq; lra]|]). reflexivity.
    - cbn [pmap length Nat.add]. unfold energy_at, dev_sum, alpha_of.
      assert (T0 : th_sum (fun _ _ => 1) 2 0 None swing_x [1; 1] [1; 1] [0; 0] (swing_y t) 0 0 [1%nat] = 3 / 2 * cos t) by (exact (f_equal (fun l => nth 0 l 0) TH)).
      assert (T1 : th_sum (fun _ _ => 1) 2 0 None swing_x [1; 1] [1; 1] [0; 0] (swing_y t) 1 1 [0%nat] = 3 / 2 * cos t) by (exact (f_equal (fun l => nth 1 l 0) TH)).
      repeat match goal with |- context [th_sum ?a ?b ?c ?d ?e ?f ?g ?h ?i ?j ?k ?l] => first [replace (th_sum a b c d e f g h i j k l) with (3 / 2 * cos t) by (symmetry; first [exact T0|exact T1])] end.
      unfold ex, shift, dTat, om, ze. cbn [jsum nth swing_x swing_y Nat.add]. rewrite !rod_len by reflexivity. cbn [vx]. rod_abs. repeat (apply f_equal2; [field|]). reflexivity. }
  exists (fun t => [/ 32 * (cos t * cos t); / 32 * (cos t * cos t)]), (fun t => [3 / 2 * cos t; 3 / 2 * cos t]).
  split; [exact E|]. split.
  { intros H. apply (f_equal (fun l => nth 0 l 0)) in H. cbn [nth] in H. rewrite cos_0, cos_PI2 in H. lra. }
  assert (DC : forall t, derivable_pt_lim (fun s => cos s / 4) t (- (sin t / 4))).
  { intros t. eapply lim_eq'; [apply (derivable_pt_lim_mult cos (fun _ => / 4)); [apply derivable_pt_lim_cos|apply derivable_pt_lim_const]|]. field. }
  assert (DS : forall t, derivable_pt_lim (fun s => sin s / 4) t (cos t / 4)).
  { intros t. eapply lim_eq'; [apply (derivable_pt_lim_mult sin (fun _ => / 4)); [apply derivable_pt_lim_sin|apply derivable_pt_lim_const]|]. field. }
  assert (Z : forall c t, derivable_pt_lim (fun _ => c) t 0) by (intros c t; apply derivable_pt_lim_const).
  assert (HM : dilatations (fun p _ js => weightedVolume (N:=RN) (fun _ _ => 1) swing_x [1; 1] 2 p js) 0 0 [[1%nat]; [0%nat]] = Ok [1; 1]).
  { unfold swing_x. cbn [dilatations weightedVolume foldM at_ub nth_error bind vsub vdot vx vy vz length Nat.add].
    f_equal. unfold vdot, vsub. cbn [vx vy vz]. to_R. change (ofZ 0) with 0. repeat (apply f_equal2; [ring|]). reflexivity. }
  apply (C61_energy_conserved (fun _ _ => 1) (/ 36) MU 2 0 None 2 [[1%nat]; [0%nat]] swing_x [1; 1] [1; 1] [1; 1] swing_y swing_w swing_a swing_a
    (fun t => [/ 32 * (cos t * cos t); / 32 * (cos t * cos t)]) (fun t => [3 / 2 * cos t; 3 / 2 * cos t])); auto.
  - repeat split; cbn; auto; repeat constructor.
  - exact I.
  - intros b [<-|[<-|[]]]; apply R1_neq_R0.
  - intros t. split; [|split; [|split; [reflexivity|]]].
    + split; [reflexivity|]. intros [|[|i]] c Hc; cbn in Hc; try (destruct i; discriminate); injection Hc as <-; cbn [nth swing_y vx vy vz]; repeat split; try apply Z.
      * eapply lim_eq'; [apply (derivable_pt_lim_opp (fun s => cos s / 4)), DC|]. ring.
      * eapply lim_eq'; [apply (derivable_pt_lim_plus (fun _ => 1) (fun s => cos s / 4)); [apply Z|apply DC]|]. ring.
    + split; [reflexivity|]. intros [|[|i]] c Hc; cbn in Hc; try (destruct i; discriminate); injection Hc as <-; cbn [nth swing_w vx vy vz]; repeat split; try apply Z.
      * apply DS.
      * apply (derivable_pt_lim_opp (fun s => sin s / 4)), DS.
    + intros p k j Y YP (js & i & B1 & B2 & _) HY HYP E2. specialize (B t).
      destruct p as [|[|p]]; cbn in B1; try (destruct p; discriminate); injection B1 as <-; cbn in HY; injection HY as <-;
        destruct i as [|i]; cbn in B2; try discriminate; try (destruct i; discriminate); injection B2 as <-; cbn in HYP; injection HYP as HYP;
        rewrite <- HYP in E2; apply (f_equal (@vx RN)) in E2; cbn [vx] in E2; change (T RN) with R in *; lra.
  - intros t. unfold newton, swing_a. cbn [combine]. repeat constructor; cbn [fst snd]; apply v3_ext; cbn [vx vy vz vscale]; to_R; ring.
Qed.

(** ** C62 *)

(** The kinetic energy written for a point is half its mass times its speed squared, the strain energy its volume times
    the strain energy density. *)
Theorem C62_point_values : forall K MU rho x y vel v m theta owned nbrs l,
  output_points (N:=RN) K MU rho x y vel v m theta 0 owned nbrs = Ok l ->
  length l = length owned /\
  forall i ID, nth_error owned i = Some ID ->
    exists W SE KE vol u, nth_error l i = Some (W, SE, KE) /\ nth_error v ID = Some vol /\ nth_error vel ID = Some u /\
      SE = vol * W /\ KE = 1 / 2 * rho * vol * vdot u u.
Proof.
  intros K MU rho x y vel v m theta owned nbrs l H. destruct (points_nth _ _ _ _ _ _ _ _ _ _ _ _ _ H) as [L G]. split; [exact L|].
  intros i ID Hi. destruct (G i ID Hi) as (js & [[W SE] KE] & _ & E1 & E2). destruct (point_parts _ _ _ _ _ _ _ _ _ _ _ _ _ _ _ E2) as (vol & u & P).
  exists W, SE, KE, vol, u. tauto.
Qed.
Print Assumptions C62_point_values.

(** The global values are the sums over all points of all blocks on all processors. *)
Theorem C62_global_sums : forall nb psss, psss <> [] -> Forall (fun pss => length pss = nb) psss ->
  output_global (N:=RN) (map (map (output_totals (N:=RN))) psss)
  = Ok (Rsum (map (fun a => snd (fst a)) (concat (concat psss))), Rsum (map snd (concat (concat psss)))).
Proof. exact global_sum. Qed.
Print Assumptions C62_global_sums.

(** For a body that is uniformly expanded the strain energy density is that of a pure change of volume ([e = 0]: rest). *)
Theorem C62_expansion : forall K MU rho e c n nbrs x vel v m, -1 <= e ->
  cloud_ok (N:=RN) n nbrs x x v -> length vel = n -> length m = n ->
  exists l, output_points (N:=RN) K MU rho x (map (expand e c) x) vel v m (repeat (3 * e) n) 0 (seq 0 (length nbrs)) nbrs = Ok l /\
    forall p, (p < length nbrs)%nat -> exists SE KE, nth_error l p = Some (1 / 2 * K * (3 * e) * (3 * e), SE, KE).
Proof.
  intros K MU rho e c n nbrs x vel v m He (A1 & A2 & A3 & A4 & A5) Lvel Lm.
  set (W := 1 / 2 * K * (3 * e) * (3 * e)).
  destruct (points_total K MU rho x (map (expand e c) x) vel v m (repeat (3 * e) n) (fun p _ js => (W, nth p v 0 * W, 1 / 2 * nth p v 0 * rho * (vx (nth p vel vzero) * vx (nth p vel vzero) + vy (nth p vel vzero) * vy (nth p vel vzero) + vz (nth p vel vzero) * vz (nth p vel (@vzero RN))))) nbrs 0%nat) as (l & E & G).
  - intros p js Hp. cbn [Nat.add]. assert (Pn : (p < n)%nat) by (assert ((p < length nbrs)%nat) by (apply nth_error_Some; congruence); lia).
    unfold output_point. rewrite (at_nth (T RN) 0 v p), (at_nth (T RN) 0 m p), (at_nth _ (@vzero RN) vel p) by rlia. cbn [bind].
    assert (TH : nth p (repeat (3 * e) n) 0 = 3 * e) by (exact (repeat_spec _ _ _ (nth_In _ _ ltac:(rewrite repeat_length; exact Pn)))).
    rewrite output_sum_zero.
    + cbn [bind]. rewrite (at_nth (T RN) 0 (repeat (3 * e) n) p) by (rewrite repeat_length; exact Pn). cbn [bind]. cbv zeta.
      assert (WE : 1 / 2 * K * nth p (repeat (3 * e) n) 0 * nth p (repeat (3 * e) n) 0 + 1 / 2 * (15 * MU / nth p m 0) * 0 = W) by (rewrite TH; unfold W; ring).
      change (Ok (1 / 2 * K * nth p (repeat (3 * e) n) 0 * nth p (repeat (3 * e) n) 0 + 1 / 2 * (15 * MU / nth p m 0) * 0,
        nth p v 0 * (1 / 2 * K * nth p (repeat (3 * e) n) 0 * nth p (repeat (3 * e) n) 0 + 1 / 2 * (15 * MU / nth p m 0) * 0),
        1 / 2 * nth p v 0 * rho * (vx (nth p vel vzero) * vx (nth p vel vzero) + vy (nth p vel vzero) * vy (nth p vel vzero) + vz (nth p vel vzero) * vz (nth p vel (@vzero RN))))
        = Ok (W, nth p v 0 * W, 1 / 2 * nth p v 0 * rho * (vx (nth p vel vzero) * vx (nth p vel vzero) + vy (nth p vel vzero) * vy (nth p vel vzero) + vz (nth p vel vzero) * vz (nth p vel (@vzero RN))))).
      rewrite WE. reflexivity.
    + intros j Hj. apply nth_error_In in Hp. rewrite Forall_forall in A5. specialize (A5 _ Hp). rewrite Forall_forall in A5. specialize (A5 _ Hj). cbv beta in A5. rewrite map_length. rlia.
    + rlia.
    + rewrite map_length. rlia.
    + rewrite repeat_length. exact Pn.
    + intros j Hj. apply nth_error_In in Hp. rewrite Forall_forall in A5. specialize (A5 _ Hp). rewrite Forall_forall in A5. specialize (A5 _ Hj). cbv beta in A5.
      rewrite !(nth_indep (map (expand e c) x) vzero (expand e c vzero)) by (rewrite map_length; rlia). rewrite !map_nth, expand_len by exact He.
      pose proof TH as TH'. change (T RN) with R in *. rewrite TH'. field.
  - exists l. split; [exact E|]. intros p Hp. destruct (nth_error nbrs p) as [js|] eqn:Ep; [|apply nth_error_None in Ep; lia].
    specialize (G p js Ep). cbn [Nat.add] in G. eauto.
Qed.
Print Assumptions C62_expansion.

(** But the deviatoric part is not squared, so a deformed body can be reported to have negative strain energy, whatever the
    moduli, while the energy of C61 is positive: one neighbour at distance 1 moves in by 1/2, one at distance 2 moves out by 1/4. *)
Definition bent_x : list vec := [v3 (N:=RN) 0 0 0; v3 (N:=RN) 1 0 0; v3 (N:=RN) 0 2 0].
Definition bent_y : list vec := [v3 (N:=RN) 0 0 0; v3 (N:=RN) (1 / 2) 0 0; v3 (N:=RN) 0 (9 / 4) 0].
Lemma up_len : forall u v0 : vec, vx u = 0 -> vz u = 0 -> vx v0 = 0 -> vz v0 = 0 -> vlen (vsub u v0) = Rabs (vy u - vy v0).
Proof.
  intros [a b c] [a' b' c'] H1 H2 H3 H4. cbn [vx vy vz] in *. subst. unfold vlen, vsub, vdot. cbn [vx vy vz].
  change (sqrt ((0 - 0) * (0 - 0) + (b - b') * (b - b') + (0 - 0) * (0 - 0)) = Rabs (b - b')). rewrite <- sqrt_Rsqr_abs. f_equal. unfold Rsqr. ring.
Qed.
Ltac bent := repeat match goal with |- context [vlen (vsub (v3 (N:=RN) ?a ?b ?c) (v3 (N:=RN) ?d ?e ?f))] =>
  first [rewrite (rod_len (v3 (N:=RN) a b c) (v3 (N:=RN) d e f)) by reflexivity | rewrite (up_len (v3 (N:=RN) a b c) (v3 (N:=RN) d e f)) by reflexivity] end; cbn [vx vy].
Theorem C62_strain_energy_refuted : forall K MU rho, 0 < MU ->
  exists n nbrs x y vel v m,
    cloud_ok (N:=RN) n nbrs x y v /\
    dilatations (fun p _ js => weightedVolume (N:=RN) (fun _ _ => 1) x v 3 p js) 0 0 nbrs = Ok m /\ (forall a, In a m -> 0 < a) /\
    exists f W th l, elastic_evaluation (N:=RN) (fun _ _ => 1) K MU 3 0 None x y v m (repeat 0 (num_bonds nbrs)) nbrs = Ok (f, W, th) /\
      output_points (N:=RN) K MU rho x y vel v m th 0 (seq 0 (length nbrs)) nbrs = Ok l /\
      exists w W' SE KE, nth_error W 0 = Some w /\ nth_error l 0 = Some (W', SE, KE) /\ 0 < w /\ W' < 0 /\ SE < 0.
Proof.
  intros K MU rho HMU.
  exists 3%nat, [[1%nat; 2%nat]], bent_x, bent_y, bent_x, [1; 1; 1], [5].
  assert (C : cloud_ok (N:=RN) 3 [[1%nat; 2%nat]] bent_x bent_y [1; 1; 1]) by (repeat split; cbn; auto; repeat constructor).
  split; [exact C|]. split.
  { unfold bent_x. cbn [dilatations weightedVolume foldM at_ub nth_error bind vsub vdot vx vy vz length Nat.add].
    f_equal. unfold vdot, vsub. cbn [vx vy vz]. to_R. change (ofZ 0) with 0. repeat (apply f_equal2; [ring|]). reflexivity. }
  split; [intros a [<-|[]]; lra|].
  destruct (elastic_closed (fun _ _ => 1) K MU 3 0 None 3 [[1%nat; 2%nat]] bent_x bent_y [1; 1; 1] [5] [0; 0] C eq_refl eq_refl I) as (f & out & _ & E).
  assert (TH : th_sum (fun _ _ => 1) 3 0 None bent_x [1; 1; 1] [5] [0; 0] bent_y 0 0 [1%nat; 2%nat] = 0).
  { unfold th_sum, ex, shift, dTat, om, ze. cbn [jsum nth bent_x bent_y Nat.add]. bent. rod_abs. field. }
  set (th := pmap (th_sum (fun _ _ => 1) 3 0 None bent_x [1; 1; 1] [5] [0; 0] bent_y) 0 0 [[1%nat; 2%nat]]) in *.
  assert (THE : th = [0]) by (unfold th; cbn [pmap]; apply f_equal2; [exact TH|reflexivity]).
  set (W := pmap (energy_at (fun _ _ => 1) K MU 3 0 None bent_x [1; 1; 1] [5] [0; 0] None bent_y) 0 0 [[1%nat; 2%nat]]) in *.
  assert (HW : W = [1 / 2 * (15 * MU / 5) * (5 / 16)]).
  { unfold W. cbn [pmap]. apply f_equal2; [|reflexivity]. unfold energy_at. change (T RN) with R in *. rewrite TH. unfold dev_sum, alpha_of, ex, shift, dTat, om, ze. cbn [jsum nth bent_x bent_y Nat.add]. bent. rod_abs. field. }
  set (W' := 1 / 2 * K * 0 * 0 + 1 / 2 * (15 * MU / 5) * (- (1 / 4))).
  exists f, W, [0], [(W', 1 * W', 1 / 2 * 1 * rho * (0 * 0 + 0 * 0 + 0 * 0))].
  split; [rewrite <- THE; exact E|]. split.
  - cbn [length seq output_points]. unfold output_point, output_sum. cbn [foldM at_ub nth_error bind bent_x bent_y]. cbn [bind vx vy vz]. cbv zeta.
    unfold output_bond. cbv zeta. bent.
    assert (S1 : 0 + 1 * (Rabs (1 / 2 - 0) - Rabs (1 - 0) - 0 * Rabs (1 - 0) / 3) * 1 + 1 * (Rabs (9 / 4 - 0) - Rabs (2 - 0) - 0 * Rabs (2 - 0) / 3) * 1 = - (1 / 4)) by (rod_abs; field).
    unfold W'. rewrite <- S1. reflexivity.
  - exists (1 / 2 * (15 * MU / 5) * (5 / 16)), W', (1 * W'), (1 / 2 * 1 * rho * (0 * 0 + 0 * 0 + 0 * 0)). rewrite HW.
    split; [reflexivity|]. split; [reflexivity|]. unfold W'. repeat split; lra.
Qed.
Print Assumptions C62_strain_energy_refuted.

(** Non-vacuity of C62_point_values, C62_global_sums, C62_expansion: the rod, expanded by a tenth, in one of two blocks on one of
    two processors. *)
Example C62_rod : exists l,
  output_points (N:=RN) 2 3 4 rod_x (map (expand (1 / 10) vzero) rod_x) rod_x [1; 1; 1] [2; 1; 1] (repeat (3 * (1 / 10)) 3) 0 [0; 1; 2]%nat rod_nbrs = Ok l /\
  length l = 3%nat /\
  (exists SE KE, nth_error l 1 = Some (9 / 100, SE, KE)) /\
  exists SE KE, output_global (N:=RN) (map (map (output_totals (N:=RN))) [[l; []]; [[]; l]]) = Ok (SE, KE).
Proof.
  destruct (C62_expansion 2 3 4 (1 / 10) vzero 3 rod_nbrs rod_x rod_x [1; 1; 1] [2; 1; 1] ltac:(lra) rod_cloud eq_refl eq_refl) as (l & E & G).
  exists l. split; [exact E|]. destruct (C62_point_values _ _ _ _ _ _ _ _ _ _ _ _ E) as [L _]. split; [exact L|]. split.
  - destruct (G 1%nat ltac:(cbn; lia)) as (SE & KE & H). exists SE, KE. rewrite H. do 3 f_equal. field.
  - rewrite (C62_global_sums 2) by (first [easy | solve [repeat constructor]]). eauto.
Qed.
