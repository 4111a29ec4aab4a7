(** * C51: the diffusion materials conserve what they transport *)
From Coq Require Import Reals Lra Lia Permutation.
From Verif Require Import Base Num ModelNeigh ModelForce ModelBlock ModelDiffusion SpecDamage SpecGlobal SpecContact SpecForce SpecDiffusion ProofData ProofDamage ProofForce ProofKernels ProofFrame ProofMaterial ProofGlobal ProofContact2 ProofDiffusion ProofCoupled.
Import SpecForce.
Local Open Scope R_scope.
Local Notation vec := (V3 RN).

(** ** Fluid flow *)

(** The flow is computed for every cloud, and the volume weighted sum over the local points, ghosts included, is zero.
    (The values on the ghosts are added to their owners afterwards, C05.) *)
Theorem C51_flow_conserved : forall expf c n nbrs (y : list vec) pr v dmg deltaT,
  flow_inputs (N:=RN) n nbrs y pr v dmg deltaT ->
  exists f, fluid_flow (N:=RN) expf c y pr v dmg deltaT nbrs = Ok f /\ length f = n /\ total v f = 0.
Proof.
  intros expf c n nbrs y pr v dmg deltaT ((_ & Ly & Lv & Ln & F) & Lp & Ld & Lt). unfold fluid_flow. rewrite zeros.
  destruct (flow_points_ok expf c y pr v dmg deltaT n Ly Lp Lv nbrs 0 0 (repeat 0 (length v)) F) as (f & E & L & TT); [cbn; lia|rewrite Ld; cbn; lia| |rewrite repeat_length; exact Lv|].
  - destruct deltaT as [l|]; [|exact I]. cbn in *. unfold per_point in Lt. cbn in Lt. lia.
  - exists f. split; [exact E|]. split; [exact L|]. rewrite TT. apply total_zero.
Qed.
Print Assumptions C51_flow_conserved.

Example C51_flow_inputs_met : flow_inputs (N:=RN) 3 [[1%nat; 2%nat]; [0%nat]] [v3 (N:=RN) 0 0 0; v3 (N:=RN) 1 0 0; v3 (N:=RN) 0 2 0] [5; 3; 1] [1; 2; 4] [0; 1 / 2; 1] (Some [10; 20]).
Proof. repeat split; repeat constructor. Qed.

(** Several blocks or calls: whatever was in the flow before stays in the sum *)
Theorem C51_flow_keeps_total : forall expf c n nbrs (y : list vec) pr v dmg deltaT f0,
  flow_inputs (N:=RN) n nbrs y pr v dmg deltaT -> length f0 = n ->
  exists f, flow_points (N:=RN) expf c y pr v dmg deltaT 0 0 nbrs f0 = Ok f /\ length f = n /\ total v f = total v f0.
Proof.
  intros expf c n nbrs y pr v dmg deltaT f0 ((_ & Ly & Lv & Ln & F) & Lp & Ld & Lt) L0.
  apply (flow_points_ok expf c y pr v dmg deltaT n Ly Lp Lv nbrs 0 0 f0 F); [cbn; lia|rewrite Ld; cbn; lia| |exact L0].
  destruct deltaT as [l|]; [|exact I]. cbn in *. unfold per_point in Lt. cbn in Lt. lia.
Qed.
Print Assumptions C51_flow_keeps_total.

(** No flow at uniform pressure *)
Theorem C51_flow_uniform : forall expf c n nbrs (y : list vec) P v dmg deltaT,
  flow_inputs (N:=RN) n nbrs y (repeat P n) v dmg deltaT ->
  fluid_flow (N:=RN) expf c y (repeat P n) v dmg deltaT nbrs = Ok (repeat 0 n).
Proof.
  intros expf c n nbrs y P v dmg deltaT H. destruct (C51_flow_conserved expf c n nbrs y _ v dmg deltaT H) as (f & E & L & _). rewrite E. f_equal.
  unfold fluid_flow in E. rewrite zeros in E. apply (flow_points_still expf c y (repeat P n) v dmg deltaT P) in E; [|intros j a Hj; apply nth_error_In in Hj; now apply repeat_spec in Hj].
  rewrite E. f_equal. apply H.
Qed.
Print Assumptions C51_flow_uniform.

(** A rotation and translation of the body leaves the flow as it is *)
Theorem C51_flow_frame : forall expf c nbrs (y : list vec) pr v dmg deltaT Q b, orthogonal Q ->
  fluid_flow (N:=RN) expf c (map (move Q b) y) pr v dmg deltaT nbrs = fluid_flow (N:=RN) expf c y pr v dmg deltaT nbrs.
Proof.
  intros expf c nbrs y pr v dmg deltaT Q b HQ. apply flow_points_moved; [now rewrite map_length|]. intros p j Y YP Y' YP' E1 E2 E3 E4.
  rewrite (at_ub_map _ _ _ _ _ _ E1) in E3. injection E3 as <-. rewrite (at_ub_map _ _ _ _ _ _ E2) in E4. injection E4 as <-. rewrite move_sub. apply (proj2 (iso_rotate Q HQ)).
Qed.
Print Assumptions C51_flow_frame.

(** The claim that more bond damage does not lower the flow is false with a positive curve parameter, whenever the maximum
    permeability is above that of the undamaged bond: for two points, the flow from the second into the first is strictly
    lower with more damage.  (The repository's own Multiphysics input decks use 0.25 with maximum 1 and permeability 1e-12.) *)
Theorem C51_damage_refuted : forall (c : fluid RN) (A B : vec) P0 P1 V0 V1 d1 d2,
  0 < fluid_density c -> 0 < viscosity c -> 0 < flow_horizon c -> 0 < V1 -> 0 < vlen (vsub B A) -> P0 < P1 ->
  0 < curve c -> permeability c / 4 * (vlen (vsub B A) * vlen (vsub B A)) < max_permeability c -> d1 < d2 ->
  exists q1 q2 r1 r2, fluid_flow (N:=RN) exp c [A; B] [P0; P1] [V0; V1] [d1] None [[1%nat]; []] = Ok [q1; r1] /\
    fluid_flow (N:=RN) exp c [A; B] [P0; P1] [V0; V1] [d2] None [[1%nat]; []] = Ok [q2; r2] /\ q2 < q1.
Proof.
  intros c A B P0 P1 V0 V1 d1 d2 H1 H2 H3 H4 H5 H6 H7 H8 H9. rewrite !two_point_flow. cbv zeta. do 4 eexists. split; [reflexivity|]. split; [reflexivity|].
  rewrite !flux_value. exact (less_flow _ _ _ _ _ _ (P1 - P0) V1 (factor_pos c (viscosity c) (vlen (vsub B A)) H1 H2 H3 H5) H8 (logistic_less (curve c) (inflection c) d1 d2 H7 H9) (Rlt_Rminus _ _ H6) H4).
Qed.
Print Assumptions C51_damage_refuted.

Example C51_damage_case : let c := @Fluid RN (1 / 1000) 1 1 (1 / 2) (1 / 4) 1 1 0 in
  0 < fluid_density c /\ 0 < viscosity c /\ 0 < flow_horizon c /\ 0 < curve c /\
  permeability c / 4 * (vlen (vsub (v3 (N:=RN) 1 0 0) (v3 (N:=RN) 0 0 0)) * vlen (vsub (v3 (N:=RN) 1 0 0) (v3 (N:=RN) 0 0 0))) < max_permeability c.
Proof. cbn [fluid_density viscosity flow_horizon curve permeability max_permeability]. rewrite vlen_sq. cbn. lra. Qed.

(** The true direction: with a curve parameter that is not positive, more damage does not lower the flow between two points.
    Missing: bodies with more than two points, whose flows can cancel. *)
Theorem C51_damage_partial : forall (c : fluid RN) (A B : vec) P0 P1 V0 V1 d1 d2,
  0 < fluid_density c -> 0 < viscosity c -> 0 < flow_horizon c -> 0 <= V1 -> 0 < vlen (vsub B A) -> P0 <= P1 ->
  curve c <= 0 -> permeability c / 4 * (vlen (vsub B A) * vlen (vsub B A)) <= max_permeability c -> d1 <= d2 ->
  exists q1 q2 r1 r2, fluid_flow (N:=RN) exp c [A; B] [P0; P1] [V0; V1] [d1] None [[1%nat]; []] = Ok [q1; r1] /\
    fluid_flow (N:=RN) exp c [A; B] [P0; P1] [V0; V1] [d2] None [[1%nat]; []] = Ok [q2; r2] /\ q1 <= q2.
Proof.
  intros c A B P0 P1 V0 V1 d1 d2 H1 H2 H3 H4 H5 H6 H7 H8 H9. rewrite !two_point_flow. cbv zeta. do 4 eexists. split; [reflexivity|]. split; [reflexivity|].
  rewrite !flux_value. exact (more_flow _ _ _ _ _ _ (P1 - P0) V1 (factor_pos c (viscosity c) (vlen (vsub B A)) H1 H2 H3 H5) H8 (logistic_more (curve c) (inflection c) d1 d2 H7 H9) (Rge_le _ _ (Rge_minus _ _ (Rle_ge _ _ H6))) H4).
Qed.
Print Assumptions C51_damage_partial.

(** ** Flux divergence of heat *)

(** However a body is spread over processors, if the neighbour lists are mutual the flux divergence, weighted with the volumes and
    summed over all points, is zero; and every processor gets a result (over the reals every number is finite). *)
Theorem C51_divergence_conserved : forall fin coef h X T V ss fss, Forall share_ok ss -> mutual ss ->
  mapM (fun s => heat_divergence (N:=RN) fin coef h (local X s) (local T s) (local V s) None (lists s)) ss = Ok fss ->
  body_total V ss fss = 0.
Proof.
  intros fin coef h X T V ss fss F M E. rewrite (body_sum V (heat_pair coef h X T V) (fun s => heat (N:=RN) coef h (local X s) (local T s) (local V s) None)) with (fin := fin); [|intros s i j k _ Hi Hj; now apply heat_known|exact F|exact E].
  apply antisymmetric_sum; [exact M|]. intros a b. apply heat_antisym.
Qed.
Print Assumptions C51_divergence_conserved.
Theorem C51_divergence_defined : forall coef h X T V ss, Forall share_ok ss ->
  exists fss, mapM (fun s => heat_divergence (N:=RN) (fun _ => true) coef h (local X s) (local T s) (local V s) None (lists s)) ss = Ok fss.
Proof.
  intros coef h X T V ss F. apply (body_ok (heat_pair coef h X T V) (fun s => heat (N:=RN) coef h (local X s) (local T s) (local V s) None)); [|reflexivity|exact F]. intros s i j k _ Hi Hj; now apply heat_known.
Qed.
Print Assumptions C51_divergence_defined.

(** Three points on two processors, each a neighbour of the others *)
Definition three : list share := [Share [0; 1; 2] [[1; 2]; [0; 2]]; Share [2; 0; 1] [[1; 2]]]%nat.
Example C51_three_met : Forall share_ok three /\ mutual three.
Proof.
  split; [repeat constructor; cbn; lia|]. unfold mutual. cbn.
  apply NoDup_Permutation; [repeat constructor; cbn; intuition discriminate|repeat constructor; cbn; intuition discriminate|].
  intros [a b]. cbn. split; intros H; repeat (destruct H as [H|H]; [injection H as <- <-; cbn; tauto|]); destruct H.
Qed.

(** No divergence in a uniform field *)
Theorem C51_divergence_uniform : forall fin coef h X T V s t fs, share_ok s -> (forall a, In a (ids s) -> T a = t) ->
  heat_divergence (N:=RN) fin coef h (local X s) (local T s) (local V s) None (lists s) = Ok fs -> fs = repeat 0 (length (lists s)).
Proof.
  intros fin coef h X T V s t fs S HT E.
  apply (div_sum fin _ (fun i j => heat_pair coef h X T V (nth i (ids s) O) (nth j (ids s) O))) in E; [|intros i js j k Hi Hj; destruct (in_share s i js j S Hi Hj); now apply heat_known].
  subst fs. assert (Z : forall il, In il (combine (seq 0 (length (lists s))) (lists s)) -> Rsum (map (fun j => heat_pair coef h X T V (nth (fst il) (ids s) O) (nth j (ids s) O)) (snd il)) = 0).
  { intros [i js] Hi. apply Rsum_zero. intros j Hj. cbn [fst snd] in *. pose proof S as (L & F). pose proof (in_combine_l _ _ _ _ Hi) as Hi1. apply in_seq in Hi1. apply in_combine_r in Hi.
    rewrite Forall_forall in F. specialize (F js Hi). rewrite Forall_forall in F. specialize (F j Hj). unfold heat_pair. rewrite (HT (nth i (ids s) O)), (HT (nth j (ids s) O)) by (apply nth_In; lia). ring. }
  transitivity (map (fun _ : nat * list nat => 0) (combine (seq 0 (length (lists s))) (lists s))); [now apply map_ext_in|].
  replace (length (lists s)) with (length (combine (seq 0 (length (lists s))) (lists s))) at 2 by (rewrite combine_length, seq_length; lia). clear Z. induction (combine (seq 0 (length (lists s))) (lists s)); cbn; congruence.
Qed.
Print Assumptions C51_divergence_uniform.

(** A point that is at least as hot as its neighbours does not gain heat (nor lose any if it is as cold as they are): the field
    makes no new extremes *)
Theorem C51_hottest_cools : forall fin coef h X T V s fs i js, share_ok s -> 0 <= coef -> 0 < h -> (forall a, In a (ids s) -> 0 <= V a) ->
  heat_divergence (N:=RN) fin coef h (local X s) (local T s) (local V s) None (lists s) = Ok fs ->
  nth_error (lists s) i = Some js ->
  (forall j, In j js -> X (nth i (ids s) O) <> X (nth j (ids s) O) /\ T (nth j (ids s) O) <= T (nth i (ids s) O)) ->
  exists f, nth_error fs i = Some f /\ f <= 0.
Proof.
  intros fin coef h X T V s fs i js S H1 H2 HV E Hi Hj.
  apply (div_sum fin _ (fun i j => heat_pair coef h X T V (nth i (ids s) O) (nth j (ids s) O))) in E; [|intros i' js' j k Hi' Hj'; destruct (in_share s i' js' j S Hi' Hj'); now apply heat_known].
  subst fs. exists (Rsum (map (fun j => heat_pair coef h X T V (nth i (ids s) O) (nth j (ids s) O)) js)). split.
  - apply (map_nth_error (fun il => Rsum (map (fun j => heat_pair coef h X T V (nth (fst il) (ids s) O) (nth j (ids s) O)) (snd il))) i (combine (seq 0 (length (lists s))) (lists s)) (d := (i, js))).
    apply nth_error_combine_some; [|exact Hi]. assert (i < length (lists s))%nat by (apply nth_error_Some; congruence). rewrite (nth_error_nth' _ O) by (now rewrite seq_length). now rewrite seq_nth.
  - apply Rsum_nonpos. intros a Ha. apply in_map_iff in Ha as (j & <- & Ij). destruct (Hj j Ij) as (A & B). apply heat_pair_nonpos; auto. apply HV, nth_In. now destruct (in_share s i js j S Hi Ij).
Qed.
Print Assumptions C51_hottest_cools.

(** Mutual lists are needed: one bond stored on one side only *)
Theorem C51_one_sided_refuted : forall coef h (X : nat -> vec) T V, 0 < coef -> 0 < h -> 0 < V 0%nat -> 0 < V 1%nat -> X 0%nat <> X 1%nat -> T 0%nat <> T 1%nat ->
  let s := Share [0; 1]%nat [[1]; []]%nat in
  exists fs, heat_divergence (N:=RN) (fun _ => true) coef h (local X s) (local T s) (local V s) None (lists s) = Ok fs /\ body_total V [s] [fs] <> 0.
Proof.
  intros coef h X T V H1 H2 H3 H4 H5 H6 s. pose proof (distinct_len _ _ H5) as L. eexists. split; [reflexivity|]. unfold body_total. cbn [combine map fst snd s ids]. rewrite !Rsum_cons, !Rsum_nil.
  change (T 1%nat - T 0%nat)%num with (T 1%nat - T 0%nat). to_R. assert (D : T 1%nat - T 0%nat <> 0) by lra.
  assert (P : 0 < PI * h * h * h * h * vlen (vsub (X 0%nat) (X 1%nat))) by (apply Rmult_lt_0_compat; [repeat (apply Rmult_lt_0_compat; [|exact H2]); apply PI_RGT_0|exact L]).
  cbn in *. revert D P. generalize (T 1%nat - T 0%nat). match goal with |- context [PI * h * h * h * h * ?q] => generalize (PI * h * h * h * h * q) end. intros p d D P Z.
  assert (Q : 0 < V 0%nat * coef * (6 * / p) * V 1%nat) by (assert (0 < 6 * / p) by (pose proof (Rinv_0_lt_compat p P); lra); repeat (apply Rmult_lt_0_compat; [|assumption]); assumption).
  assert (Z' : V 0%nat * coef * (6 * / p) * V 1%nat * d = 0) by (unfold Rdiv in Z; lra). apply Rmult_integral in Z' as [Z'|Z']; [lra|now apply D].
Qed.
Print Assumptions C51_one_sided_refuted.

(** Coincident bonded points stop the run: no result is produced from the not-a-number they lead to *)
Theorem C51_coincident_stops : forall coef h (x : list (V3 FN)) temp v w nbrs i js j P fs, finite_vector P ->
  nth_error nbrs i = Some js -> In j js -> nth_error x i = Some P -> nth_error x j = Some P ->
  heat_divergence (N:=FN) finite_number coef h x temp v w nbrs <> Ok fs.
Proof.
  intros coef h x temp v w nbrs i js j P fs F Hi Hj Xi Xj E. destruct (div_finite (N:=FN) finite_number _ nbrs 0 0 fs i js j E Hi Hj) as (k & b & Eb & Fb).
  cbn [Nat.add] in Eb. pose proof (heat_coincident coef h x temp v w i j k P b F Xi Xj Eb) as Nb. congruence.
Qed.
Print Assumptions C51_coincident_stops.

(** ** Flux divergence of a species *)

(** At uniform temperature the species is conserved like heat *)
Theorem C51_species_conserved_partial : forall fin coef X T C V ss fss t, Forall share_ok ss -> mutual ss -> (forall a, T a = t) ->
  mapM (fun s => species_divergence (N:=RN) fin coef (local X s) (local T s) (local C s) (local V s) (lists s)) ss = Ok fss ->
  body_total V ss fss = 0.
Proof.
  intros fin coef X T C V ss fss t F M HT E. rewrite (body_sum V (species_pair coef X T C V) (fun s => species (N:=RN) coef (local X s) (local T s) (local C s) (local V s))) with (fin := fin); [|intros s i j k _ Hi Hj; now apply species_known|exact F|exact E].
  apply antisymmetric_sum; [exact M|]. intros a b. cbn [fst snd]. now apply species_antisym with (t := t).
Qed.
Print Assumptions C51_species_conserved_partial.

(** With temperatures that differ it is not: each side of a bond uses the diffusion coefficient of its own temperature *)
Theorem C51_species_refuted : forall coef (X : nat -> vec) T C V, 0 < coef -> 0 < V 0%nat -> 0 < V 1%nat -> X 0%nat <> X 1%nat -> T 0%nat <> T 1%nat -> C 0%nat <> C 1%nat ->
  let s := Share [0; 1]%nat [[1]; [0]]%nat in mutual [s] /\
  exists fs, species_divergence (N:=RN) (fun _ => true) coef (local X s) (local T s) (local C s) (local V s) (lists s) = Ok fs /\ body_total V [s] [fs] <> 0.
Proof.
  intros coef X T C V H1 H2 H3 H4 H5 H6 s. split; [apply perm_swap|]. pose proof (distinct_len _ _ H4) as L. eexists. split; [reflexivity|]. unfold body_total. cbn [combine map fst snd s ids]. rewrite !Rsum_cons, !Rsum_nil.
  rewrite (vlen_swap (X 1%nat) (X 0%nat)). to_R. cbn in *. revert L. match goal with |- context [sqrt ?q] => generalize (sqrt q) end. intros l L Z.
  assert (Z' : V 0%nat * V 1%nat * coef * / l * ((T 0%nat - T 1%nat) * (C 1%nat - C 0%nat)) = 0) by (unfold Rdiv in Z; lra).
  assert (Q : 0 < V 0%nat * V 1%nat * coef * / l) by (pose proof (Rinv_0_lt_compat l L); repeat (apply Rmult_lt_0_compat; [|assumption]); assumption).
  apply Rmult_integral in Z' as [Z'|Z']; [lra|]. apply Rmult_integral in Z' as [Z'|Z']; [apply H5; lra|apply H6; lra].
Qed.
Print Assumptions C51_species_refuted.

(** ** Forces of the coupled solid and of the vector Poisson material *)

Theorem C08_coupled_broken_bond_is_force_free : forall omega K MU h al dT x y pr v m theta dsf dmg d p k j fb s,
  nth_error dmg k = Some 1 -> bond _ _ (coupled (N:=RN) omega K MU h al dT x y pr v m theta dsf dmg) d p k j = Ok (fb, s) -> fb = vzero.
Proof. exact coupled_broken. Qed.
Print Assumptions C08_coupled_broken_bond_is_force_free.
Theorem C08_coupled_cut_off_point_is_untouched : forall omega K MU h al dT n nbrs x y pr v m theta dsf dmg f i,
  coupled_inputs (N:=RN) n nbrs x y pr v m theta dsf dmg dT -> length f = n -> cut_off nbrs dmg i ->
  exists f' out, run_kernel (coupled (N:=RN) omega K MU h al dT x y pr v m theta dsf dmg) nbrs f = Ok (f', out) /\ nth_error f' i = nth_error f i.
Proof. exact coupled_cut_off. Qed.
Print Assumptions C08_coupled_cut_off_point_is_untouched.
Theorem C09_coupled_momentum : forall omega K MU h al dT n nbrs x y pr v m theta dsf dmg f,
  coupled_inputs (N:=RN) n nbrs x y pr v m theta dsf dmg dT -> length f = n ->
  exists f' out, run_kernel (coupled (N:=RN) omega K MU h al dT x y pr v m theta dsf dmg) nbrs f = Ok (f', out) /\ length f' = n /\
    momentum v f' = momentum v f /\ (f = repeat vzero n -> momentum v f' = vzero).
Proof. intros omega K MU h al dT n nbrs x y pr v m theta dsf dmg f HI Hf. destruct (coupled_both omega K MU h al dT n nbrs x y pr v m theta dsf dmg f HI Hf) as (f' & out & E & L & M & _). exists f', out. tauto. Qed.
Print Assumptions C09_coupled_momentum.
Theorem C10_coupled_moment : forall omega K MU h al dT n nbrs x y pr v m theta dsf dmg f,
  coupled_inputs (N:=RN) n nbrs x y pr v m theta dsf dmg dT -> length f = n ->
  exists f' out, run_kernel (coupled (N:=RN) omega K MU h al dT x y pr v m theta dsf dmg) nbrs f = Ok (f', out) /\ length f' = n /\
    moment v y f' = moment v y f /\ (f = repeat vzero n -> moment v y f' = vzero).
Proof. intros omega K MU h al dT n nbrs x y pr v m theta dsf dmg f HI Hf. destruct (coupled_both omega K MU h al dT n nbrs x y pr v m theta dsf dmg f HI Hf) as (f' & out & E & L & _ & M). exists f', out. tauto. Qed.
Print Assumptions C10_coupled_moment.
Theorem C11_coupled_force_rotates : forall omega K MU h al dT n nbrs x y pr v m theta dsf dmg Q c f, orthogonal Q ->
  coupled_inputs (N:=RN) n nbrs x y pr v m theta dsf dmg dT -> length f = n ->
  exists f' out out', run_kernel (coupled (N:=RN) omega K MU h al dT x y pr v m theta dsf dmg) nbrs f = Ok (f', out) /\
    run_kernel (coupled (N:=RN) omega K MU h al dT x (map (move Q c) y) pr v m theta dsf dmg) nbrs (map (rotate Q) f) = Ok (map (rotate Q) f', out').
Proof. exact coupled_frame. Qed.
Print Assumptions C11_coupled_force_rotates.
Theorem C09_poisson_momentum : forall h n nbrs x y v f, cloud_ok (N:=RN) n nbrs x y v -> length f = n ->
  exists f' out, run_kernel (poisson (N:=RN) h x y v) nbrs f = Ok (f', out) /\ length f' = n /\
    momentum v f' = momentum v f /\ (f = repeat vzero n -> momentum v f' = vzero).
Proof. exact poisson_linear. Qed.
Print Assumptions C09_poisson_momentum.

Example C09_coupled_inputs_met :
  coupled_inputs (N:=RN) 3 [[1; 2]; [0]]%nat [v3 (N:=RN) 0 0 0; v3 (N:=RN) 1 0 0; v3 (N:=RN) 0 2 0] [v3 (N:=RN) 0 0 0; v3 (N:=RN) 2 0 0; v3 (N:=RN) 0 3 0]
    [5; 3; 1] [1; 2; 4] [1; 1] [1 / 10; 0] [1; 1] [0; 1 / 2; 1] None.
Proof. repeat split; repeat constructor. Qed.
