(** * C67, C68: Node_Set_Data and the fields filled point by point *)
From Coq Require Import String Reals Lra.
From Verif Require Import Base Num ModelNeigh ModelGlobal ModelForce ModelCorr ModelExplicit ModelOutput.
From Verif Require Import ProofGlobal ProofCorr3 PropCorr ProofOutput SpecForce SpecCorr SpecGlobal SpecOutput.
Local Open Scope R_scope.

(** ** C67: Node_Set_Data *)

(** The sum over the points of the node set, each taken once, on any number of processors
    and blocks and however the processors list the set. *)
Theorem C67_sum : forall G init w,
  w <> [] -> Forall2 same_layout init w -> Forall proper w -> Forall (lists_part G) w ->
  node_set_value Sum init w = Ok (Rsum (set_values G w)).
Proof. intros G init w NE SL PR LP. exact (sum_ok G init w SL PR LP NE). Qed.
Print Assumptions C67_sum.

Theorem C67_minimum : forall G init w,
  w <> [] -> Forall2 same_layout init w -> Forall proper w -> Forall (lists_part G) w ->
  set_values G w <> [] -> (forall x, In x (set_values G w) -> x <= dbl_max (N:=RN)) ->
  exists m, node_set_value Minimum init w = Ok (m : T RN) /\ is_least (set_values G w) m.
Proof.
  intros G init w NE SL PR LP S H. destruct (min_ok G init w SL PR LP NE) as (m & E & A & B & C). exists m. split; [exact E|]. split; [|exact B].
  destruct C as [C|C]; [|exact C]. destruct (set_values G w) as [|x l]; [now destruct S|].
  assert (Q : x = m). { apply Rle_antisym; [rewrite C; apply H; now left|apply B; now left]. } rewrite <- Q. now left.
Qed.
Print Assumptions C67_minimum.

(** The maximum is right if one of the values is at least the smallest positive normal
    number.  Missing for the full claim: the other cases (refuted below). *)
Theorem C67_maximum_partial : forall G init w v,
  w <> [] -> Forall2 same_layout init w -> Forall proper w -> Forall (lists_part G) w ->
  In v (set_values G w) -> dbl_min (N:=RN) <= v ->
  exists m, node_set_value Maximum init w = Ok (m : T RN) /\ is_greatest (set_values G w) m.
Proof.
  intros G init w v NE SL PR LP I H. destruct (max_ok G init w SL PR LP NE) as (m & E & A & B & C). exists m. split; [exact E|]. split; [|exact B].
  destruct C as [C|C]; [|exact C].
  assert (Q : v = m). { apply Rle_antisym; [apply B; exact I|rewrite C; exact H]. } now rewrite <- Q.
Qed.
Print Assumptions C67_maximum_partial.

(** If all values are smaller than that, for instance negative, the result is DBL_MIN and
    is none of the values. *)
Theorem C67_maximum_refuted : forall G init w,
  w <> [] -> Forall2 same_layout init w -> Forall proper w -> Forall (lists_part G) w ->
  (forall x, In x (set_values G w) -> x < dbl_min (N:=RN)) ->
  node_set_value Maximum init w = Ok (dbl_min (N:=RN)) /\ forall m, is_greatest (set_values G w) m -> m < dbl_min (N:=RN).
Proof.
  intros G init w NE SL PR LP H. destruct (max_ok G init w SL PR LP NE) as (m & E & A & B & C). split.
  - destruct C as [C|C]; [rewrite E; now rewrite C|]. apply H in C. exfalso. exact (Rlt_irrefl _ (Rle_lt_trans _ _ _ A C)).
  - intros k (I & _). now apply H.
Qed.
Print Assumptions C67_maximum_refuted.

(** An empty node set: no error; the numbers the loops start from. *)
Theorem C67_empty : forall G init w,
  w <> [] -> Forall2 same_layout init w -> Forall proper w -> Forall (lists_part G) w -> set_values G w = [] ->
  node_set_value Sum init w = Ok (0 : T RN) /\ node_set_value Minimum init w = Ok (dbl_max (N:=RN)) /\ node_set_value Maximum init w = Ok (dbl_min (N:=RN)).
Proof.
  intros G init w NE SL PR LP S. split; [rewrite (C67_sum G) by assumption; now rewrite S|]. split.
  - destruct (min_ok G init w SL PR LP NE) as (m & E & _ & _ & [C|C]); [rewrite E; now rewrite C|rewrite S in C; destruct C].
  - destruct (max_ok G init w SL PR LP NE) as (m & E & _ & _ & [C|C]); [rewrite E; now rewrite C|rewrite S in C; destruct C].
Qed.
Print Assumptions C67_empty.

(** *** A case: two processors, the second with two blocks; one listed twice, one listed by
    the processor that does not own it *)
Local Open Scope string_scope.
Definition procs (k : R) : list (nrank RN) :=
  [ NRank (N:=RN) [3; 8; 3]%Z [NBlock (N:=RN) "a" [1; 3]%Z [5; k; 9]];
    NRank (N:=RN) [8]%Z [NBlock (N:=RN) "a" [7; 8]%Z [k - 2; k - 1]; NBlock (N:=RN) "b" [9]%Z [4]] ].
Local Close Scope string_scope.
Example C67_met : forall k, procs k <> [] /\ Forall2 same_layout (procs 0) (procs k) /\ Forall proper (procs k) /\ Forall (lists_part [8; 3]%Z) (procs k) /\
  set_values [8; 3]%Z (procs k) = [k; k - 1].
Proof.
  intros k. split; [discriminate|]. split; [repeat constructor|]. split.
  - repeat constructor; cbn; try lia; intros [|[]]; try discriminate; auto.
  - split; [|reflexivity]. constructor; [|constructor; [|constructor]]; intros gv I; cbn in I |- *;
    repeat match goal with J : _ \/ _ |- _ => destruct J as [J|J] | J : False |- _ => destruct J end; subst gv; cbn; split; intros J; repeat destruct J as [J|J]; try discriminate; try contradiction; auto 6.
Qed.
Example C67_sum_met : node_set_value Sum (procs 0) (procs 4) = Ok (7 : T RN).
Proof.
  destruct (C67_met 4) as (A & B & C & D & E). rewrite (C67_sum [8; 3]%Z) by assumption. rewrite E. apply f_equal. change (Rsum [4; 4 - 1] = 7). rewrite !Rsum_cons, Rsum_nil. lra.
Qed.
Lemma dbl_min_pos : 0 < dbl_min (N:=RN).
Proof. unfold dbl_min. to_R. apply Rdiv_lt_0_compat; [lra|apply (IZR_lt 0); reflexivity]. Qed.
Lemma dbl_max_big : 1000 <= dbl_max (N:=RN).
Proof. unfold dbl_max. to_R. apply IZR_le. discriminate. Qed.
Lemma dbl_min_one : dbl_min (N:=RN) <= 1.
Proof. unfold dbl_min. to_R. apply Rmult_le_reg_r with (IZR (2 ^ 1022)); [apply (IZR_lt 0); reflexivity|]. unfold Rdiv. rewrite Rmult_assoc, Rinv_l, !Rmult_1_l by (apply not_0_IZR; discriminate). apply IZR_le. discriminate. Qed.
Example C67_minimum_met : exists m, node_set_value Minimum (procs 0) (procs 4) = Ok (m : T RN) /\ is_least [4; 4 - 1] m.
Proof.
  destruct (C67_met 4) as (A & B & C & D & E). rewrite <- E. apply C67_minimum; auto; rewrite E; [discriminate|].
  pose proof dbl_max_big. intros x [<-|[<-|[]]]; lra.
Qed.
Example C67_maximum_met : exists m, node_set_value Maximum (procs 0) (procs 4) = Ok (m : T RN) /\ is_greatest [4; 4 - 1] m.
Proof.
  destruct (C67_met 4) as (A & B & C & D & E). rewrite <- E. apply C67_maximum_partial with 4; auto; rewrite ?E; [now left|]. pose proof dbl_min_one. lra.
Qed.
Example C67_negative_met : node_set_value Maximum (procs 0) (procs (-4)) = Ok (dbl_min (N:=RN)) /\ is_greatest (set_values [8; 3]%Z (procs (-4))) (-4).
Proof.
  destruct (C67_met (-4)) as (A & B & C & D & E). split.
  - apply (C67_maximum_refuted [8; 3]%Z); auto. rewrite E. pose proof dbl_min_pos. intros x [<-|[<-|[]]]; lra.
  - rewrite E. split; [now left|]. intros x [<-|[<-|[]]]; lra.
Qed.

(** ** C68: fields *)

(** Number_Of_Neighbors: the length of every neighbour list. *)
Theorem C68_number_of_neighbors : forall nbrs,
  number_of_neighbors (N:=RN) (encode nbrs) (length nbrs) 0 = Ok (map (fun js => INR (length js)) nbrs).
Proof. intros nbrs. exact (counts_from nbrs []). Qed.
Print Assumptions C68_number_of_neighbors.

(** Neighborhood_Volume: the own volume and those of the neighbours ... *)
Theorem C68_neighborhood_volume : forall nbrs (vol : list R),
  (length nbrs <= length vol)%nat -> Forall (Forall (fun j => (j < length vol)%nat)) nbrs ->
  exists out : list R, neighborhood_volume (N:=RN) (encode nbrs) vol None (length nbrs) 0 0 0 = Ok out /\ length out = length nbrs /\
  forall p js V vs, nth_error nbrs p = Some js -> nth_error vol p = Some V -> picks vol js vs -> nth_error out p = Some (V + Rsum vs).
Proof.
  intros nbrs vol L F. destruct (volumes_from vol None nbrs [] 0 0 L) as (out & E & LO & H).
  - intros p js Hp. cbn [shares]. assert (J : Forall (fun j => (j < length vol)%nat) js) by (rewrite Forall_forall in F; apply F; eapply nth_error_In; eauto).
    clear - J. induction J as [|j js Hj J (vs & IH)]; [exists []; constructor|]. destruct (nth_error vol j) as [v|] eqn:E; [|apply nth_error_None in E; lia].
    exists (v :: vs). now constructor.
  - exists out. split; [exact E|]. split; [exact LO|]. exact H.
Qed.
Print Assumptions C68_neighborhood_volume.

(** ... or, if there are partial volumes, those of the bonds of the point. *)
Theorem C68_partial_volume : forall nbrs (vol part : list R),
  (length nbrs <= length vol)%nat -> length part = first_bond nbrs (length nbrs) ->
  exists out : list R, neighborhood_volume (N:=RN) (encode nbrs) vol (Some part) (length nbrs) 0 0 0 = Ok out /\ length out = length nbrs /\
  forall p js V vs, nth_error nbrs p = Some js -> nth_error vol p = Some V -> bond_slice part (first_bond nbrs p) (length js) vs ->
    nth_error out p = Some (V + Rsum vs).
Proof.
  intros nbrs vol part L LP. destruct (volumes_from vol (Some part) nbrs [] 0 0 L) as (out & E & LO & H).
  - intros p js Hp. cbn [shares Nat.add]. exists (firstn (length js) (skipn (first_bond nbrs p) part)).
    assert (B : (first_bond nbrs p + length js <= length part)%nat).
    { rewrite LP. clear - Hp. revert p Hp. induction nbrs as [|a nbrs IH]; intros [|p] Hp; cbn in Hp; try discriminate.
      - injection Hp as ->. unfold first_bond. cbn. lia.
      - specialize (IH p Hp). unfold first_bond in *. cbn. lia. }
    split; [rewrite firstn_length, skipn_length; lia|].
    assert (Q : forall (l : list R) n k i v, nth_error (firstn n (skipn k l)) i = Some v -> nth_error l (k + i) = Some v).
    { clear. intros l n k i v H. assert (F : forall (l : list R) n i v, nth_error (firstn n l) i = Some v -> nth_error l i = Some v).
      { clear. induction l as [|a l IH]; intros [|n] [|i] v H; cbn in *; try discriminate; auto. eapply IH; eauto. }
      apply F in H. clear F. revert k H. induction l as [|a l IH]; intros [|k] H; cbn in *; try discriminate; auto. destruct i; discriminate. }
    intros i v. apply Q.
  - exists out. split; [exact E|]. split; [exact LO|]. exact H.
Qed.
Print Assumptions C68_partial_volume.

(** Radius: that of the ball of the same volume. *)
Theorem C68_radius : forall (cbrt : R -> R) (vol : list R),
  (forall a, 0 <= a -> 0 <= cbrt a /\ cbrt a ^ 3 = a) ->
  length (radius (N:=RN) cbrt vol) = length vol /\
  forall p v, nth_error vol p = Some v -> 0 <= v ->
  exists r, nth_error (radius (N:=RN) cbrt vol) p = Some r /\ 0 <= r /\ 4 / 3 * PI * r ^ 3 = v.
Proof.
  intros cbrt vol H. unfold radius. split; [apply map_length|]. intros p v E V. pose proof PI_RGT_0 as P.
  change (T RN) with R. rewrite nth_error_map, E. eexists. split; [reflexivity|]. to_R.
  assert (0 <= 3 / 4 / PI * v). { apply Rmult_le_pos; [|exact V]. apply Rlt_le, Rdiv_lt_0_compat; lra. }
  destruct (H _ H0) as (A & B). split; [exact A|]. rewrite B. field. lra.
Qed.
Print Assumptions C68_radius.

(** Force and Contact_Force: volume times density at every point of every block. *)
Theorem C68_force : forall bs,
  (forall vol dens old, In (vol, dens, old) bs -> length dens = length vol /\ length old = length vol) ->
  exists out, force_fields (N:=RN) bs = (0%Z, out) /\ length out = length bs /\
  forall k vol dens old, nth_error bs k = Some (vol, dens, old) -> exists F, nth_error out k = Some F /\ length F = length vol /\
  forall p (V : R) d, nth_error vol p = Some V -> nth_error dens p = Some d ->
  exists f, nth_error F p = Some f /\ vx f = V * vx d /\ vy f = V * vy d /\ vz f = V * vz d.
Proof.
  intros bs H. rewrite (forces_ok bs H). eexists. split; [reflexivity|]. split; [apply map_length|].
  intros k vol dens old Hk. rewrite nth_error_map, Hk. eexists. split; [reflexivity|]. cbn [fst snd].
  destruct (H vol dens old) as (L & _); [eapply nth_error_In; eauto|].
  split; [rewrite map_length, combine_length; change (T RN) with R in *; lia|].
  intros p V d EV Ed. assert (C : nth_error (combine vol dens) p = Some (V, d)).
  { clear - EV Ed. revert dens p EV Ed. induction vol as [|a vol IH]; intros [|b dens] [|p] EV Ed; cbn in *; try discriminate; [congruence|eauto]. }
  change (T RN) with R in *. rewrite nth_error_map, C. eexists. split; [reflexivity|]. cbn. auto.
Qed.
Print Assumptions C68_force.

(** A block whose arrays do not fit is reported and keeps its field. *)
Theorem C68_force_mismatch : forall (vol : list R) (dens old : list (V3 RN)) rest,
  length dens <> length vol \/ length old <> length vol ->
  force_fields (N:=RN) ((vol, dens, old) :: rest) = (1%Z, old :: map snd rest).
Proof.
  intros vol dens old rest H. cbn [force_fields]. unfold force_field. change (T RN) with R in *.
  assert (E : negb (Nat.eqb (length dens) (length vol)) || negb (Nat.eqb (length old) (length vol)) = true).
  { destruct H as [H|H]; apply Nat.eqb_neq in H; rewrite H; [reflexivity|apply Bool.orb_true_r]. }
  rewrite E. reflexivity.
Qed.
Print Assumptions C68_force_mismatch.

(** Acceleration: at every point of a block the acceleration of the time integrator minus
    the body force divided by the density. *)
Theorem C68_acceleration_value : forall (rho f ext a g : list R) ids density k i c e,
  ModelExplicit.acceleration (N:=RN) rho f ext = Ok (a : list (T RN)) -> synch (N:=RN) ids f = Ok (g : list (T RN)) ->
  nth_error ids k = Some i -> nth_error rho i = Some density -> (c < 3)%nat -> nth_error ext (3 * i + c) = Some e ->
  exists s, nth_error a (3 * i + c) = Some s /\ nth_error (acceleration_field (N:=RN) density g) (3 * k + c) = Some (s - e / density).
Proof.
  intros rho f ext a g ids density k i c e HA HS Hk Hd Hc He.
  destruct (synch_nth ids f g HS k i c Hk Hc) as (x & Eg & Ef).
  exists ((x + e) / density). split; [exact (accel_nth rho f ext a HA i c density x e Hc Hd Ef He)|].
  unfold acceleration_field. change (T RN) with R. rewrite nth_error_map, Eg. cbn [option_map]. apply f_equal. to_R. unfold Rdiv. ring.
Qed.
Print Assumptions C68_acceleration_value.

(** Where no body force acts it is the acceleration of the integrator.  Missing for the
    full claim: points with body forces (refuted below). *)
Theorem C68_acceleration_partial : forall (rho f ext a g : list R) ids density k i c,
  ModelExplicit.acceleration (N:=RN) rho f ext = Ok (a : list (T RN)) -> synch (N:=RN) ids f = Ok (g : list (T RN)) ->
  nth_error ids k = Some i -> nth_error rho i = Some density -> (c < 3)%nat -> nth_error ext (3 * i + c) = Some 0 ->
  exists s, nth_error a (3 * i + c) = Some s /\ nth_error (acceleration_field (N:=RN) density g) (3 * k + c) = Some s.
Proof.
  intros rho f ext a g ids density k i c HA HS Hk Hd Hc He.
  destruct (C68_acceleration_value rho f ext a g ids density k i c 0 HA HS Hk Hd Hc He) as (s & E1 & E2). exists s. split; [exact E1|].
  rewrite E2. apply f_equal. unfold Rdiv. ring.
Qed.
Print Assumptions C68_acceleration_partial.

Theorem C68_acceleration_refuted : forall (rho f ext a g : list R) ids density k i c e,
  ModelExplicit.acceleration (N:=RN) rho f ext = Ok (a : list (T RN)) -> synch (N:=RN) ids f = Ok (g : list (T RN)) ->
  nth_error ids k = Some i -> nth_error rho i = Some density -> (c < 3)%nat -> nth_error ext (3 * i + c) = Some e ->
  0 < density -> e <> 0 ->
  nth_error (acceleration_field (N:=RN) density g) (3 * k + c) <> nth_error (a : list R) (3 * i + c).
Proof.
  intros rho f ext a g ids density k i c e HA HS Hk Hd Hc He D NE.
  destruct (C68_acceleration_value rho f ext a g ids density k i c e HA HS Hk Hd Hc He) as (s & E1 & E2). change (T RN) with R in *. rewrite E1, E2.
  intros Q. injection Q as Q. apply NE. assert (Z : e / density = 0) by lra.
  apply Rmult_eq_reg_r with (/ density); [rewrite Rmult_0_l; exact Z|apply Rinv_neq_0_compat; lra].
Qed.
Print Assumptions C68_acceleration_refuted.

(** Deformation_Gradient: if no shape tensor is singular, every block gets its gradient.
    Missing for the full claim: the blocks after one with a singular shape tensor (refuted
    below). *)
Theorem C68_gradient_partial : forall omega bs, Forall whole bs -> Forall (regular omega) bs ->
  exists fs, deformation_gradient (N:=RN) omega bs = Ok (0%Z, fs) /\ Forall2 gradient_of bs fs.
Proof.
  intros omega bs W RG. unfold deformation_gradient. induction W as [|b bs (n & HI) W IH]; [exists []; split; [reflexivity|constructor]|].
  inversion RG as [|? ? R1 R2]; subst. destruct (IH R2) as (fs & E & F). cbn [gradient_blocks]. unfold gradient_block. cbn [Z.eqb].
  destruct (deformation_ok omega _ _ _ _ _ _ HI) as (code & geo & ED & LG & HG & HC). rewrite ED. cbn [bind]. rewrite (proj2 HC R1). cbn [Z.eqb bind].
  rewrite E. cbn [bind]. eexists. split; [reflexivity|]. constructor; [|exact F]. split; [now rewrite map_length|].
  intros p js A t Hp HA. destruct (neighbourhood_ok _ _ _ _ _ _ _ _ HI Hp) as (X & h & nbs & HN).
  rewrite (proj2 HC R1) in ED. destruct (C17_affine_exact _ _ _ _ _ _ _ _ _ _ _ _ _ _ _ HI ED Hp HN HA) as (Ki & M & EM & EQ & _).
  exists M. split; [|exact EQ]. now rewrite nth_error_map, EM.
Qed.
Print Assumptions C68_gradient_partial.

(** After a block with a point of fewer than three neighbours all blocks keep what the field
    held before. *)
Theorem C68_gradient_refuted : forall omega pre b post p js, Forall whole (pre ++ b :: post) ->
  nth_error (gb_nbrs b) p = Some js -> (length js < 3)%nat ->
  exists fs, deformation_gradient (N:=RN) omega (pre ++ b :: post) = Ok (1%Z, fs) /\ skipn (length pre + 1) fs = map gb_old post.
Proof.
  intros omega pre b post p js W Hp HL. apply Forall_app in W as (W1 & W2). inversion W2 as [|? ? (n & HI) W3]; subst. unfold deformation_gradient.
  destruct (gradient_total omega pre W1 0%Z) as (rc & fs & E & L & [Q|Q]); [now left| |]; subst rc.
  - destruct (C17_few_neighbours_reported omega _ _ _ _ _ _ _ _ HI Hp HL) as (code & geo & ED & NZ).
    assert (EB : gradient_blocks (N:=RN) omega 0%Z (b :: post) = Ok (1%Z, map snd geo :: map gb_old post)).
    { cbn [gradient_blocks]. unfold gradient_block. cbn [Z.eqb]. rewrite ED. cbn [bind]. apply Z.eqb_neq in NZ. rewrite NZ. cbn [bind]. now rewrite gradient_stuck. }
    eexists. split; [exact (gradient_app _ _ _ _ _ _ _ _ E EB)|]. rewrite <- L, skipn_app, skipn_all2 by lia.
    replace (length fs + 1 - length fs)%nat with 1%nat by lia. reflexivity.
  - eexists. split; [exact (gradient_app _ _ _ _ _ _ _ _ E (gradient_stuck omega (b :: post)))|]. rewrite <- L, skipn_app, skipn_all2 by lia.
    replace (length fs + 1 - length fs)%nat with 1%nat by lia. reflexivity.
Qed.
Print Assumptions C68_gradient_refuted.

(** *** Cases *)
Example C68_volume_met : exists out : list R, neighborhood_volume (N:=RN) (encode [[1; 2]; [0]])%nat [1; 10; 100] None 2 0 0 0 = Ok out /\ nth_error out 0 = Some (1 + (10 + (100 + 0))) /\ nth_error out 1 = Some (10 + (1 + 0)).
Proof.
  destruct (C68_neighborhood_volume [[1; 2]; [0]]%nat [1; 10; 100]) as (out & E & _ & H); [cbn; lia|repeat constructor|].
  exists out. split; [exact E|]. split; [apply (H 0%nat [1; 2]%nat 1 [10; 100])|apply (H 1%nat [0]%nat 10 [1])]; repeat constructor.
Qed.
Example C68_partial_volume_met : exists out : list R, neighborhood_volume (N:=RN) (encode [[1; 2]; [0]])%nat [1; 10; 100] (Some [3; 4; 5]) 2 0 0 0 = Ok out /\ nth_error out 1 = Some (10 + (5 + 0)).
Proof.
  destruct (C68_partial_volume [[1; 2]; [0]]%nat [1; 10; 100] [3; 4; 5]) as (out & E & _ & H); [cbn; lia|reflexivity|].
  exists out. split; [exact E|]. apply (H 1%nat [0]%nat 10 [5]); [reflexivity..|]. split; [reflexivity|]. intros [|i] v Hv; [exact Hv|destruct i; discriminate].
Qed.
Example C68_force_met : exists out, force_fields (N:=RN) [([2], [v3 (N:=RN) 1 2 3], [vzero (N:=RN)])] = (0%Z, out) /\ length out = 1%nat.
Proof. destruct (C68_force [([2], [v3 (N:=RN) 1 2 3], [vzero (N:=RN)])]) as (out & E & L & _); [intros ? ? ? [Q|[]]; injection Q as <- <- <-; auto|eauto]. Qed.
(** gravity on one of two points at rest *)
Example C68_acceleration_met : exists a g : list R,
  ModelExplicit.acceleration (N:=RN) [4; 2] [0; 0; 0; 6; 0; 0] [0; 0; 0; 0; 0; -20] = Ok (a : list (T RN)) /\ synch (N:=RN) [1%nat] [0; 0; 0; 6; 0; 0] = Ok (g : list (T RN)) /\
  nth_error (acceleration_field (N:=RN) 2 g) 2 <> nth_error a 5 /\ exists s, nth_error a 3 = Some s /\ nth_error (acceleration_field (N:=RN) 2 g) 0 = Some s.
Proof.
  do 2 eexists. split; [reflexivity|]. split; [reflexivity|]. split.
  - refine (C68_acceleration_refuted [4; 2] [0; 0; 0; 6; 0; 0] [0; 0; 0; 0; 0; -20] _ _ [1%nat] 2 0 1 2 (-20) eq_refl eq_refl eq_refl eq_refl _ eq_refl _ _); [lia|lra|lra].
  - refine (C68_acceleration_partial [4; 2] [0; 0; 0; 6; 0; 0] [0; 0; 0; 0; 0; -20] _ _ [1%nat] 2 0 1 0 eq_refl eq_refl eq_refl eq_refl _ eq_refl). lia.
Qed.
(** the tetrahedron of C17 in its own block, alone and after a block of two bonded points *)
Definition tetra_block : gblock RN := GBlock (N:=RN) tetra tetra_now unit4 unit4 tetra_bonds [].
Definition pair_block : gblock RN :=
  GBlock (N:=RN) [v3 (N:=RN) 0 0 0; v3 (N:=RN) 1 0 0] [v3 (N:=RN) 0 0 0; v3 (N:=RN) 1 0 0] [1; 1] [2; 2] [[1]; [0]]%nat [].
Example C68_gradient_met : exists fs, deformation_gradient (N:=RN) flat_omega [tetra_block; tetra_block] = Ok (0%Z, fs) /\ Forall2 gradient_of [tetra_block; tetra_block] fs.
Proof. apply C68_gradient_partial; repeat constructor; try exact tetra_shapes; exists 4%nat; exact C17_inputs_met. Qed.
Example C68_gradient_lost_met : exists fs, deformation_gradient (N:=RN) flat_omega [pair_block; tetra_block] = Ok (1%Z, fs) /\ nth_error fs 1 = Some [] /\ ~ Forall2 gradient_of [pair_block; tetra_block] fs.
Proof.
  destruct (C68_gradient_refuted flat_omega [] pair_block [tetra_block] 0 [1%nat]) as (fs & E & S); [|reflexivity|cbn; lia|].
  - repeat constructor; [exists 2%nat|exists 4%nat; exact C17_inputs_met]. repeat split; repeat (constructor; try lia).
  - exists fs. split; [exact E|]. destruct fs as [|a [|b fs]]; cbn in S; try discriminate. injection S as -> ->. split; [reflexivity|].
    intros F. inversion F as [|? ? ? ? _ F']; subst. inversion F' as [|? ? ? ? (L & _) _]; subst. discriminate.
Qed.
