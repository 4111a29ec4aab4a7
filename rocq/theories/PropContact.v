(** * C29: the short range contact force *)
From Coq Require Import Reals ZArith SpecFloat Lra Psatz.
From Verif Require Import Base Num ModelNeigh ModelForce ModelContact SpecDamage SpecGlobal SpecForce SpecContact.
From Verif Require Import ProofForce ProofGlobal ProofContact ProofContact2 ProofContact3.
Local Open Scope R_scope.

(** For all positions, velocities, volumes and contact lists, with no two points of an entry
    in the same place, the call ends normally and the force density on every point is the
    sum of the contacts of the list, each counted on both of its points. *)
Theorem C29_sum_of_contacts : forall c n y vel vols f owned nbrs,
  sensible c -> contact_inputs n y vel vols f owned nbrs -> Forall (fun r => 0 <= r) vols ->
  nowhere_coincident y (bonds_of owned nbrs) ->
  exists f', computeForce c y vel vols owned (contact_list nbrs) f = Ok f' /\ length f' = n /\
    total_contact (contact_of c) (point_at y vel vols) (bonds_of owned nbrs) f'.
Proof. exact total_ok. Qed.
Print Assumptions C29_sum_of_contacts.

(** The contact of two points: nothing from the contact radius on; inside it, the part along
    the line of centres pushes away with a magnitude proportional to the depth; the rest is
    friction, across the line, of mu times that magnitude against the slip; it opposes the
    contact of the second with the first. *)
Theorem C29_two_points : forall c p q g,
  sensible c -> 0 <= volume q -> at_ p <> at_ q -> contact_of c p q g ->
  (c_radius c <= dist (at_ p) (at_ q) -> g = vzero) /\
  (dist (at_ p) (at_ q) < c_radius c ->
     let m := contact_modulus c * (c_radius c - dist (at_ p) (at_ q)) * volume q in
     vdot g (unit_from q p) = m /\ vlen (unit_from q p) = 1 /\
     (slip p q = vzero -> g = vscale (N:=RN) m (unit_from q p)) /\
     (slip p q <> vzero -> let t := vsub g (vscale (N:=RN) m (unit_from q p)) in
        vdot t (unit_from q p) = 0 /\ vlen t = Rabs (c_friction c) * m /\
        vdot t (slip p q) = - c_friction c * m * vlen (slip p q))) /\
  (forall g', contact_of c q p g' -> vscale (N:=RN) (volume p) g = vscale (N:=RN) (- volume q) g').
Proof.
  intros c p q g S V NE G. split; [|split].
  - intros D. destruct G as (t & F & ->). unfold normal_part.
    assert (M : magnitude c p q = 0) by (unfold magnitude; rewrite Rmax_left by lra; ring).
    apply friction_value in F as (s & [(-> & F & Z)|(-> & Z)]); [| |exact NE].
    + rewrite M in F |- *. assert (L : vlen (slip p q) <> 0) by (intros L; apply Z, vlen_zero_iff, L).
      assert (s = 0) as -> by (revert L F; generalize (vlen (slip p q)); cbn; intros l L F; rewrite Rmult_0_r in F; destruct (Rmult_integral _ _ F); [assumption|contradiction]).
      generalize (unit_from q p) (slip p q). intros [a b d] [a' b' d']. apply vext; cbn; ring.
    + rewrite M. generalize (unit_from q p). intros [a b d]. apply vext; cbn; ring.
  - intros D m. assert (M : magnitude c p q = m) by (unfold magnitude, m; rewrite Rmax_right by lra; reflexivity).
    assert (U : vdot (unit_from q p) (unit_from q p) = 1) by (rewrite <- vlen_sq, (unit_len p q NE); cbn; ring).
    assert (PM : 0 <= m) by (rewrite <- M; now apply magnitude_nonneg). clearbody m.
    destruct G as (t & F & ->). unfold normal_part. rewrite M.
    pose proof (slip_rel p q NE) as (SR & O).
    apply friction_value in F as (s & [(-> & F & Z)|(-> & Z)]); [rewrite M in F| |exact NE].
    + assert (L : 0 < vlen (slip p q)) by (destruct (Rle_lt_or_eq_dec 0 (vlen (slip p q)) (vlen_nonneg _)) as [L|L]; [exact L|]; exfalso; apply Z, vlen_zero_iff; symmetry; exact L).
      assert (T : vsub (vadd (vscale (N:=RN) m (unit_from q p)) (vscale (N:=RN) (- s) (slip p q))) (vscale (N:=RN) m (unit_from q p)) = vscale (N:=RN) (- s) (slip p q))
        by (generalize (unit_from q p) (slip p q); intros [a b d] [a' b' d']; apply vext; cbn; ring).
      split; [|split; [exact (unit_len p q NE)|split; [intros; contradiction|intros _; cbv zeta; rewrite T; split; [|split]]]].
      * revert U O. generalize (unit_from q p) (slip p q). intros [a b d] [a' b' d']. unfold vdot, vadd, vscale. cbn. intros U O.
        transitivity (m * (a * a + b * b + d * d) - s * (a' * a + b' * b + d' * d)); [ring|]. rewrite U, O. ring.
      * revert O. generalize (unit_from q p) (slip p q). intros [a b d] [a' b' d']. unfold vdot, vscale. cbn. intros O.
        transitivity (- s * (a' * a + b' * b + d' * d)); [ring|]. rewrite O. ring.
      * rewrite vlen_scale, Rabs_Ropp. revert L F. generalize (vlen (slip p q)). cbn. intros l L F.
        rewrite <- (Rabs_pos_eq m PM), <- Rabs_mult, <- F, Rabs_mult, (Rabs_pos_eq l) by lra. reflexivity.
      * transitivity (- s * vdot (slip p q) (slip p q)); [unfold vdot, vscale; cbn; ring|]. rewrite <- vlen_sq. revert F. generalize (vlen (slip p q)). cbn. intros l F.
        transitivity (- (s * l) * l); [ring|]. rewrite F. ring.
    + split; [|split; [exact (unit_len p q NE)|split; [intros _; apply vadd_0_r|intros; contradiction]]].
      revert U. generalize (unit_from q p). intros [a b d]. unfold vdot, vadd, vscale. cbn. intros U. transitivity (m * (a * a + b * b + d * d)); [ring|rewrite U; ring].
  - intros g' G'. exact (action_reaction c p q g g' NE G G').
Qed.
Print Assumptions C29_two_points.

Lemma entries_in n owned nbrs : length owned = length nbrs -> Forall (fun p => (p < n)%nat) owned -> Forall (Forall (fun j => (j < n)%nat)) nbrs ->
  Forall (fun e => (fst e < n)%nat /\ (snd e < n)%nat) (bonds_of owned nbrs).
Proof.
  revert owned. induction nbrs as [|js nbrs IH]; intros [|p owned] L Fo Fn; try discriminate; [constructor|].
  inversion Fo; subst. inversion Fn as [|? ? Fj Fn']; subst. unfold bonds_of. cbn [combine flat_map fst snd]. apply Forall_app. split.
  - apply Forall_map. eapply Forall_impl; [|exact Fj]. cbn. auto.
  - apply IH; auto.
Qed.

(** Total linear momentum: the contact forces add up to nothing, friction included. *)
Theorem C29_momentum : forall c n y vel vols f owned nbrs f',
  sensible c -> contact_inputs n y vel vols f owned nbrs -> Forall (fun r => 0 <= r) vols ->
  nowhere_coincident y (bonds_of owned nbrs) ->
  computeForce c y vel vols owned (contact_list nbrs) f = Ok f' -> momentum vols f' = vzero.
Proof.
  intros c n y vel vols f owned nbrs f' S I V NE E. destruct (total_ok c n y vel vols f owned nbrs S I V NE) as (f1 & E1 & L & T).
  rewrite E in E1. injection E1 as <-. destruct I as (Ly & Lv & Lw & Lf & Lo & Fo & Fn).
  apply (body_momentum c y vel vols (bonds_of owned nbrs)); auto; try congruence. subst n. rewrite L. now apply entries_in.
Qed.
Print Assumptions C29_momentum.

(** Without friction they have no moment either ... *)
Theorem C29_moment : forall c n y vel vols f owned nbrs f',
  sensible c -> contact_inputs n y vel vols f owned nbrs -> Forall (fun r => 0 <= r) vols ->
  nowhere_coincident y (bonds_of owned nbrs) -> c_friction c = 0 ->
  computeForce c y vel vols owned (contact_list nbrs) f = Ok f' -> moment vols y f' = vzero.
Proof.
  intros c n y vel vols f owned nbrs f' S I V NE MU E. destruct (total_ok c n y vel vols f owned nbrs S I V NE) as (f1 & E1 & L & T).
  rewrite E in E1. injection E1 as <-. destruct I as (Ly & Lv & Lw & Lf & Lo & Fo & Fn).
  apply (body_moment c y vel vols (bonds_of owned nbrs)); auto; try congruence. subst n. rewrite L. now apply entries_in.
Qed.
Print Assumptions C29_moment.

(** ... but with friction they have one whenever two points slip in contact: friction acts
    at the two centres, not at a common point. *)
Theorem C29_friction_moment_refuted : forall c P Q V W (vp vq : R) f',
  sensible c -> 0 < c_spring c -> c_friction c <> 0 -> 0 < vp -> 0 < vq -> P <> Q -> dist P Q < c_radius c ->
  let p := {| at_ := P; moving := V; volume := vp |} in let q := {| at_ := Q; moving := W; volume := vq |} in
  slip p q <> vzero ->
  computeForce c [P; Q] [V; W] [vp; vq] [0; 1]%nat (contact_list [[1]; [0]]%nat) [vzero; vzero] = Ok f' ->
  moment [vp; vq] [P; Q] f' <> vzero.
Proof.
  intros c P Q V W vp vq f' S K MU Vp Vq NE D p q SL E.
  destruct (total_ok c 2 [P; Q] [V; W] [vp; vq] [vzero; vzero] [0; 1]%nat [[1]; [0]]%nat S) as (f1 & E1 & L & gs & W2 & T).
  { unfold contact_inputs. cbn [length]. repeat split; repeat constructor. }
  { repeat constructor; lra. }
  { intros a b [H|[H|[]]]; injection H as <- <-; cbn; [exact NE|exact (not_eq_sym NE)]. }
  rewrite E in E1. injection E1 as <-. unfold bonds_of in W2, T. cbn [combine flat_map map app fst snd] in W2, T.
  inversion W2 as [|? [g1 g2] ? gs1 (A1 & A2) W3]; subst. inversion W3 as [|? [g3 g4] ? gs2 (A3 & A4) W4]; subst. inversion W4; subst.
  cbn [fst snd] in *. change (point_at [P; Q] [V; W] [vp; vq] 0) with p in *. change (point_at [P; Q] [V; W] [vp; vq] 1) with q in *.
  assert (M : 0 < magnitude c p q).
  { unfold magnitude, contact_modulus. cbn [at_ volume p q]. pose proof PI_RGT_0. destruct S as (S1 & S2 & S3). apply Rmult_lt_0_compat; [|exact Vq]. apply Rmult_lt_0_compat.
    - apply Rmult_lt_0_compat; [lra|]. apply Rinv_0_lt_compat, Rmult_lt_0_compat; [assumption|]. apply pow_lt. exact S3.
    - rewrite Rmax_right; lra. }
  pose proof (pair_turns c p q g1 NE M MU SL A1) as X.
  assert (Q1 : g4 = g1 /\ g3 = g2).
  { split.
    - destruct A1 as (t & F & ->), A4 as (t' & F' & ->). f_equal. apply friction_value in F as (s & [(-> & F & _)|(_ & Z)]); [|contradiction|exact NE].
      apply friction_value in F' as (s' & [(-> & F' & _)|(_ & Z)]); [|contradiction|exact NE]. f_equal. f_equal.
      apply (Rmult_eq_reg_r (vlen (slip p q))); [rewrite F, F'; reflexivity|]. intros Z. apply SL, vlen_zero_iff, Z.
    - assert (SL' : slip q p <> vzero) by (intros Z; apply SL; rewrite slip_flip, Z; apply vext; cbn; ring).
      destruct A2 as (t & F & ->), A3 as (t' & F' & ->). f_equal. apply friction_value in F as (s & [(-> & F & _)|(_ & Z)]); [|contradiction|exact (not_eq_sym NE)].
      apply friction_value in F' as (s' & [(-> & F' & _)|(_ & Z)]); [|contradiction|exact (not_eq_sym NE)]. f_equal. f_equal.
      apply (Rmult_eq_reg_r (vlen (slip q p))); [rewrite F, F'; reflexivity|]. intros Z. apply SL', vlen_zero_iff, Z. }
  destruct Q1 as (-> & ->). pose proof (action_reaction c p q g1 g2 NE A1 A2) as AR. cbn [volume p q] in AR.
  destruct f' as [|a [|b [|]]]; try discriminate. pose proof (T 0%nat ltac:(cbn; lia)) as T0. pose proof (T 1%nat ltac:(cbn; lia)) as T1.
  cbn [nth combine map fst snd Nat.eqb] in T0, T1.
  intros Z. apply X. cbn [moment] in Z. subst a b. clear T W2 W3 W4 A1 A2 A3 A4 E. cbn [at_ p q] in *.
  destruct P as [p1 p2 p3], Q as [q1 q2 q3], g1 as [a1 a2 a3], g2 as [b1 b2 b3]. unfold vscale in AR. cbn in AR. injection AR as R1 R2 R3.
  unfold Vsum in Z. cbn in Z. injection Z as Z1 Z2 Z3.
  assert (J : forall r r' x x' z z' : R, vp * x = - vq * z -> vp * x' = - vq * z' -> r * (vp * x + vq * z) - r' * (vp * x' + vq * z') = 0) by (intros r r' x x' z z' H H'; rewrite H, H'; ring).
  pose proof (J q2 q3 a3 a2 b3 b2 R3 R2). pose proof (J q3 q1 a1 a3 b1 b3 R1 R3). pose proof (J q1 q2 a2 a1 b2 b1 R2 R1).
  rewrite !Rsum_cons, !Rsum_nil in Z1, Z2, Z3. apply vext; cbn; (apply (Rmult_eq_reg_l vp); [lra|apply Rgt_not_eq; exact Vp]).
Qed.
Print Assumptions C29_friction_moment_refuted.

(** The rate of work of the contact forces, contact by contact; friction only takes energy
    out. *)
Theorem C29_power : forall c n y vel vols f owned nbrs f',
  sensible c -> contact_inputs n y vel vols f owned nbrs -> Forall (fun r => 0 <= r) vols ->
  nowhere_coincident y (bonds_of owned nbrs) ->
  computeForce c y vel vols owned (contact_list nbrs) f = Ok f' ->
  power vols vel f' = Rsum (map (fun e => contact_power c (point_at y vel vols (fst e)) (point_at y vel vols (snd e))) (bonds_of owned nbrs)).
Proof.
  intros c n y vel vols f owned nbrs f' S I V NE E. destruct (total_ok c n y vel vols f owned nbrs S I V NE) as (f1 & E1 & L & T).
  rewrite E in E1. injection E1 as <-. destruct I as (Ly & Lv & Lw & Lf & Lo & Fo & Fn).
  apply body_power; auto. rewrite L. now apply entries_in.
Qed.
Print Assumptions C29_power.

Theorem C29_friction_dissipates : forall c n y vel vols f owned nbrs f' f0,
  sensible c -> 0 <= c_friction c -> contact_inputs n y vel vols f owned nbrs -> Forall (fun r => 0 <= r) vols ->
  nowhere_coincident y (bonds_of owned nbrs) ->
  computeForce c y vel vols owned (contact_list nbrs) f = Ok f' ->
  computeForce (without_friction c) y vel vols owned (contact_list nbrs) f = Ok f0 ->
  power vols vel f' <= power vols vel f0.
Proof.
  intros c n y vel vols f owned nbrs f' f0 S MU I V NE E E0.
  rewrite (C29_power c n y vel vols f owned nbrs f'), (C29_power (without_friction c) n y vel vols f owned nbrs f0); auto.
  apply Rsum_le. intros e He. unfold contact_power. destruct I as (Ly & Lv & Lw & Lf & Lo & Fo & Fn).
  pose proof (entries_in n owned nbrs Lo Fo Fn) as F. rewrite Forall_forall in F. destruct (F e He) as (H1 & H2).
  set (p := point_at y vel vols (fst e)). set (q := point_at y vel vols (snd e)).
  assert (VP : 0 <= volume p) by (cbn; rewrite Forall_forall in V; apply V, nth_In; lia).
  assert (VQ : 0 <= volume q) by (cbn; rewrite Forall_forall in V; apply V, nth_In; lia).
  apply Rmult_le_compat_l; [exact VP|]. change (magnitude (without_friction c) p q) with (magnitude c p q). cbn [c_friction without_friction].
  pose proof (magnitude_nonneg c p q S VQ) as M. pose proof (vlen_nonneg (slip p q)) as L.
  assert (0 <= c_friction c * magnitude c p q * vlen (slip p q)) by (apply Rmult_le_pos; [apply Rmult_le_pos; assumption|exact L]).
  revert H. generalize (c_friction c * magnitude c p q * vlen (slip p q)) (magnitude c p q * vdot (relative p q) (unit_from q p)) (magnitude c p q) (vlen (slip p q)). cbn. intros; lra.
Qed.
Print Assumptions C29_friction_dissipates.

(** The separation is needed: in binary64 an entry whose two points are in the same (finite)
    place makes the force on the first not a number, whatever else is in the list. *)
Theorem C29_coincident_refuted : forall (c : contact_model FN) y vel vols owned nbrs f f' p j X,
  length owned = length nbrs -> In (p, j) (bonds_of owned nbrs) ->
  nth_error y p = Some X -> nth_error y j = Some X -> finite_vector X ->
  SFltb (S754_zero false) (SFmul fprec femax (c_radius c) (c_radius c)) = true ->
  computeForce (N:=FN) c y vel vols owned (contact_list nbrs) f = Ok f' -> nth_error f' p = Some nan_vector.
Proof. intros c y vel vols owned nbrs f f' p j X L I Ep Ej F R E. exact (walk_nan c y vel vols p j X F Ep Ej R nbrs owned _ f' L I E). Qed.
Print Assumptions C29_coincident_refuted.

(** A list that mentions a negative id stops the program when the entry is reached. *)
Theorem C29_negative_id : forall (N : Num) (c : contact_model N) y vel vols p rest f X V v tl,
  nth_error y p = Some X -> nth_error vel p = Some V -> nth_error vols p = Some v ->
  forall j, (j < 0)%Z -> computeForce c y vel vols (p :: rest) (1 :: j :: tl)%Z f = Err.
Proof.
  intros N c y vel vols p rest f X V v tl E1 E2 E3 j J. unfold computeForce. cbn [contact_walk]. unfold at_ub. rewrite E1, E2, E3.
  destruct j as [|j|j]; [lia|lia|]. reflexivity.
Qed.
Print Assumptions C29_negative_id.

(** ** A case: three points, two of them within the contact radius, slipping *)
Definition case_model : contact_model RN := @Build_contact_model RN 1 2 (/ 2) 1.
Definition case_y : list (V3 RN) := [v3 (N:=RN) 0 0 0; v3 (N:=RN) (/ 2) 0 0; v3 (N:=RN) 3 0 0].
Definition case_vel : list (V3 RN) := [v3 (N:=RN) 1 2 0; v3 (N:=RN) 0 0 0; v3 (N:=RN) 0 0 0].
Definition case_vols : list R := [1; 3; 1].
Example C29_case :
  sensible case_model /\ contact_inputs 3 case_y case_vel case_vols [vzero; vzero; vzero] [0; 1; 2]%nat [[1; 2]; [0]; []]%nat /\
  Forall (fun r => 0 <= r) case_vols /\ nowhere_coincident case_y (bonds_of [0; 1; 2] [[1; 2]; [0]; []])%nat /\
  dist (at_ (point_at case_y case_vel case_vols 0)) (at_ (point_at case_y case_vel case_vols 1)) < c_radius case_model /\
  slip (point_at case_y case_vel case_vols 0) (point_at case_y case_vel case_vols 1) <> vzero.
Proof.
  assert (D : dist (v3 (N:=RN) 0 0 0) (v3 (N:=RN) (/ 2) 0 0) = / 2).
  { unfold dist. cbn. unfold Rsqr. replace ((/ 2 - 0) * (/ 2 - 0) + (0 - 0) * (0 - 0) + (0 - 0) * (0 - 0)) with (/ 2 * / 2) by lra. apply sqrt_square. lra. }
  split; [unfold sensible; cbn; lra|]. split; [unfold contact_inputs; cbn; repeat split; repeat constructor|]. split; [repeat constructor; lra|].
  split; [|split].
  - intros p j [H|[H|[H|[]]]]; injection H as <- <-; cbn; intros E; injection E as E; lra.
  - cbn [at_ point_at case_y nth]. rewrite D. cbn. lra.
  - unfold slip, unit_from, relative. cbn [at_ moving point_at case_y case_vel nth]. rewrite D. intros E. unfold vsub, vscale, vdot in E. cbn in E. injection E as _ E _. lra.
Qed.

Definition coincident_case : outcome (list (V3 FN)) :=
  computeForce (@Build_contact_model FN (fofZ 1) (fofZ 2) (fofZ 0) (fofZ 1))
    [v3 (N:=FN) (fofZ 5) (fofZ 6) (fofZ 7); v3 (N:=FN) (fofZ 5) (fofZ 6) (fofZ 7)] [vzero; vzero] [fofZ 1; fofZ 1] [0; 1]%nat (contact_list [[1]; [0]]%nat) [vzero; vzero].
Example C29_coincident_case : coincident_case = Ok [nan_vector; nan_vector] /\ SFltb (S754_zero false) (SFmul fprec femax (fofZ 1) (fofZ 1)) = true.
Proof. split; reflexivity. Qed.
