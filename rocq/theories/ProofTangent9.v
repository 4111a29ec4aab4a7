From Coq Require Import Reals Lra Lia.
From Verif Require Import Base Num ModelForce ModelTangent SpecDamage SpecForce SpecCorr SpecTangent ProofData ProofForce ProofCorr ProofTangent ProofTangent2 ProofTangent3 ProofTangent4 ProofTangent5 ProofTangent6 ProofTangent7 ProofTangent8.
Local Open Scope nat_scope.

Definition one_if (b : bool) : R := if b then 1%R else 0%R.
Definition dual_spot (Y : field) (col : nat) (mg : nat * nat) : V3 (dual RN) :=
  @v3 (dual RN) (Y (snd mg) 0, one_if (Nat.eqb (3 * fst mg) col)) (Y (snd mg) 1, one_if (Nat.eqb (3 * fst mg + 1) col)) (Y (snd mg) 2, one_if (Nat.eqb (3 * fst mg + 2) col)).
Definition fun_spot (Y : field) (j c g : nat) : V3 FunN := @v3 FunN (fun t => nudge Y j c t g 0) (fun t => nudge Y j c t g 1) (fun t => nudge Y j c t g 2).
Definition fun_const (X : V3 RN) : V3 FunN := @v3 FunN (fun _ => vx X) (fun _ => vy X) (fun _ => vz X).
Definition fun_num (a : R) : FunN := fun _ => a.

Lemma F2_self : forall (A : Type) (Q : A -> A -> Prop) l, (forall a, Q a a) -> Forall2 Q l l.
Proof. intros A Q l H. induction l; constructor; auto. Qed.
Lemma seeded_flat : forall Y col gs, seeded RN col (flat (map (spot Y) gs)) = flat (map (dual_spot Y col) (numbered gs)).
Proof.
  intros Y col gs. unfold seeded, numbered.
  assert (G : forall s, map (fun ia : nat * RN => (snd ia, if Nat.eqb (fst ia) col then @ofZ RN 1 else @ofZ RN 0)) (combine (seq (3 * s) (length (flat (map (spot Y) gs)))) (flat (map (spot Y) gs))) =
    flat (map (dual_spot Y col) (combine (seq s (length gs)) gs))); [|exact (G 0)].
  induction gs as [|g gs IH]; intros s; [reflexivity|]. cbn [map length seq combine].
  change (flat (spot Y g :: map (spot Y) gs)) with (Y g 0 :: Y g 1 :: Y g 2 :: flat (map (spot Y) gs)). cbn [length seq combine map fst snd].
  change (flat (dual_spot Y col (s, g) :: map (dual_spot Y col) (combine (seq (S s) (length gs)) gs)))
    with ((Y g 0, one_if (Nat.eqb (3 * s) col)) :: (Y g 1, one_if (Nat.eqb (3 * s + 1) col)) :: (Y g 2, one_if (Nat.eqb (3 * s + 2) col)) :: flat (map (dual_spot Y col) (combine (seq (S s) (length gs)) gs))).
  rewrite <- IH. replace (3 * S s) with (S (S (S (3 * s)))) by lia. replace (3 * s + 1) with (S (3 * s)) by lia. replace (3 * s + 2) with (S (S (3 * s))) by lia. reflexivity.
Qed.
Lemma follows_nudge : forall Y j c g (b : bool) a, b = (Nat.eqb g j && Nat.eqb a c)%bool -> follows (Y g a, one_if b) (fun t => nudge Y j c t g a).
Proof.
  intros Y j c g b a ->. unfold nudge. destruct (Nat.eqb g j && Nat.eqb a c)%bool; cbn [one_if]; [|apply follows_const]. split; cbn [fst snd]; [ring|].
  eapply lim_eq; [|exact (derivable_pt_lim_plus (fun _ => Y g a) id 0 0 1 (derivable_pt_lim_const _ _) (derivable_pt_lim_id 0))]. ring.
Qed.
Lemma seeds_follow : forall Y j c m' gs, NoDup gs -> nth_error gs m' = Some j -> c < 3 ->
  Forall2 (RV follows) (map (dual_spot Y (3 * m' + c)) (numbered gs)) (map (fun_spot Y j c) gs).
Proof.
  intros Y j c m' gs ND Hm Hc. assert (E : map (fun_spot Y j c) gs = map (fun mg => fun_spot Y j c (snd mg)) (numbered gs)).
  { unfold numbered. generalize 0. induction gs as [|g gs' IH] in ND |- *; intros s; cbn [map length seq combine snd]; auto. f_equal. apply IH. now inversion ND. }
  rewrite E. apply F2_map.
  assert (D : forall l : list (nat * nat), (forall mg, In mg l -> RV follows (dual_spot Y (3 * m' + c) mg) (fun_spot Y j c (snd mg))) -> Forall2 (fun a b => RV follows (dual_spot Y (3 * m' + c) a) (fun_spot Y j c (snd b))) l l).
  { induction l as [|x l IH]; intros H; constructor; [apply H; now left|apply IH; intros; apply H; now right]. }
  apply D. intros [m g] Hin. apply numbered_In in Hin.
  assert (Q : forall a, a < 3 -> Nat.eqb (3 * m + a) (3 * m' + c) = (Nat.eqb g j && Nat.eqb a c)%bool).
  { intros a Ha. destruct (Nat.eqb_spec (3 * m + a) (3 * m' + c)) as [E1|E1].
    - apply index_inj in E1 as [-> ->]; auto. rewrite Hm in Hin. injection Hin as ->. now rewrite !Nat.eqb_refl.
    - symmetry. apply Bool.andb_false_iff. destruct (Nat.eqb_spec g j) as [->|]; [|auto]. destruct (Nat.eqb_spec a c) as [->|]; [|auto]. destruct E1. rewrite (nodup_nth _ gs m m' j); auto. }
  cbn [fst snd]. split; [|split]; apply follows_nudge; cbn [fst snd]; [rewrite <- (Q 0) by lia; f_equal; lia|apply Q; lia|apply Q; lia].
Qed.

Section Deriv.
  Context (omega : R -> R -> R) (K MU h alpha : R) (W : nat -> R).
  Notation to_nbhd := (to_nbhd omega K MU h alpha).
  Let omegaD : dual RN -> dual RN -> dual RN := fun d e => const RN (omega (fst d) (fst e)).
  Let omegaF : FunN -> FunN -> FunN := fun f g t => omega (f t) (g t).

  Lemma vdot_pos : forall (a b : V3 RN), a <> b -> (0 < vdot (N:=RN) (vsub (N:=RN) a b) (vsub (N:=RN) a b))%R.
  Proof.
    intros [a1 a2 a3] [b1 b2 b3] H. change (T RN) with R in *.
    change (0 < (a1 - b1) * (a1 - b1) + (a2 - b2) * (a2 - b2) + (a3 - b3) * (a3 - b3))%R.
    pose proof (Rle_0_sqr (a1 - b1)) as P1. pose proof (Rle_0_sqr (a2 - b2)) as P2. pose proof (Rle_0_sqr (a3 - b3)) as P3. unfold Rsqr in *.
    assert (Q : forall u v : R, u <> v -> (0 < (u - v) * (u - v))%R) by (intros u v Hu; apply Rsqr_pos_lt; intros ?; apply Hu; lra).
    destruct (Req_dec a1 b1) as [E1|N1]; [|pose proof (Q _ _ N1); lra].
    destruct (Req_dec a2 b2) as [E2|N2]; [|pose proof (Q _ _ N2); lra].
    destruct (Req_dec a3 b3) as [E3|N3]; [|pose proof (Q _ _ N3); lra]. destruct H. now rewrite E1, E2, E3.
  Qed.
  Lemma guard : forall (A B : V3 (dual RN)) (a b : V3 RN), fst (vx A) = vx a -> fst (vy A) = vy a -> fst (vz A) = vz a -> fst (vx B) = vx b -> fst (vy B) = vy b -> fst (vz B) = vz b -> a <> b ->
    (0 < fst (vdot (vsub A B) (vsub A B)))%R /\ fst (vlen (vsub A B)) <> 0%R.
  Proof.
    intros [[p1 q1] [p2 q2] [p3 q3]] [[r1 s1] [r2 s2] [r3 s3]] [a1 a2 a3] [b1 b2 b3] A1 A2 A3 B1 B2 B3 H. cbn in A1, A2, A3, B1, B2, B3. subst.
    match goal with |- context [vsub ?u ?v] => set (A := u); set (B := v) end. set (a := v3 a1 a2 a3) in *. set (b := v3 b1 b2 b3) in *.
    assert (E : fst (vdot (vsub A B) (vsub A B)) = vdot (N:=RN) (vsub (N:=RN) a b) (vsub (N:=RN) a b)) by reflexivity.
    pose proof (vdot_pos a b H) as P. split; [rewrite E; exact P|].
    change (fst (vlen (vsub A B))) with (sqrt (fst (vdot (vsub A B) (vsub A B)))). rewrite E. apply Rgt_not_eq. apply sqrt_lt_R0. exact P.
  Qed.

  Lemma elastic_dx_spec : forall Y V P p k js gs b m' j c, elastic_ok P -> separated Y P -> part_block W Y V P p k js gs b -> nth_error gs m' = Some j -> c < 3 ->
    exists ds, elastic_dx (N:=RN) omega K MU h alpha b (3 * m' + c) = Ok ds /\ length ds = 3 * length gs /\
      forall row, derivable_pt_lim (fun t => nth row (n_force (to_nbhd (gs, b)) (at_points 3 (nudge Y j c t) gs) []) 0%R) 0 (nth row ds 0%R).
  Proof.
    intros Y V P p k js gs b m' j c HO HS HB Hj Hc. pose proof (part_block_facts W Y V P p k js gs b HO HB) as (ND & L2 & Lx & AO).
    pose proof HB as (Hp & Hg & Gx & Gy & Gu & Gv & Gm & Gd).
    unfold elastic_dx. cbv zeta. rewrite Gy, seeded_flat, triples_flat. cbn [bind].
    set (n := length (b_x b) - 1) in *. set (yd := map (dual_spot Y (3 * m' + c)) (numbered gs)).
    assert (Ln : length (numbered gs) = length gs) by (unfold numbered; rewrite combine_length, seq_length; lia).
    destruct (AO (map (spot Y) gs) ltac:(apply map_length)) as (A1 & A2 & A3 & A4 & A5 & A6 & A7).
    assert (AD : arrays_ok (N:=dual RN) (length gs) [seq 1 n] (map (vconst RN) (b_x b)) yd (map (const RN) (b_vol b)) (map (const RN) (b_m b)) (map (const RN) (b_dmg b))).
    { unfold yd. repeat split; rewrite ?map_length; auto. }
    destruct (elastic_force_total (N:=dual RN) omegaD (const RN K) (const RN MU) (const RN h) (const RN alpha) _ _ _ _ _ _ _ AD) as (fd & Ed & Lfd).
    unfold omegaD in Ed. rewrite Ed. cbn [bind]. eexists. split; [reflexivity|]. split; [rewrite map_length; etransitivity; [exact (flat_len (dual RN) fd)|now rewrite Lfd]|].
    (* dual numbers and functions of the perturbation *)
    assert (C1 : Forall2 follows (map (const RN) (b_vol b)) (map fun_num (b_vol b))) by (apply F2_map, F2_self; intros ?; apply follows_const).
    assert (C2 : Forall2 follows (map (const RN) (b_m b)) (map fun_num (b_m b))) by (apply F2_map, F2_self; intros ?; apply follows_const).
    assert (C3 : Forall2 follows (map (const RN) (b_dmg b)) (map fun_num (b_dmg b))) by (apply F2_map, F2_self; intros ?; apply follows_const).
    assert (C4 : Forall2 fixed (map (vconst RN) (b_x b)) (map fun_const (b_x b))).
    { apply F2_map, F2_self. intros X. split; [reflexivity|]. split; [reflexivity|]. split; [reflexivity|]. intros t. auto. }
    pose proof (seeds_follow Y j c m' gs ND Hj Hc) as C5. fold yd in C5.
    destruct (elastic_rel (N1:=dual RN) (N2:=FunN) follows (fun d => fst d <> 0%R) (fun d => (0 < fst d)%R) follows_add follows_sub follows_mul follows_div follows_sqrt follows_Z ltac:(cbn; lra)
      omegaD omegaF (const RN K) (const RN MU) (const RN h) (const RN alpha) (fun_num K) (fun_num MU) (fun_num h) (fun_num alpha) (follows_const K) (follows_const MU) fixed) with (js := seq 1 n) (r := fd)
      (x1 := map (vconst RN) (b_x b)) (y1 := yd) (v1 := map (const RN) (b_vol b)) (m1 := map (const RN) (b_m b)) (d1 := map (const RN) (b_dmg b))
      (x2 := map fun_const (b_x b)) (y2 := map (fun_spot Y j c) gs) (v2 := map fun_num (b_vol b)) (m2 := map fun_num (b_m b)) (d2 := map fun_num (b_dmg b)) as (fF & EF & RF); auto.
    { intros X X' XP XP' HX HXP. destruct (fixed_len X X' XP XP' HX HXP) as [F1 F2]. split; [now apply follows_fixed|].
      apply follows_fixed; [reflexivity|]. intros t. unfold omegaD, omegaF, fun_num. cbn [const fst]. f_equal. apply F2. }
    { intros Yd md HY Hm. assert (ValY : forall q u, at_ub yd q = Ok u -> exists g, nth_error gs q = Some g /\ fst (vx u) = Y g 0 /\ fst (vy u) = Y g 1 /\ fst (vz u) = Y g 2).
      { intros q u Hu. apply at_ub_Ok in Hu. unfold yd in Hu. rewrite nth_error_map in Hu. destruct (nth_error (numbered gs) q) as [[m g]|] eqn:Eq; [|discriminate]. injection Hu as <-.
        exists g. cbn. split; auto. unfold numbered in Eq. clear - Eq.
        assert (Z : forall s q m g, nth_error (combine (seq s (length gs)) gs) q = Some (m, g) -> nth_error gs q = Some g).
        { clear Eq. induction gs as [|g0 gs IH]; intros s [|q0] m0 g1 H; cbn in *; try discriminate; [injection H as _ E; now rewrite E|eapply IH; exact H]. }
        eapply Z; eauto. }
      destruct (HS p js Hp) as [Nm Sp]. split.
      - intros q YP Hq HYP. apply in_seq in Hq. destruct (ValY 0 Yd HY) as (g0 & G0 & V1 & V2 & V3'). destruct (ValY q YP HYP) as (g1 & G1 & U1 & U2 & U3).
        apply (guard YP Yd (spot Y g1) (spot Y g0)); auto. intros E. symmetry in E. revert E.
        apply gather_spec in Hg. destruct q as [|q]; [lia|].
        assert (Hlook : forall i g, nth_error gs i = Some g -> exists l, nth_error (p :: js) i = Some l /\ nth_error (e_gids P) l = Some g).
        { clear - Hg. induction Hg as [|l x ls xs Hx HF IH]; intros [|i] g Hi; cbn in *; try discriminate; [injection Hi as <-; eauto|auto]. }
        destruct (Hlook 0 g0 G0) as (l0 & E0 & F0). destruct (Hlook (S q) g1 G1) as (l1 & E1 & F1). cbn in E0, E1. injection E0 as <-.
        apply (Sp l1 g0 g1); auto. eapply nth_error_In; eauto.
      - apply at_ub_Ok in Hm. rewrite nth_error_map in Hm. destruct (nth_error (b_m b) 0) as [mm|] eqn:Em; [|discriminate]. injection Hm as <-. cbn [const fst]. intros ->. apply Nm.
        clear - Gm Em. apply gather_spec in Gm. destruct (b_m b) as [|m0 ms]; [discriminate|]. cbn in Em. injection Em as ->. inversion Gm; auto. }
    (* functions of the perturbation, at each value of it *)
    assert (EV : forall t, exists ft, elastic_force (N:=RN) omega K MU h alpha (b_x b) (map (spot (nudge Y j c t)) gs) (b_vol b) (b_m b) (b_dmg b) [seq 1 n] = Ok ft /\ Forall2 (RV (at_time t)) fF ft).
    { intros t. refine (elastic_rel (N1:=FunN) (N2:=RN) (at_time t) (fun _ => True) (fun _ => True) _ _ _ _ _ _ I omegaF omega (fun_num K) (fun_num MU) (fun_num h) (fun_num alpha) K MU h alpha eq_refl eq_refl (RV (at_time t)) _ _ _ _ _ _ _ _ _ _ _ _ _ _ _ _ (seq 1 n) fF _ EF).
      - intros a a' d d' <- <-. reflexivity.
      - intros a a' d d' <- <-. reflexivity.
      - intros a a' d d' <- <-. reflexivity.
      - intros a a' d d' <- <- _. reflexivity.
      - intros a a' <- _. reflexivity.
      - intros z. reflexivity.
      - intros X X' XP XP' (X1 & X2 & X3) (Y1 & Y2 & Y3). unfold at_time in *. assert (E : vlen (vsub XP X) t = vlen (vsub XP' X')) by (cbn; rewrite X1, X2, X3, Y1, Y2, Y3; reflexivity).
        split; [exact E|]. unfold omegaF, fun_num. now rewrite E.
      - rewrite <- (map_id (b_x b)) at 2. apply F2_map, F2_self. repeat split.
      - apply F2_map, F2_self. repeat split.
      - rewrite <- (map_id (b_vol b)) at 2. apply F2_map, F2_self. reflexivity.
      - rewrite <- (map_id (b_m b)) at 2. apply F2_map, F2_self. reflexivity.
      - rewrite <- (map_id (b_dmg b)) at 2. apply F2_map, F2_self. reflexivity.
      - intros. split; [|exact I]. intros q u _ _. auto. }
    assert (FlatD : Forall2 follows (flat fd) (flat fF)).
    { clear - RF. induction RF as [|u u' l l' (U1 & U2 & U3) HF IH]; [constructor|]. change (flat (u :: l)) with (vx u :: vy u :: vz u :: flat l). change (flat (u' :: l')) with (vx u' :: vy u' :: vz u' :: flat l'). apply Forall2_cons; [exact U1|apply Forall2_cons; [exact U2|apply Forall2_cons; [exact U3|exact IH]]]. }
    intros row.
    assert (Fn : forall t, nth row (n_force (to_nbhd (gs, b)) (at_points 3 (nudge Y j c t) gs) []) 0%R = match nth_error (flat fF) row with Some g => g t | None => 0%R end).
    { intros t. destruct (EV t) as (ft & Et & RT). cbn [ProofTangent6.to_nbhd n_force fst snd]. rewrite <- spots_flat. rewrite (local_force_flat omega K MU h alpha b (map (spot (nudge Y j c t)) gs) ft) by exact Et.
      assert (FT : Forall2 (at_time t) (flat fF) (flat ft)).
      { clear - RT. induction RT as [|u u' l l' (U1 & U2 & U3) HF IH]; [constructor|]. change (flat (u :: l)) with (vx u :: vy u :: vz u :: flat l). change (flat (u' :: l')) with (vx u' :: vy u' :: vz u' :: flat l'). apply Forall2_cons; [exact U1|apply Forall2_cons; [exact U2|apply Forall2_cons; [exact U3|exact IH]]]. }
      clear - FT. revert row. induction FT as [|g a l l' Hg HF IH]; intros row; [destruct row; reflexivity|]. destruct row as [|row]; cbn [nth nth_error]; [symmetry; exact Hg|apply IH]. }
    eapply lim_ext; [intros t; symmetry; apply Fn|].
    clear - FlatD. revert row. induction FlatD as [|d g l l' [_ Hd] HF IH]; intros row.
    - destruct row; cbn; exact (derivable_pt_lim_const 0 0).
    - destruct row as [|row]; cbn [nth nth_error map]; [|apply IH]. exact Hd.
  Qed.
End Deriv.
