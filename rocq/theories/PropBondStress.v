(** * C79: stress and rotation of the bonds of the bond-associated material *)
From Coq Require Import Reals Lra Lia.
From Verif Require Import Base Num ModelNeigh SpecDamage ModelForce SpecForce ModelCorr SpecCorr
  ProofData ProofDamage ProofForce ProofKernels ProofCorr ProofCorr2 ProofCorr3 ProofCorr4 ProofCorr5 ProofTangent ProofRot ProofRot2 ProofBondAssoc ProofBondAssoc2 ProofBondAssoc3 ProofBondAssoc4 ProofBondForce ProofBondForce2 ProofBondForce3 ProofBondForce4 ProofBondForce5 ProofBondForce6 ProofBondStress
  PropRot PropBondAssoc PropBondForce ModelBondAssoc SpecBondAssoc SpecBondForce.
Local Open Scope R_scope.

(** A bond with influence: [L] is the velocity gradient of the bond in the deformed body.  The
    unrotated stress follows the stress update for the rate of deformation of [L], unrotated
    with the new rotation.  From a symmetric stretch and an orthogonal rotation the stretch
    stays symmetric, the bond turns with the only angular velocity that does this, and the new
    rotation is longer across the axis, by [excess]. *)
Theorem C79_law : forall cauchy dt x y vel (v : list R) nbrs (s : ba_state (N:=RN)) Fs Gs st sN st1 s1 f,
  ba_compute_force (N:=RN) sin cos cauchy dt x y vel v nbrs s Fs Gs st sN = Ok (st1, s1, f) -> apart nbrs x (s_w0 s) -> length sN = num_bonds nbrs ->
  forall p k j, bond_at nbrs p k j -> 0 < om_of (s_wt s) k -> forall Fb Gb,
  bond_level (average (ten_of Fs p) (ten_of Fs j)) (between x p j) (between y p j) Fb ->
  bond_level (average (ten_of Gs p) (ten_of Gs j)) (between x p j) (between vel p j) Gb ->
  exists b b1 sg (L d : M3 RN), nth_error st k = Some b /\ nth_error st1 k = Some b1 /\ nth_error sN k = Some sg /\ nth_error s1 k = Some (cauchy dt d sg) /\
    eq3 (prod (ent L) Fb) Gb /\ eq3 (ent d) (prod (transp (ent (b_R b1))) (prod (sym_part (ent L)) (ent (b_R b1)))) /\
    (symmetric (ent (b_V b)) -> det3 (spherical_minus (ent (b_V b))) <> 0 -> orthogonal3 (ent (b_R b)) ->
     exists w, (forall w', symmetric (stretch_rate (ent L) (ent (b_V b)) w') <-> w' = w) /\
       eq3 (ent (b_V b1)) (fun i c => ent (b_V b) i c + dt * stretch_rate (ent L) (ent (b_V b)) w i c) /\ symmetric (ent (b_V b1)) /\
       eq3 (prod (ent (b_R b1)) (transp (ent (b_R b1)))) (fun i c => kron i c + excess dt w * (kron i c - dir2 w i c)) /\
       det3 (ent (b_R b1)) = (1 + excess dt w) * det3 (ent (b_R b))).
Proof.
  intros * H AP LS p k j HB Hom Fb Gb HF HG. destruct (law_bond _ _ _ _ _ _ _ _ _ _ _ _ _ _ _ _ _ _ _ _ H LS HB) as (b & o & sg & A1 & A2 & A3 & A4 & A5).
  destruct (bond_law _ _ _ _ _ _ _ _ _ _ _ _ _ _ _ A5 Hom (proj1 (AP p k j HB)) HF HG) as (L & E1 & _ & E2).
  exists b, (fst o), sg, L, (snd o). do 5 (split; [assumption|]). split.
  - pose proof (step_rate sin cos dt L (b_V b) (b_R b)) as SR. cbv zeta in SR. rewrite E2 in SR. cbn [fst snd] in SR. rewrite SR. intros i c Hi Hc. rewrite nn_ent by auto. unfold prod, sum3, transp. rewrite !nn_ent by (auto; lia). unfold prod, sum3. rewrite !ent_trans by (auto; lia). rewrite !rate_ent by (auto; lia). reflexivity.
  - intros HV HD HQ. destruct (C18_step_characterised dt L (b_V b) (b_R b) _ _ _ HV HD HQ E2) as (w & B1 & B2 & B3 & _ & _ & B4 & B5). exists w. auto.
Qed.
Print Assumptions C79_law.

(** The elastic stress update is Hooke's law. *)
Theorem C79_hooke : forall K mu dt (d s : M3 RN), hookean K mu dt (ent d) (ent s) (ent (hooke (N:=RN) K mu dt d s)).
Proof. exact hooke_ent. Qed.
Print Assumptions C79_hooke.

(** A bond without influence keeps its state, and the elastic material its stress. *)
Theorem C79_kept : forall sinf cosf K mu dt x y vel (v : list R) nbrs (s : ba_state (N:=RN)) Fs Gs st sN st1 s1 f,
  ba_compute_force (N:=RN) sinf cosf (hooke (N:=RN) K mu) dt x y vel v nbrs s Fs Gs st sN = Ok (st1, s1, f) -> length sN = num_bonds nbrs ->
  forall p k j, bond_at nbrs p k j -> om_of (s_wt s) k <= 0 -> nth_error st1 k = nth_error st k /\ nth_error s1 k = nth_error sN k.
Proof.
  intros * H LS p k j HB Hom. destruct (law_bond _ _ _ _ _ _ _ _ _ _ _ _ _ _ _ _ _ _ _ _ H LS HB) as (b & o & sg & A1 & A2 & A3 & A4 & A5).
  unfold step_of in A5. rewrite off_step in A5 by exact Hom. injection A5 as <-. cbn [fst snd] in *. rewrite hooke_zero in A4. split; congruence.
Qed.
Print Assumptions C79_kept.

(** Spinning as a rigid body changes no unrotated stress, whatever the deformation. *)
Theorem C79_spin : forall sinf cosf K mu dt x y u vel (v : list R) nbrs (s : ba_state (N:=RN)) Fs Gs st sN st1 s1 f w c,
  ba_compute_force (N:=RN) sinf cosf (hooke (N:=RN) K mu) dt x y vel v nbrs s Fs Gs st sN = Ok (st1, s1, f) -> length sN = num_bonds nbrs ->
  mutual nbrs -> apart nbrs x (s_w0 s) -> length y = length nbrs -> (forall p, (p < length nbrs)%nat -> at3 y p = vadd (at3 x p) (at3 u p)) ->
  reproduces nbrs x v (s_wt s) -> deformation_gradients (N:=RN) v u (s_wt s) nbrs = Ok Fs -> velocity_gradients (N:=RN) v vel (s_wt s) nbrs = Ok Gs ->
  spinning w c y vel -> forall p k j, bond_at nbrs p k j -> nth_error s1 k = nth_error sN k.
Proof.
  intros * H LS MU AP Ly HY RP HF HG SP p k j HB. destruct (Rlt_dec 0 (om_of (s_wt s) k)) as [O|O].
  - destruct (spin_bond _ _ _ _ _ _ _ _ _ _ _ _ _ _ _ _ _ _ _ _ H LS MU AP Ly HY RP HF HG SP p k j HB O) as (b & o & sg & _ & _ & A3 & A4 & A5).
    pose proof (spin_rate sinf cosf dt w (b_V b) (b_R b)) as SR. rewrite A5 in SR. cbn [snd] in SR. rewrite A4, A3, SR. f_equal. apply hooke_zero.
  - eapply C79_kept; eauto. lra.
Qed.
Print Assumptions C79_spin.

(** But the rotation does not stay one: after [n] steps of a body that only spins about a
    fixed axis, the determinant of the rotation of every bond with influence is
    [(1 + excess) ^ n] instead of 1. *)
Theorem C79_spin_refuted : forall omega K mu svd order x (v hs : list R) nbrs dt s0 d0 es s dN st sN w p k j,
  ba_initialize (N:=RN) omega svd order x v hs nbrs = Ok s0 ->
  force_steps omega sin cos (hooke (N:=RN) K mu) svd order x v hs nbrs dt es (s0, d0, ba_bonds (N:=RN) nbrs, ba_stresses (N:=RN) nbrs) = Ok (s, dN, st, sN) ->
  mutual nbrs -> apart nbrs x (s_w0 s0) -> even_horizon nbrs hs -> (forall r h, 0 <= omega r h) ->
  length x = length nbrs -> length v = length nbrs -> (1 <= order)%Z ->
  bond_at nbrs p k j -> 0 < omega (vlen (between x p j)) (nth p hs 0) ->
  reported nbrs d0 (repeat 0 (num_bonds nbrs)) es -> Forall (spin_step omega svd order x v hs nbrs w k) es ->
  exists b, nth_error st k = Some b /\ nth_error sN k = Some mzero /\ b_V b = mone /\ det3 (ent (b_R b)) = (1 + excess dt w) ^ length es /\
    (es <> [] -> excess dt w <> 0 -> ~ orthogonal3 (ent (b_R b))).
Proof.
  intros * HI HS MU AP EH OM Lx Lv Ho HB OP RP FE. pose proof (good_start omega svd order x v hs nbrs s0 d0 HI) as G0. destruct (bond_at_bound _ _ _ _ HB) as [_ Hk].
  assert (NB : length (concat nbrs) = num_bonds nbrs) by (clear; induction nbrs as [|js r IH]; auto; cbn [concat]; rewrite app_length, num_bonds_cons, IH; auto).
  destruct (spin_steps omega K mu svd order x v hs nbrs dt (s_w0 s0) MU AP EH OM Lx Lv Ho w p k j HB OP es _ _ _ 1 mzero HS G0 RP FE) as (b & B1 & B2 & B3 & B4).
  { exists (Bst (N:=RN) mone mone 1 mone). unfold ba_bonds, ba_stresses. rewrite NB, !nth_error_rep by lia. repeat split. unfold det3. cbn. to_R. change (T RN) with R. ring. }
  rewrite Rmult_1_r in B3. exists b. do 4 (split; [assumption|]). intros NE EX OR.
  assert (D2 : det3 (ent (b_R b)) * det3 (ent (b_R b)) = 1).
  { transitivity (det3 (prod (transp (ent (b_R b))) (ent (b_R b)))); [unfold det3, prod, transp, sum3; ring|]. transitivity (det3 kron); [unfold det3; rewrite !(OR _ _) by lia; reflexivity|]. unfold det3, kron. cbn. ring. }
  assert (P : 0 < excess dt w) by (pose proof (proj1 (C18_drift_bound dt w)); lra). rewrite B3 in D2.
  assert (1 < (1 + excess dt w) ^ length es). { destruct es as [|e es]; [contradiction|]. cbn [length pow]. pose proof (pow_R1_Rle (1 + excess dt w) (length es) ltac:(lra)). nra. } nra.
Qed.
Print Assumptions C79_spin_refuted.

(** ** The hypotheses can be met: the cube spins about an edge, half a turn in the step *)
Definition spin_w : V3 RN := v3 (N:=RN) 0 0 1.
Definition spin_vel : list (V3 RN) := map (fun X => vadd (vcross spin_w X) vzero) (moved cube_x (repeat vzero 8)).
Example C79_met : forall K mu, exists s0 c1 f, let e := (repeat 0 8, cube_dmg, repeat vzero 8, spin_vel) in
  ba_initialize (N:=RN) ex_om cube_svd 1 cube_x cube_v (repeat 1 8) cube_nbrs = Ok s0 /\ apart cube_nbrs cube_x (s_w0 s0) /\
  reported cube_nbrs (repeat 0 8) (repeat 0 (num_bonds cube_nbrs)) [e] /\
  force_step ex_om sin cos (hooke (N:=RN) K mu) cube_svd 1 cube_x cube_v (repeat 1 8) cube_nbrs PI e (s0, repeat 0 8, ba_bonds (N:=RN) cube_nbrs, ba_stresses (N:=RN) cube_nbrs) = Ok (c1, f) /\
  spin_step ex_om cube_svd 1 cube_x cube_v (repeat 1 8) cube_nbrs spin_w 0 e /\ excess PI spin_w = 8.
Proof.
  intros K mu. destruct (C78_met sin cos K mu) as (s0 & _ & _ & HI & AP & _). assert (FIT : bonds_fit (length cube_x) cube_nbrs) by (split; [cbn; lia|exact (proj1 (proj2 cube_mutual))]).
  destruct (C77_runs ex_om cube_svd 1 cube_x cube_v (repeat 1 8) cube_nbrs FIT) as [(s0' & HI' & L1 & L2) HP]; [cbn; lia|cbn; lia|]. rewrite HI in HI'. injection HI' as <-.
  destruct (HP (repeat 0 8) (repeat 0 8) cube_dmg (repeat vzero 8) spin_vel s0) as (s1 & Fs & Gs & E & L3 & L4 & L5); auto; try (cbn; lia).
  assert (RP : reported cube_nbrs (repeat 0 8) (repeat 0 (num_bonds cube_nbrs)) [(repeat 0 8, cube_dmg, repeat vzero 8, spin_vel)]) by (split; [intros; left; reflexivity|exact Logic.I]).
  destruct (initialize_fresh _ _ _ _ _ _ _ _ HI) as (A & B & W). apply volumes_spec in W as [W1 W2].
  destruct (precompute_fresh _ _ _ _ _ _ _ _ _ _ _ _ _ _ _ _ _ E A B (proj1 RP)) as (_ & _ & HD & HV & E0).
  assert (LG : length Gs = length cube_nbrs). { apply gradients_spec in HV as [HV _]. exact HV. }
  assert (FA : forall p, (p < 8)%nat -> eq3 (ten_of Fs p) kron).
  { intros p Hp. assert (Hn : nth_error cube_nbrs p = Some (nth p cube_nbrs [])) by now apply nth_error_nth'. destruct (cube_resolved p Hp) as (X & h & bs & R1 & R2 & R3).
    destruct (C77_affine ex_om cube_svd 1 cube_x cube_v (repeat 1 8) cube_nbrs s0 (repeat 0 8) [] s0 (repeat 0 8) (repeat 0 8) cube_dmg (repeat vzero 8) spin_vel s1 Fs Gs p X h bs (nth p cube_nbrs []) kron vzero HI eq_refl E RP Hn R1 R2 ltac:(lia) R3) as (F & F1 & F2).
    - intros j Y U _ HY HU i Hi. apply nth_error_In, repeat_spec in HU. subst U. destruct Y as [a b c]. clear -Hi. i3 i Hi; unfold image, sum3, kron; cbn; to_R; change (T RN) with R; ring.
    - unfold ten_of. rewrite (nth_error_nth _ _ mzero F1). exact F2. }
  destruct (C78_stops sin cos (hooke (N:=RN) K mu) PI cube_x (moved cube_x (repeat vzero 8)) spin_vel cube_v cube_nbrs s1 Fs Gs (ba_bonds (N:=RN) cube_nbrs) (ba_stresses (N:=RN) cube_nbrs)) as [[[[[st1 g1] f] HR] _]|[_ [(p & Hp & HZ)|(p & k & j & Fb & HB & _ & HL & HZ)]]].
  - unfold ba_data. rewrite E0. repeat (split; [first [reflexivity|assumption]|]). exact L3.
  - exact FIT.
  - now rewrite E0.
  - exact L5.
  - exact LG.
  - reflexivity.
  - reflexivity.
  - exists s0, (s1, repeat 0 8, st1, g1), f. split; [exact HI|]. split; [exact AP|]. split; [exact RP|]. split; [|split].
    + unfold force_step. rewrite E. cbn [bind]. rewrite HR. reflexivity.
    + split; [apply cube_even|]. split; [reflexivity|]. split; [exact cube_resolved|]. split; [cbn; lra|]. exists vzero. unfold spinning, spin_vel. clear. induction (moved cube_x (repeat vzero 8)); constructor; auto.
    + unfold excess. assert (EV : vdot spin_w spin_w = 1) by (cbn; to_R; change (T RN) with R; ring). rewrite EV. destruct (Rle_dec 1 (1 / 10 ^ 30)) as [Z|_]; [exfalso; assert (1 < 10 ^ 30) by (apply Rlt_pow_R1; [lra|lia]); assert (1 / 10 ^ 30 < 1) by (apply Rmult_lt_reg_r with (10 ^ 30); [lra|]; field_simplify; lra); lra|].
      assert (EL : vlen spin_w = 1) by (cbn; to_R; change (T RN) with R; replace (0 * 0 + 0 * 0 + 1 * 1) with 1 by ring; apply sqrt_1). rewrite EL, Rmult_1_r, cos_PI. lra.
  - exfalso. revert HZ. unfold det3. rewrite !(FA p Hp _ _) by lia. unfold kron. cbn. lra.
  - exfalso. destruct (cube_bond p k j HB) as (Z1 & Z2 & Z3). destruct (C77_bond_level (nth p Fs mzero) (nth j Fs mzero) (between cube_x p j) (between (moved cube_x (repeat vzero 8)) p j)) as (_ & U & _); [lra|].
    assert (EF : eq3 Fb kron).
    { intros a c Ha Hc. rewrite (U Fb HL a c Ha Hc). apply C77_bond_affine; auto; [lra|apply FA; auto|apply FA; auto|]. clear -Z1 Z2. intros i Hi. unfold between. rewrite !at3_moved by (auto; cbn; lia). replace (at3 (repeat vzero 8) p) with (vzero (N:=RN)) by (unfold at3; now rewrite nth_repeat_lt). replace (at3 (repeat vzero 8) j) with (vzero (N:=RN)) by (unfold at3; now rewrite nth_repeat_lt).
      destruct (at3 cube_x p) as [a1 a2 a3], (at3 cube_x j) as [b1 b2 b3]. i3 i Hi; unfold image, sum3, kron; cbn; to_R; change (T RN) with R; ring. }
    revert HZ. unfold det3. rewrite !(EF _ _) by lia. unfold kron. cbn. lra.
Qed.
