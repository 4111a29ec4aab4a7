(** * C80: plastic bond-associated correspondence materials *)
From Coq Require Import Reals Lra Lia Rpower.
From Verif Require Import Base Num ModelNeigh SpecDamage ModelForce SpecForce ModelCorr SpecCorr ModelPlastic ModelGlobal ModelJ2 SpecJ2
  ProofData ProofDamage ProofForce ProofKernels ProofCorr ProofCorr2 ProofCorr3 ProofCorr4 ProofCorr5 ProofTangent ProofTangent2 ProofRot ProofRot2 ProofJ2 ProofJ22 ProofJ23 ProofJ24 ProofBondAssoc ProofBondAssoc2 ProofBondAssoc3 ProofBondAssoc4 ProofBondForce ProofBondForce2 ProofBondForce3 ProofBondForce4 ProofBondForce5 ProofBondForce6 ProofBondStress
  PropRot PropJ2 PropReturn PropBondAssoc PropBondForce ModelBondAssoc SpecBondAssoc SpecBondForce ModelBondPlastic SpecBondPlastic ProofBondPlastic ProofBondPlastic2.
Local Open Scope R_scope.

(** The three materials keep symmetric stresses symmetric. *)
Theorem C80_symmetric :
  (forall K G Y, law_symmetric (perfect_bond (N:=RN) K G Y)) /\
  (forall powf K G Y eps0 n, law_symmetric (power_bond (N:=RN) powf K G Y eps0 n)) /\
  (forall expf K G Y Ysat c lin, law_symmetric (satexp_bond (N:=RN) expf K G Y Ysat c lin)).
Proof.
  split; [|split].
  - intros K G Y dt d s e r Hd Hs H. injection H as <-. now apply C19_symmetric.
  - intros powf K G Y eps0 n dt d s e r Hd Hs H. exact (return_sym _ _ _ _ _ _ _ _ _ Hd Hs H).
  - intros expf K G Y Ysat c lin dt d s e r Hd Hs H. exact (return_sym _ _ _ _ _ _ _ _ _ Hd Hs H).
Qed.
Print Assumptions C80_symmetric.

(** Momentum and moment after any history, as for the elastic material. *)
Theorem C80_history : forall omega sinf cosf law svd order x (v hs : list R) nbrs dt s0 d0 es c dN1 dmg u vel c1 js tri f,
  ba_initialize (N:=RN) omega svd order x v hs nbrs = Ok s0 ->
  plastic_steps omega sinf cosf law svd order x v hs nbrs dt es (plastic_start s0 d0 nbrs) = Ok c ->
  plastic_step omega sinf cosf law svd order x v hs nbrs dt (dN1, dmg, u, vel) c = Ok (c1, js, tri, f) ->
  mutual nbrs -> apart nbrs x (s_w0 s0) -> law_symmetric law -> even_horizon nbrs hs -> (forall r h, 0 <= omega r h) ->
  length x = length nbrs -> length v = length nbrs ->
  reported nbrs d0 (repeat 0 (num_bonds nbrs)) (es ++ [(dN1, dmg, u, vel)]) ->
  Forall (fun e => even_damage nbrs (snd (fst (fst e))) /\ length (snd (fst e)) = length x) (es ++ [(dN1, dmg, u, vel)]) ->
  momentum v f = vzero /\
  ((1 <= order)%Z -> all_resolved omega svd order x v hs nbrs dmg -> moment v (moved x u) f = vzero).
Proof.
  intros * HI HS HF MU AP KS EH OM Lx Lv RP FE. pose proof (pgood_start omega svd order x v hs nbrs s0 d0 HI) as G0.
  destruct (pgood_steps omega sinf cosf law svd order x v hs nbrs dt (s_w0 s0) MU AP KS EH OM Lx Lv (dN1, dmg, u, vel) es _ c _ HS G0 RP FE) as (dmgN & G & [R1 _]).
  apply Forall_app in FE as [_ FE]. apply Forall_cons_iff in FE as [[F1 F2] _]. cbn [fst snd] in F1, F2.
  apply (pgood_step omega sinf cosf law svd order x v hs nbrs dt (s_w0 s0) MU AP KS EH OM Lx Lv _ _ _ _ _ _ _ _ _ _ HF G R1 F1 F2).
Qed.
Print Assumptions C80_history.

(** Power: stress of the bonds times bond level gradient, with the stresses just found. *)
Theorem C80_power : forall sinf cosf law dt x y vel (v : list R) nbrs (s : ba_state (N:=RN)) Fs Gs st sN kept (eN : list R) st1 js tri f,
  ba_plastic_force (N:=RN) sinf cosf law dt x y vel v nbrs s Fs Gs st sN kept eN = Ok (st1, js, tri, f) ->
  ba_data (length nbrs) nbrs x y vel v (s_w0 s) (s_wt s) -> mutual nbrs -> apart nbrs x (s_w0 s) -> proper_weights (s_wt s) ->
  law_symmetric law -> Forall (fun a => symmetric (ent a)) sN ->
  two_sided nbrs (map (w_om (N:=RN)) (s_wt s)) -> two_sided nbrs st -> two_sided nbrs sN -> two_sided nbrs eN ->
  exists P : nat -> mat,
    (forall p k j, bond_at nbrs p k j -> 0 < om_of (s_wt s) k -> forall Fb,
       bond_level (average (ten_of Fs p) (ten_of Fs j)) (between x p j) (between y p j) Fb ->
       exists b r, nth_error st1 k = Some b /\ nth_error js k = Some r /\ det3 Fb <> 0 /\ first_piola Fb (ent (b_R b)) (ent (j_stress r)) (P k)) /\
    (forall w Ws G, length w = length nbrs -> velocity_gradients (N:=RN) v w (s_wt s) nbrs = Ok Ws ->
       (forall p k j, bond_at nbrs p k j -> bond_level (average (ten_of Ws p) (ten_of Ws j)) (between x p j) (between w p j) (G p k j)) ->
       power v w f = - total nbrs (fun p k j => share v (s_w0 s) (s_wt s) p k j * ddot (P k) (G p k j))).
Proof.
  intros * H HD MU AP PW LS FS TW TS TN TE. pose proof (plastic_keeps _ _ _ _ _ _ _ _ _ _ _ _ _ _ _ _ _ _ _ _ H AP TW LS TS TN TE FS) as (_ & K3 & _ & K4). pose proof (plastic_bond _ _ _ _ _ _ _ _ _ _ _ _ _ _ _ _ _ _ _ _ H) as (LJ & _).
  apply plastic_parts in H as (kin & _ & _ & _ & H). destruct (C78_power _ _ _ _ _ _ _ _ _ _ _ _ _ _ _ _ _ H HD MU AP PW given_sym) as (P & P1 & P2); auto; [now rewrite map_length|].
  exists P. split; [|exact P2]. intros p k j HB Hom Fb HL. destruct (P1 p k j HB Hom Fb HL) as (b & sg & A & B & C & D). rewrite nth_error_map in B. destruct (nth_error js k) as [r|]; [|discriminate]. injection B as <-. exists b, r. do 3 (split; [assumption || reflexivity|]). exact D.
Qed.
Print Assumptions C80_power.

(** What a bond with influence does: the stress update for the rate of deformation of the bond,
    unrotated with its new rotation, from its own stress and plastic strain. *)
Theorem C80_law : forall sinf cosf law dt x y vel (v : list R) nbrs (s : ba_state (N:=RN)) Fs Gs st sN kept (eN : list R) st1 js tri f,
  ba_plastic_force (N:=RN) sinf cosf law dt x y vel v nbrs s Fs Gs st sN kept eN = Ok (st1, js, tri, f) -> apart nbrs x (s_w0 s) ->
  forall p k j, bond_at nbrs p k j -> 0 < om_of (s_wt s) k -> forall Fb Gb,
  bond_level (average (ten_of Fs p) (ten_of Fs j)) (between x p j) (between y p j) Fb ->
  bond_level (average (ten_of Gs p) (ten_of Gs j)) (between x p j) (between vel p j) Gb ->
  exists b1 sg e r (L d : M3 RN), nth_error st1 k = Some b1 /\ nth_error sN k = Some sg /\ nth_error eN k = Some e /\ nth_error js k = Some r /\
    eq3 (prod (ent L) Fb) Gb /\ eq3 (ent d) (prod (transp (ent (b_R b1))) (prod (sym_part (ent L)) (ent (b_R b1)))) /\ l_step law dt d sg e = Ok r.
Proof.
  intros * H AP p k j HB Hom Fb Gb HF HG. destruct (plastic_bond _ _ _ _ _ _ _ _ _ _ _ _ _ _ _ _ _ _ _ _ H) as (_ & _ & _ & _ & D). destruct (D p k j HB) as (b & o & sg & e & r & a & A1 & A2 & A3 & A4 & A5 & A6 & A7 & A8 & A9).
  destruct (ProofBondStress.bond_law _ _ _ _ _ _ _ _ _ _ _ _ _ _ _ A9 Hom (proj1 (AP p k j HB)) HF HG) as (L & E1 & _ & E2).
  exists (fst o), sg, e, r, L, (snd o). do 5 (split; [assumption|]). split; [|exact A8].
  pose proof (step_rate sinf cosf dt L (b_V b) (b_R b)) as SR. cbv zeta in SR. rewrite E2 in SR. cbn [fst snd] in SR. rewrite SR. intros i c Hi Hc. rewrite nn_ent by auto. unfold prod, sum3, transp. rewrite !nn_ent by (auto; lia). unfold prod, sum3. rewrite !ent_trans by (auto; lia). rewrite !rate_ent by (auto; lia). reflexivity.
Qed.
Print Assumptions C80_law.

(** The stress updates of the hardening materials are J2 plasticity with their yield stress. *)
Lemma hard_update : forall law slope K G dt (d s : M3 RN) e r, 0 < G -> concave_law law slope -> 0 <= e -> 2 * smallest <= law e -> radial_return (N:=RN) law slope K G dt d s e = Ok r ->
  j2_update law (1 / 10 ^ 16 * K) K G dt (ent d) (ent s) e r.
Proof.
  intros law slope K G dt d s e r HG HL He HY H. unfold j2_update. cbv zeta. destruct (Rlt_or_le (mises (elastic_step K G dt (ent d) (ent s))) (law e)) as [C|C].
  - destruct (C60_elastic law slope K G dt d s e C) as (r' & E & A & B & D). rewrite E in H. injection H as <-. split; [auto|]. split; [intros C'; lra|]. split; [exact D|]. rewrite B. apply Rle_refl.
  - destruct (C60_consistent law slope K G dt d s e r HG HL He HY C H) as (A & B & D & E & F & I). split; [intros C'; lra|]. auto 8.
Qed.
Lemma power_start : forall Y eps0 n e, 0 <= Y -> 0 < eps0 -> 0 <= n <= 1 -> 0 <= e -> Y <= power_yield Y eps0 n e.
Proof.
  intros Y eps0 n e HY H0 Hn He. eapply Rle_trans; [|apply (proj2 (proj2 (C60_power_law Y eps0 n HY H0 Hn)) 0 e); lra]. unfold power_stress, Rpower. to_R. replace (1 + 0 / eps0) with 1 by (field; lra). rewrite ln_1, Rmult_0_r, exp_0. lra.
Qed.
Lemma satexp_start : forall Y Ysat c lin e, 0 <= Y <= Ysat -> 0 <= c -> 0 <= lin -> 0 <= e -> Y <= satexp_yield Y Ysat c lin e.
Proof.
  intros Y Ysat c lin e HY Hc Hl He. eapply Rle_trans; [|apply (proj2 (proj2 (C60_saturation_exponential Y Ysat c lin HY Hc Hl)) 0 e); lra]. unfold satexp_stress. to_R. replace (- c * 0) with 0 by ring. rewrite exp_0. lra.
Qed.
Theorem C80_updates :
  (forall K G Y eps0 n dt d s e r, 0 < G -> 2 * smallest <= Y -> 0 < eps0 -> 0 <= n <= 1 -> 0 <= e ->
     l_step (power_bond (N:=RN) Rpower K G Y eps0 n) dt d s e = Ok r -> j2_update (power_yield Y eps0 n) (1 / 10 ^ 16 * K) K G dt (ent d) (ent s) e r) /\
  (forall K G Y Ysat c lin dt d s e r, 0 < G -> 2 * smallest <= Y <= Ysat -> 0 <= c -> 0 <= lin -> 0 <= e ->
     l_step (satexp_bond (N:=RN) exp K G Y Ysat c lin) dt d s e = Ok r -> j2_update (satexp_yield Y Ysat c lin) (1 / 10 ^ 16 * K) K G dt (ent d) (ent s) e r) /\
  (forall K G Y dt d s e r, 0 < G -> 0 <= Y -> l_step (perfect_bond (N:=RN) K G Y) dt d s e = Ok r ->
     let E := elastic_step K G dt (ent d) (ent s) in
     (mises E <= Y -> eq3 (ent (j_stress r)) E /\ j_eqps r = e) /\
     (Y < mises E -> smallest <= norm3 (dev_of E) -> mises (ent (j_stress r)) = Y /\ eq3 (dev_of (ent (j_stress r))) (scaled (Y / mises E) (dev_of E))) /\
     tr3 (ent (j_stress r)) / 3 = tr3 (ent s) / 3 + K * (dt * tr3 (ent d)) /\
     e <= j_eqps r <= e + eqps_inc G dt (ent d) (ent s) (ent (j_stress r))).
Proof.
  pose proof smallest_eq as SE. pose proof f20_pos as F. split; [|split].
  - intros K G Y eps0 n dt d s e r HG HY H0 Hn He H. eapply hard_update; [exact HG|apply (C60_power_law Y eps0 n); auto; rewrite SE in HY; lra|exact He| |exact H]. eapply Rle_trans; [exact HY|]. apply power_start; auto. rewrite SE in HY; lra.
  - intros K G Y Ysat c lin dt d s e r HG [HY HS] Hc Hl He H. assert (0 <= Y <= Ysat) by (rewrite SE in HY; lra). eapply hard_update; [exact HG|apply (C60_saturation_exponential Y Ysat c lin); auto|exact He| |exact H]. eapply Rle_trans; [exact HY|]. now apply satexp_start.
  - intros K G Y dt d s e r HG HY H E. injection H as <-. split; [apply C19_elastic|]. split; [intros A B; now apply C19_plastic|]. split; [apply C19_pressure|]. apply C19_plastic_strain; auto. lra.
Qed.
Print Assumptions C80_updates.

(** ** Yield *)
Lemma start_bond : forall s0 d0 nbrs k sg e, nth_error (p_stress (plastic_start s0 d0 nbrs)) k = Some sg -> nth_error (p_strain (plastic_start s0 d0 nbrs)) k = Some e -> sg = mzero /\ e = 0.
Proof. intros s0 d0 nbrs k sg e H1 H2. apply nth_error_In, repeat_spec in H1. apply nth_error_In, repeat_spec in H2. auto. Qed.
Lemma mises_mzero : mises (ent (mzero (N:=RN))) = 0.
Proof. unfold mises. replace (3 / 2 * ddot (dev_of (ent mzero)) (dev_of (ent mzero))) with 0; [apply sqrt_0|]. unfold ddot, dev_of, tr3, sum3, kron. cbn. field. Qed.
Lemma tol_nonneg : forall K, 0 <= K -> 0 <= 1 / 10 ^ 16 * K.
Proof. intros K HK. apply Rmult_le_pos; [apply Rmult_le_pos; [lra|left; apply Rinv_0_lt_compat, pow_lt; lra]|exact HK]. Qed.

(** After any history no bond of the perfectly plastic material is beyond the yield stress, and
    its plastic strain has never decreased. *)
Theorem C80_yield_perfect : forall omega sinf cosf K G Y svd order x (v hs : list R) nbrs dt s0 d0 es es' c c1, 0 < G -> 0 <= Y ->
  plastic_steps omega sinf cosf (perfect_bond (N:=RN) K G Y) svd order x v hs nbrs dt es (plastic_start s0 d0 nbrs) = Ok c ->
  plastic_steps omega sinf cosf (perfect_bond (N:=RN) K G Y) svd order x v hs nbrs dt es' c = Ok c1 ->
  (forall k sg e, nth_error (p_stress c) k = Some sg -> nth_error (p_strain c) k = Some e -> mises (ent sg) <= Y /\ 0 <= e) /\
  (forall k e e1, nth_error (p_strain c) k = Some e -> nth_error (p_strain c1) k = Some e1 -> e <= e1).
Proof.
  intros * HG HY H1 H2.
  assert (Q : forall d s e r, l_step (perfect_bond (N:=RN) K G Y) dt d s e = Ok r -> (mises (ent s) <= Y /\ 0 <= e) -> (mises (ent (j_stress r)) <= Y /\ 0 <= j_eqps r) /\ e <= j_eqps r).
  { intros d s e r H [_ He]. injection H as <-. pose proof (C19_within_yield K G Y dt d s e HY). pose proof (proj1 (C19_plastic_strain K G Y dt d s e ltac:(lra) HY)) as E. change (T RN) with R in *. split; [split; [assumption|]|]; lra. }
  assert (EB : each_bond (fun s e => mises (ent s) <= Y /\ 0 <= e) c).
  { eapply inv_steps; [|exact H1|]; [intros d s e r A B; exact (proj1 (Q d s e r A B))|]. intros k sg e A B. destruct (start_bond _ _ _ _ _ _ A B) as [-> ->]. rewrite mises_mzero. lra. }
  split; [exact EB|]. exact (grow_steps _ _ _ _ _ _ _ _ _ _ _ (fun s e => mises (ent s) <= Y /\ 0 <= e) Q _ _ _ H2 EB).
Qed.
Print Assumptions C80_yield_perfect.

Section Hard.
  Variables (omega : R -> R -> R) (sinf cosf law slope : R -> R) (tri : M3 RN -> J2 RN -> R) (K G : R).
  Hypothesis (HG : 0 < G) (HK : 0 <= K) (HL : concave_law law slope) (HM : forall e, 0 <= e -> 2 * smallest <= law e).
  Lemma hard_step : forall dt d s e r, radial_return (N:=RN) law slope K G dt d s e = Ok r -> within law (1 / 10 ^ 16 * K) s e -> within law (1 / 10 ^ 16 * K) (j_stress r) (j_eqps r) /\ e <= j_eqps r.
  Proof.
    intros dt d s e r H [He _]. destruct (return_inv _ _ _ _ _ _ _ _ _ HG HK HL HM He H) as (A & B & _). change (T RN) with R in *. split; [split; [lra|exact B]|exact A].
  Qed.
  Lemma hard_history : forall svd order x (v hs : list R) nbrs dt s0 d0 es es' c c1,
    plastic_steps omega sinf cosf (Law (N:=RN) (radial_return (N:=RN) law slope K G) tri) svd order x v hs nbrs dt es (plastic_start s0 d0 nbrs) = Ok c ->
    plastic_steps omega sinf cosf (Law (N:=RN) (radial_return (N:=RN) law slope K G) tri) svd order x v hs nbrs dt es' c = Ok c1 ->
    (forall k sg e, nth_error (p_stress c) k = Some sg -> nth_error (p_strain c) k = Some e -> within law (1 / 10 ^ 16 * K) sg e) /\
    (forall k e e1, nth_error (p_strain c) k = Some e -> nth_error (p_strain c1) k = Some e1 -> e <= e1).
  Proof.
    intros * H1 H2. assert (EB : each_bond (within law (1 / 10 ^ 16 * K)) c).
    { eapply inv_steps; [|exact H1|]; [intros d s e r A B; exact (proj1 (hard_step dt d s e r A B))|]. intros k sg e A B. destruct (start_bond _ _ _ _ _ _ A B) as [-> ->]. split; [lra|]. rewrite mises_mzero. pose proof (HM 0 ltac:(lra)). pose proof (tol_nonneg K HK). rewrite smallest_eq in *. pose proof f20_pos. lra. }
    split; [exact EB|]. refine (grow_steps _ _ _ (Law (N:=RN) (radial_return (N:=RN) law slope K G) tri) _ _ _ _ _ _ dt (within law (1 / 10 ^ 16 * K)) _ _ _ _ H2 EB). intros d s e r A B. exact (hard_step dt d s e r A B).
  Qed.
End Hard.

(** The same with hardening: within the yield stress of the plastic strain reached, up to 1e-16
    times the bulk modulus. *)
Theorem C80_yield_power : forall omega sinf cosf K G Y eps0 n svd order x (v hs : list R) nbrs dt s0 d0 es es' c c1, 0 < G -> 0 <= K -> 2 * smallest <= Y -> 0 < eps0 -> 0 <= n <= 1 ->
  plastic_steps omega sinf cosf (power_bond (N:=RN) Rpower K G Y eps0 n) svd order x v hs nbrs dt es (plastic_start s0 d0 nbrs) = Ok c ->
  plastic_steps omega sinf cosf (power_bond (N:=RN) Rpower K G Y eps0 n) svd order x v hs nbrs dt es' c = Ok c1 ->
  (forall k sg e, nth_error (p_stress c) k = Some sg -> nth_error (p_strain c) k = Some e -> within (power_yield Y eps0 n) (1 / 10 ^ 16 * K) sg e) /\
  (forall k e e1, nth_error (p_strain c) k = Some e -> nth_error (p_strain c1) k = Some e1 -> e <= e1).
Proof.
  intros * HG HK HY H0 Hn. apply hard_history; auto; pose proof (smallest_eq) as SE; pose proof f20_pos as F; rewrite SE in HY.
  - apply (C60_power_law Y eps0 n); auto. lra.
  - intros e He. rewrite SE. eapply Rle_trans; [exact HY|]. eapply Rle_trans; [|apply (proj2 (proj2 (C60_power_law Y eps0 n ltac:(lra) H0 Hn)) 0 e); lra].
    unfold power_stress, Rpower. to_R. replace (1 + 0 / eps0) with 1 by (field; lra). rewrite ln_1, Rmult_0_r, exp_0. lra.
Qed.
Print Assumptions C80_yield_power.
Theorem C80_yield_satexp : forall omega sinf cosf K G Y Ysat c0 lin svd order x (v hs : list R) nbrs dt s0 d0 es es' c c1, 0 < G -> 0 <= K -> 2 * smallest <= Y <= Ysat -> 0 <= c0 -> 0 <= lin ->
  plastic_steps omega sinf cosf (satexp_bond (N:=RN) exp K G Y Ysat c0 lin) svd order x v hs nbrs dt es (plastic_start s0 d0 nbrs) = Ok c ->
  plastic_steps omega sinf cosf (satexp_bond (N:=RN) exp K G Y Ysat c0 lin) svd order x v hs nbrs dt es' c = Ok c1 ->
  (forall k sg e, nth_error (p_stress c) k = Some sg -> nth_error (p_strain c) k = Some e -> within (satexp_yield Y Ysat c0 lin) (1 / 10 ^ 16 * K) sg e) /\
  (forall k e e1, nth_error (p_strain c) k = Some e -> nth_error (p_strain c1) k = Some e1 -> e <= e1).
Proof.
  intros * HG HK [HY HS] Hc Hl. apply hard_history; auto; pose proof (smallest_eq) as SE; pose proof f20_pos as F; rewrite SE in HY.
  - apply (C60_saturation_exponential Y Ysat c0 lin); auto. lra.
  - intros e He. rewrite SE. eapply Rle_trans; [exact HY|]. eapply Rle_trans; [|apply (proj2 (proj2 (C60_saturation_exponential Y Ysat c0 lin ltac:(lra) Hc Hl)) 0 e); lra].
    unfold satexp_stress. to_R. replace (- c0 * 0) with 0 by ring. rewrite exp_0. lra.
Qed.
Print Assumptions C80_yield_satexp.

(** ** Rest *)

(** Within the yield stress none of the three materials does anything when nothing moves. *)
Theorem C80_laws_rest :
  (forall K G Y, rests (perfect_bond (N:=RN) K G Y) (fun s _ => mises (ent s) <= Y)) /\
  (forall K G Y eps0 n, rests (power_bond (N:=RN) Rpower K G Y eps0 n) (within (power_yield Y eps0 n) (1 / 10 ^ 16 * K))) /\
  (forall K G Y Ysat c lin, rests (satexp_bond (N:=RN) exp K G Y Ysat c lin) (within (satexp_yield Y Ysat c lin) (1 / 10 ^ 16 * K))).
Proof.
  split; [|split].
  - intros K G Y dt s e H. eexists. split; [reflexivity|]. rewrite perfect_rest by exact H. auto.
  - intros K G Y eps0 n dt s e [_ H]. exists (@j2 RN s (mises (ent s)) e). split; [|split; reflexivity]. apply return_rest. exact H.
  - intros K G Y Ysat c lin dt s e [_ H]. exists (@j2 RN s (mises (ent s)) e). split; [|split; reflexivity]. apply return_rest. exact H.
Qed.
Print Assumptions C80_laws_rest.

(** So a bond without influence keeps state, stress and plastic strain, and every bond does in a
    body that spins as a rigid body, whatever its deformation. *)
Theorem C80_kept : forall sinf cosf law Q dt x y vel (v : list R) nbrs (s : ba_state (N:=RN)) Fs Gs st sN kept (eN : list R) st1 js tri f,
  ba_plastic_force (N:=RN) sinf cosf law dt x y vel v nbrs s Fs Gs st sN kept eN = Ok (st1, js, tri, f) -> rests law Q ->
  forall p k j sg e, bond_at nbrs p k j -> om_of (s_wt s) k <= 0 -> nth_error sN k = Some sg -> nth_error eN k = Some e -> Q sg e ->
  exists r, nth_error js k = Some r /\ j_stress r = sg /\ j_eqps r = e /\ nth_error st1 k = nth_error st k.
Proof.
  intros * H RE p k j sg0 e0 HB Hom HS HE HQ. destruct (plastic_bond _ _ _ _ _ _ _ _ _ _ _ _ _ _ _ _ _ _ _ _ H) as (_ & _ & _ & _ & D). destruct (D p k j HB) as (b & o & sg & e & r & a & A1 & A2 & A3 & A4 & A5 & A6 & A7 & A8 & A9).
  rewrite HS in A3. injection A3 as <-. change (T RN) with R in *. rewrite HE in A4. injection A4 as <-. unfold step_of in A9. rewrite off_step in A9 by exact Hom. injection A9 as <-. cbn [fst snd] in *.
  destruct (RE dt _ _ HQ) as (r' & B1 & B2 & B3). rewrite B1 in A8. injection A8 as <-. exists r'. do 3 (split; [assumption|]). congruence.
Qed.
Print Assumptions C80_kept.
Theorem C80_spin : forall sinf cosf law Q dt x y u vel (v : list R) nbrs (s : ba_state (N:=RN)) Fs Gs st sN kept (eN : list R) st1 js tri f w c,
  ba_plastic_force (N:=RN) sinf cosf law dt x y vel v nbrs s Fs Gs st sN kept eN = Ok (st1, js, tri, f) -> rests law Q ->
  mutual nbrs -> apart nbrs x (s_w0 s) -> length y = length nbrs -> (forall p, (p < length nbrs)%nat -> at3 y p = vadd (at3 x p) (at3 u p)) ->
  reproduces nbrs x v (s_wt s) -> deformation_gradients (N:=RN) v u (s_wt s) nbrs = Ok Fs -> velocity_gradients (N:=RN) v vel (s_wt s) nbrs = Ok Gs ->
  spinning w c y vel -> forall p k j sg e, bond_at nbrs p k j -> nth_error sN k = Some sg -> nth_error eN k = Some e -> Q sg e ->
  exists r, nth_error js k = Some r /\ j_stress r = sg /\ j_eqps r = e.
Proof.
  intros * H RE MU AP Ly HY RP HF HG SP p k j sg0 e0 HB HS HE HQ. destruct (Rlt_dec 0 (om_of (s_wt s) k)) as [O|O].
  - destruct (plastic_bond _ _ _ _ _ _ _ _ _ _ _ _ _ _ _ _ _ _ _ _ H) as (_ & _ & _ & _ & D). destruct (D p k j HB) as (b & o & sg & e & r & a & A1 & A2 & A3 & A4 & A5 & A6 & A7 & A8 & A9).
    rewrite HS in A3. injection A3 as <-. change (T RN) with R in *. rewrite HE in A4. injection A4 as <-.
    pose proof (spin_step_of sinf cosf dt x y u vel v nbrs s Fs Gs w c MU AP Ly HY RP HF HG SP p k j b o HB O A9) as RS.
    pose proof (spin_rate sinf cosf dt w (b_V b) (b_R b)) as SR. rewrite RS in SR. cbn [snd] in SR. rewrite SR in A8. destruct (RE dt _ _ HQ) as (r' & B1 & B2 & B3). rewrite B1 in A8. injection A8 as <-. eauto.
  - destruct (C80_kept _ _ _ _ _ _ _ _ _ _ _ _ _ _ _ _ _ _ _ _ _ H RE p k j sg0 e0 HB ltac:(lra) HS HE HQ) as (r & A & B & C & _). eauto.
Qed.
Print Assumptions C80_spin.

(** ** Triaxiality *)

(** The perfectly plastic and the power law material report the triaxiality of the new stress. *)
Theorem C80_triaxiality : forall sinf cosf law dt x y vel (v : list R) nbrs (s : ba_state (N:=RN)) Fs Gs st sN kept (eN : list R) st1 js tri f,
  ba_plastic_force (N:=RN) sinf cosf law dt x y vel v nbrs s Fs Gs st sN kept eN = Ok (st1, js, tri, f) ->
  (exists K G Y, law = perfect_bond (N:=RN) K G Y) \/
  (exists K G Y eps0 n, law = power_bond (N:=RN) Rpower K G Y eps0 n /\ 0 < G /\ 0 <= K /\ 2 * smallest <= Y /\ 0 < eps0 /\ 0 <= n <= 1 /\ Forall (Rle 0) eN) ->
  tri = map (fun r => triaxial (ent (j_stress r))) js /\ Forall (fun r => j_vm r = mises (ent (j_stress r))) js.
Proof.
  intros * H HL. apply plastic_parts in H as (kin & _ & HJ & HT & _). destruct (each_spec _ _ _ _ _ HJ) as (L1 & _ & _ & DJ). destruct (tri_spec _ _ _ _ HT) as (L2 & L3 & DT).
  assert (VM : Forall (fun r : J2 RN => j_vm r = mises (ent (j_stress r))) js).
  { apply Forall_forall. intros r Hr. apply In_nth_error in Hr as [k Hk]. destruct (nth_error (map snd kin) k) as [d|] eqn:Ed; [|exfalso; apply nth_error_None in Ed; assert (k < length js)%nat by (apply nth_error_Some; congruence); lia].
    destruct (DJ k d Ed) as (sg & e & r' & B1 & B2 & B3 & B4). rewrite Hk in B3. injection B3 as <-. destruct HL as [(K & G & Y & ->)|(K & G & Y & eps0 & n & -> & HG & HK & HY & H0 & Hn & FE)].
    - injection B4 as <-. apply C19_reported.
    - assert (He : 0 <= e) by (rewrite Forall_forall in FE; apply FE; eapply nth_error_In; eauto). pose proof (smallest_eq) as SE. pose proof f20_pos as F.
      eapply (return_inv _ _ K G dt d sg e r HG HK); [apply (C60_power_law Y eps0 n); auto; rewrite SE in HY; lra| |exact He|exact B4].
      intros e' He'. eapply Rle_trans; [exact HY|]. rewrite SE in HY. eapply Rle_trans; [|apply (proj2 (proj2 (C60_power_law Y eps0 n ltac:(lra) H0 Hn)) 0 e'); lra].
      unfold power_stress, Rpower. to_R. replace (1 + 0 / eps0) with 1 by (field; lra). rewrite ln_1, Rmult_0_r, exp_0. lra. }
  split; [|exact VM]. apply nth_error_ext. intros k. rewrite nth_error_map. destruct (nth_error js k) as [r|] eqn:Ek.
  - destruct (DT k r Ek) as (a & _ & ->). cbn [option_map]. f_equal. transitivity (triaxiality r); [destruct HL as [(K & G & Y & ->)|(K & G & Y & eps0 & n & -> & _)]; reflexivity|].
    rewrite Forall_forall in VM. specialize (VM r (nth_error_In _ _ Ek)). unfold triaxiality, triaxial. rewrite nmax_R, trace_ent, smallest_eq. change (T RN) with R in *. rewrite VM. reflexivity.
  - apply nth_error_None. apply nth_error_None in Ek. change (T RN) with R in *. lia.
Qed.
Print Assumptions C80_triaxiality.

Lemma each_total : forall step ds ss (es : list R), length ss = length ds -> length es = length ds ->
  (forall k d s e, nth_error ds k = Some d -> nth_error ss k = Some s -> nth_error es k = Some e -> exists r, step d s e = Ok r) -> exists js, each_point (N:=RN) step ds ss es = Ok js.
Proof.
  intros step. induction ds as [|d ds IH]; intros [|s ss] [|e es] L1 L2 H; try discriminate; [now exists []|]. cbn [each_point]. destruct (H 0%nat d s e eq_refl eq_refl eq_refl) as [r ->]. cbn [bind].
  destruct (IH ss es) as [js E]; [now injection L1|now injection L2|intros k; apply (H (S k))|]. change (T RN) with R in *. rewrite E. cbn [bind]. eauto.
Qed.
Lemma tri_total : forall tri kept js, length kept = length js -> exists l, triaxialities (N:=RN) tri kept js = Ok l.
Proof. intros tri. induction kept as [|a kept IH]; intros [|r js] H; try discriminate; [now exists []|]. cbn [triaxialities]. destruct (IH js) as [l ->]; [now injection H|]. cbn [bind]. eauto. Qed.
Lemma plastic_runs : forall sinf cosf (law : bond_law RN) dt x y vel (v : list R) nbrs (s : ba_state (N:=RN)) Fs Gs st (sN kept : list (M3 RN)) (eN : list R),
  ba_data (length nbrs) nbrs x y vel v (s_w0 s) (s_wt s) -> bonds_fit (length nbrs) nbrs -> apart nbrs x (s_w0 s) ->
  length Fs = length nbrs -> length Gs = length nbrs -> length st = num_bonds nbrs -> length sN = num_bonds nbrs -> length kept = num_bonds nbrs -> length eN = num_bonds nbrs ->
  (forall p, (p < length nbrs)%nat -> det3 (ten_of Fs p) <> 0) ->
  (forall p k j Fb, bond_at nbrs p k j -> 0 < om_of (s_wt s) k -> bond_level (average (ten_of Fs p) (ten_of Fs j)) (between x p j) (between y p j) Fb -> det3 Fb <> 0) ->
  (forall p k j b o sg e, bond_at nbrs p k j -> nth_error st k = Some b -> nth_error sN k = Some sg -> nth_error eN k = Some e -> step_of sinf cosf dt x y vel Fs Gs (om_of (s_wt s) k) p j b = Ok o -> exists r, l_step law dt (snd o) sg e = Ok r) ->
  exists r, ba_plastic_force (N:=RN) sinf cosf law dt x y vel v nbrs s Fs Gs st sN kept eN = Ok r.
Proof.
  intros * HD FIT AP LF LG Ls LN LK LE NP NB HS.
  assert (RUN : forall ss, length ss = num_bonds nbrs -> exists r, ba_compute_force (N:=RN) sinf cosf given dt x y vel v nbrs s Fs Gs st ss = Ok r).
  { intros ss L. destruct (C78_stops sinf cosf given dt x y vel v nbrs s Fs Gs st ss HD FIT AP LF LG Ls L) as [[R _]|[_ [(p & Hp & Z)|(p & k & j & Fb & A & B & C & Z)]]]; [exact R|exfalso; eapply NP; eauto|exfalso; eapply NB; eauto]. }
  destruct (RUN sN LN) as ([[st1 s1] f] & H). apply force_parts in H as (kin & Is & out & HK & _). pose proof (kin_spec _ _ _ _ _ _ _ _ _ _ _ _ HK) as [LK' D].
  destruct (each_total (l_step law dt) (map snd kin) sN eN) as [js HJ]; [rewrite map_length; lia|rewrite map_length; change (T RN) with R in *; lia| |].
  { intros k d sg e A B C. rewrite nth_error_map in A. destruct (nth_error kin k) as [o|] eqn:Ek; [|discriminate]. injection A as <-. destruct (bond_exists nbrs k) as (p & j & HB); [rewrite <- LK'; apply nth_error_Some; congruence|].
    destruct (D p k j HB) as (w & b & o' & A1 & A2 & A3 & A4). rewrite Ek in A3. injection A3 as <-. eapply HS; eauto. now rewrite (om_nth _ _ _ A1). }
  destruct (each_spec _ _ _ _ _ HJ) as (LJ & _). rewrite map_length in LJ. destruct (tri_total (l_tri law) kept js) as [tri HT]; [lia|].
  destruct (RUN (map j_stress js)) as ([[st2 s2] f2] & H2); [rewrite map_length; lia|].
  assert (E : s2 = map j_stress js /\ st2 = map fst kin). { pose proof H2 as H3. apply force_parts in H3 as (kin' & Is' & out' & HK' & -> & -> & _). rewrite HK in HK'. injection HK' as <-. split; [|reflexivity]. exact (snd_combine _ _ kin (map j_stress js) ltac:(rewrite map_length; lia)). }
  destruct E as [-> ->]. exists (map fst kin, js, tri, f2). apply plastic_parts. exists kin. auto.
Qed.

(** The perfectly plastic material finishes every evaluation with regular gradients. *)
Theorem C80_runs : forall sinf cosf K G Y dt x y vel (v : list R) nbrs (s : ba_state (N:=RN)) Fs Gs st sN kept (eN : list R),
  ba_data (length nbrs) nbrs x y vel v (s_w0 s) (s_wt s) -> bonds_fit (length nbrs) nbrs -> apart nbrs x (s_w0 s) ->
  length Fs = length nbrs -> length Gs = length nbrs -> length st = num_bonds nbrs -> length sN = num_bonds nbrs -> length kept = num_bonds nbrs -> length eN = num_bonds nbrs ->
  (forall p, (p < length nbrs)%nat -> det3 (ten_of Fs p) <> 0) ->
  (forall p k j Fb, bond_at nbrs p k j -> 0 < om_of (s_wt s) k -> bond_level (average (ten_of Fs p) (ten_of Fs j)) (between x p j) (between y p j) Fb -> det3 Fb <> 0) ->
  exists r, ba_plastic_force (N:=RN) sinf cosf (perfect_bond (N:=RN) K G Y) dt x y vel v nbrs s Fs Gs st sN kept eN = Ok r.
Proof. intros. apply plastic_runs; auto. intros. eexists. reflexivity. Qed.
Print Assumptions C80_runs.

(** ** The cube of C78 pulled to twice its length *)
Definition cube_pull : mat := fun i j => if Nat.eqb i j then (if Nat.eqb i 0 then 1 else 0) else 0.
Definition cube_rate : M3 RN := @m3 RN (1 / 2) 0 0 0 0 0 0 0 0.
Definition cube_e : evaluation := (repeat 0 8, cube_dmg, cube_u, cube_u).
Lemma mzero_trace : tr3 (ent (mzero (N:=RN))) = 0.
Proof. unfold tr3, sum3. cbn. ring. Qed.
Lemma cube_setup : exists s0 s1 Fs Gs,
  ba_initialize (N:=RN) ex_om cube_svd 1 cube_x cube_v (repeat 1 8) cube_nbrs = Ok s0 /\ apart cube_nbrs cube_x (s_w0 s0) /\
  ba_precompute (N:=RN) ex_om cube_svd 1 cube_x cube_v (repeat 1 8) cube_nbrs (repeat 0 8) (repeat 0 8) cube_dmg cube_u cube_u s0 = Ok (s1, Fs, Gs) /\
  ba_data 8 cube_nbrs cube_x (moved cube_x cube_u) cube_u cube_v (s_w0 s1) (s_wt s1) /\ apart cube_nbrs cube_x (s_w0 s1) /\ length Fs = 8%nat /\ length Gs = 8%nat /\
  (forall p, (p < 8)%nat -> eq3 (ten_of Fs p) cube_stretch) /\ (forall p, (p < 8)%nat -> eq3 (ten_of Gs p) cube_pull) /\
  (forall p k j, bond_at cube_nbrs p k j -> 0 < om_of (s_wt s1) k /\
     bond_level (average (ten_of Fs p) (ten_of Fs j)) (between cube_x p j) (between (moved cube_x cube_u) p j) cube_stretch /\
     bond_level (average (ten_of Gs p) (ten_of Gs j)) (between cube_x p j) (between cube_u p j) cube_pull).
Proof.
  destruct (C78_met sin cos 1 1) as (s0 & _ & _ & HI & AP & _). assert (FIT : bonds_fit (length cube_x) cube_nbrs) by (split; [cbn; lia|exact (proj1 (proj2 cube_mutual))]).
  destruct (C77_runs ex_om cube_svd 1 cube_x cube_v (repeat 1 8) cube_nbrs FIT) as [(s0' & HI' & L1 & L2) HP]; [cbn; lia|cbn; lia|]. rewrite HI in HI'. injection HI' as <-.
  destruct (HP (repeat 0 8) (repeat 0 8) cube_dmg cube_u cube_u s0) as (s1 & Fs & Gs & E & L3 & L4 & L5); auto; try (cbn; lia).
  assert (RP : reported cube_nbrs (repeat 0 8) (repeat 0 (num_bonds cube_nbrs)) [(repeat 0 8, cube_dmg, cube_u, cube_u)]) by (split; [intros; left; reflexivity|exact Logic.I]).
  destruct (initialize_fresh _ _ _ _ _ _ _ _ HI) as (A & B & W). apply volumes_spec in W as [W1 W2].
  destruct (precompute_fresh _ _ _ _ _ _ _ _ _ _ _ _ _ _ _ _ _ E A B (proj1 RP)) as (_ & FR & HD & HV & E0).
  assert (LG : length Gs = length cube_nbrs). { apply gradients_spec in HV as [HV' _]. exact HV'. }
  assert (FA : forall p, (p < 8)%nat -> eq3 (ten_of Fs p) cube_stretch).
  { intros p Hp. assert (Hn : nth_error cube_nbrs p = Some (nth p cube_nbrs [])) by now apply nth_error_nth'. destruct (cube_resolved p Hp) as (X & h & bs & R1 & R2 & R3).
    destruct (C77_affine ex_om cube_svd 1 cube_x cube_v (repeat 1 8) cube_nbrs s0 (repeat 0 8) [] s0 (repeat 0 8) (repeat 0 8) cube_dmg cube_u cube_u s1 Fs Gs p X h bs (nth p cube_nbrs []) cube_stretch vzero HI eq_refl E RP Hn R1 R2 ltac:(lia) R3) as (F & F1 & F2).
    - intros j Y U _ HY HU i Hi. clear -HY HU Hi. do 8 (destruct j as [|j]; [cbn in HY, HU; injection HY as <-; injection HU as <-; i3 i Hi; unfold image, sum3, cube_stretch; cbn; to_R; change (T RN) with R; lra|]). destruct j; discriminate.
    - unfold ten_of. rewrite (nth_error_nth _ _ mzero F1). exact F2. }
  assert (RE : reproduces cube_nbrs cube_x cube_v (s_wt s1)).
  { apply all_fresh_iff in FR. destruct (C78_weights _ _ _ _ _ _ _ _ _ FR) as (_ & _ & W3); [intros; unfold ex_om; lra|apply cube_even|apply cube_even|]. apply W3; [lia|exact cube_resolved]. }
  assert (GA : forall p, (p < 8)%nat -> eq3 (ten_of Gs p) cube_pull).
  { intros p Hp. apply (affine_gradient cube_pull vzero cube_x cube_u cube_v (s_wt s1) cube_nbrs Gs RE cube_mutual eq_refl); auto. intros q Hq i Hi. clear -Hq Hi. unfold at3, cube_x, cube_u.
    do 8 (destruct q as [|q]; [i3 i Hi; unfold image, sum3, cube_pull; cbn; to_R; change (T RN) with R; lra|]). cbn in Hq. lia. }
  exists s0, s1, Fs, Gs. split; [exact HI|]. split; [exact AP|]. split; [exact E|]. split; [unfold ba_data; rewrite E0; repeat (split; [first [reflexivity|assumption]|]); exact L3|]. split; [now rewrite E0|]. split; [exact L5|]. split; [exact LG|]. split; [exact FA|]. split; [exact GA|].
  intros p k j HB. destruct (cube_bond p k j HB) as (Z1 & Z2 & Z3). split; [|split].
  - destruct (fresh_bond _ _ _ _ _ _ _ _ _ FR _ _ _ HB) as (w & d & C1 & C2 & C3 & _). rewrite (om_nth _ _ _ C1), C3. apply nth_error_In, repeat_spec in C2. subst d. unfold ex_om. change (T RN) with R. lra.
  - split.
    + clear -Z1 Z2. intros i Hi. unfold between, at3, moved, cube_x, cube_u. do 8 (destruct p as [|p]; [do 8 (destruct j as [|j]; [i3 i Hi; unfold image, sum3, cube_stretch; cbn; to_R; change (T RN) with R; lra|]); lia|]). lia.
    + intros t _ i Hi. unfold image, sum3, average. rewrite !(FA p Z1 i), !(FA j Z2 i) by lia. field.
  - split.
    + clear -Z1 Z2. intros i Hi. unfold between, at3, moved, cube_x, cube_u. do 8 (destruct p as [|p]; [do 8 (destruct j as [|j]; [i3 i Hi; unfold image, sum3, cube_pull; cbn; to_R; change (T RN) with R; lra|]); lia|]). lia.
    + intros t _ i Hi. unfold image, sum3, average. rewrite !(GA p Z1 i), !(GA j Z2 i) by lia. field.
Qed.
(** every bond deforms at the rate 1/2 along the first axis *)
Lemma cube_rates : forall Fs Gs (s1 : ba_state (N:=RN)), (forall p k j, bond_at cube_nbrs p k j -> 0 < om_of (s_wt s1) k /\
     bond_level (average (ten_of Fs p) (ten_of Fs j)) (between cube_x p j) (between (moved cube_x cube_u) p j) cube_stretch /\
     bond_level (average (ten_of Gs p) (ten_of Gs j)) (between cube_x p j) (between cube_u p j) cube_pull) ->
  forall p k j b o, bond_at cube_nbrs p k j -> nth_error (ba_bonds (N:=RN) cube_nbrs) k = Some b -> step_of sin cos 1 cube_x (moved cube_x cube_u) cube_u Fs Gs (om_of (s_wt s1) k) p j b = Ok o -> snd o = cube_rate.
Proof.
  intros Fs Gs s1 H p k j b o HB Hb HO. destruct (H p k j HB) as (O & HF & HG). destruct (cube_bond p k j HB) as (_ & _ & Z3). apply nth_error_In, repeat_spec in Hb. subst b.
  assert (NZ : vdot (between cube_x p j) (between cube_x p j) <> 0) by (rewrite Z3; lra).
  destruct (ProofBondStress.bond_law _ _ _ _ _ _ _ _ _ _ _ _ _ _ _ HO O NZ HF HG) as (L & E1 & _ & E2). cbn [b_V b_R] in E2.
  assert (EL : L = cube_rate).
  { apply M3_ext. intros i c Hi Hc. pose proof (E1 i 0%nat Hi ltac:(lia)) as A0. pose proof (E1 i 1%nat Hi ltac:(lia)) as A1. pose proof (E1 i 2%nat Hi ltac:(lia)) as A2. unfold prod, sum3, cube_stretch, cube_pull in A0, A1, A2. cbn [Nat.eqb] in A0, A1, A2.
    clear -Hi Hc A0 A1 A2. revert A0 A1 A2. ij i c Hi Hc; cbn; to_R; change (T RN) with R; intros; lra. }
  subst L. assert (SY : symmetric (ent cube_rate)) by (intros i c Hi Hc; clear -Hi Hc; ij i c Hi Hc; reflexivity).
  assert (Q1 : b_R (fst o) = mone).
  { refine (proj1 (C18_pure_stretch_partial 1 cube_rate mone mone _ _ _ SY _ _ _ E2)).
    - intros i c Hi Hc. clear -Hi Hc. ij i c Hi Hc; reflexivity.
    - unfold det3, spherical_minus, tr3, sum3. cbn. lra.
    - intros i c Hi Hc. clear -Hi Hc. unfold prod, sum3. ij i c Hi Hc; cbn; lra. }
  pose proof (step_rate sin cos 1 cube_rate mone mone) as SR. cbv zeta in SR. rewrite E2 in SR. cbn [fst snd] in SR. rewrite SR, Q1. clear. apply M3_ext. intros i c Hi Hc. ij i c Hi Hc; cbn; to_R; change (T RN) with R; unfold half; cbn; lra.
Qed.

Lemma fresh_tri : forall expf K G Y Ysat c lin r, l_tri (satexp_bond (N:=RN) expf K G Y Ysat c lin) mzero r = 0.
Proof. intros. cbn [satexp_bond l_tri]. rewrite trace_ent, mzero_trace. to_R. unfold Rdiv. ring. Qed.

(** The saturation exponential material reports the mean stress of two steps before over the
    present von Mises stress: 0 in the first step whatever the load.  So for the cube, with
    every bond at 1/2. *)
Theorem C80_triaxiality_refuted :
  (forall omega sinf cosf expf K G Y Ysat c0 lin svd order x (v hs : list R) nbrs dt e0 e1 b c c1 c2 js0 tri0 f0 js tri f, let law := satexp_bond (N:=RN) expf K G Y Ysat c0 lin in
     plastic_step omega sinf cosf law svd order x v hs nbrs dt e0 c = Ok (c1, js0, tri0, f0) ->
     plastic_step omega sinf cosf law svd order x v hs nbrs dt e1 c1 = Ok (c2, js, tri, f) ->
     forall k r, nth_error js k = Some r -> nth_error (p_stress c) k = Some b -> nth_error tri k = Some (tr3 (ent b) / (3 * Rmax smallest (j_vm r)))) /\
  (forall omega sinf cosf expf K G Y Ysat c0 lin svd order x (v hs : list R) nbrs dt e s0 d0 c1 js tri f,
     plastic_step omega sinf cosf (satexp_bond (N:=RN) expf K G Y Ysat c0 lin) svd order x v hs nbrs dt e (plastic_start s0 d0 nbrs) = Ok (c1, js, tri, f) -> Forall (eq 0) tri) /\
  exists s0 c1 js tri f, ba_initialize (N:=RN) ex_om cube_svd 1 cube_x cube_v (repeat 1 8) cube_nbrs = Ok s0 /\
    plastic_step ex_om sin cos (satexp_bond (N:=RN) exp 1 1 2 2 0 0) cube_svd 1 cube_x cube_v (repeat 1 8) cube_nbrs 1 cube_e (plastic_start s0 (repeat 0 8) cube_nbrs) = Ok (c1, js, tri, f) /\
    length js = 24%nat /\ Forall (fun r => triaxial (ent (j_stress r)) = 1 / 2) js.
Proof.
  split; [|split].
  - intros * H1 H2 k r Hr Hb. destruct e0 as [[[d0 g0] u0] v0], e1 as [[[d1 g1] u1] v1]. unfold plastic_step in H1. apply bind_Ok in H1 as ([[s1 Fs] Gs] & HP & H1). apply bind_Ok in H1 as ([[[st1 js'] tri'] f'] & HC & H1). injection H1 as <- <- <- <-.
    unfold plastic_step in H2. apply bind_Ok in H2 as ([[s2 Fs2] Gs2] & HP2 & H2). apply bind_Ok in H2 as ([[[st2 js2] tri2] f2] & HC2 & H2). injection H2 as <- <- <- <-. cbn [p_before] in HC2.
    apply plastic_parts in HC2 as (kin & _ & _ & HT & _). apply tri_spec in HT as (_ & _ & D). destruct (D k r Hr) as (a & A1 & A2). rewrite Hb in A1. injection A1 as <-. refine (eq_trans A2 _). f_equal. subst law. cbn [satexp_bond l_tri]. rewrite trace_ent, nmax_R, smallest_eq. reflexivity.
  - intros * H. destruct e as [[[d1 g1] u1] v1]. unfold plastic_step in H. apply bind_Ok in H as ([[s1 Fs] Gs] & HP & H). apply bind_Ok in H as ([[[st1 js'] tri'] f'] & HC & H). injection H as <- <- <- <-.
    apply plastic_parts in HC as (kin & _ & _ & HT & _). apply tri_spec in HT as (_ & LT & D). apply Forall_forall. intros t Ht. apply In_nth_error in Ht as [k Hk]. assert (HL : (k < length js')%nat) by (rewrite <- LT; apply nth_error_Some; change (T RN) with R in *; congruence).
    destruct (nth_error js' k) as [r|] eqn:Er; [|apply nth_error_None in Er; lia]. destruct (D k r Er) as (a & A1 & A2). apply nth_error_In, repeat_spec in A1. subst a. change (T RN) with R in *. rewrite A2 in Hk. injection Hk as <-. exact (eq_sym (fresh_tri expf K G Y Ysat c0 lin r)).
  - destruct cube_setup as (s0 & s1 & Fs & Gs & HI & AP & E & HD & AP1 & LF & LG & FA & GA & BL). pose proof (cube_rates Fs Gs s1 BL) as CR.
    assert (ME : mises (elastic_step 1 1 1 (ent cube_rate) (ent mzero)) = 1).
    { transitivity (sqrt 1); [|apply sqrt_1]. unfold mises. f_equal. unfold ddot, dev_of, elastic_step, hooke_of, dev_of, scaled, tr3, sum3, kron. cbn. field. }
    assert (L0 : satexp_stress (N:=RN) exp 2 2 0 0 0 = 2) by (unfold satexp_stress; to_R; ring).
    destruct (C60_elastic (satexp_stress (N:=RN) exp 2 2 0 0) (satexp_slope (N:=RN) exp 2 2 0 0) 1 1 1 cube_rate mzero 0) as (r & R1 & R2 & R3 & R4); [rewrite ME; change (T RN) with R in *; rewrite L0; lra|].
    assert (TR : triaxial (ent (j_stress r)) = 1 / 2).
    { unfold triaxial. rewrite (mises_eq3 _ _ R2), ME, (tr3_eq3 _ _ R2). replace (tr3 (elastic_step 1 1 1 (ent cube_rate) (ent mzero))) with (3 / 2) by (unfold elastic_step, hooke_of, dev_of, scaled, tr3, sum3, kron; cbn; field).
      rewrite Rmax_right; [field|]. unfold smallest. apply Rmult_le_reg_r with (10 ^ 20); [apply pow_lt; lra|]. unfold Rdiv. rewrite Rmult_assoc, Rinv_l by (apply pow_nonzero; lra). assert (1 <= 10 ^ 20) by (apply pow_R1_Rle; lra). lra. }
    destruct (plastic_runs sin cos (satexp_bond (N:=RN) exp 1 1 2 2 0 0) 1 cube_x (moved cube_x cube_u) cube_u cube_v cube_nbrs s1 Fs Gs (ba_bonds (N:=RN) cube_nbrs) (ba_stresses (N:=RN) cube_nbrs) (ba_stresses (N:=RN) cube_nbrs) (ba_plastic_strains (N:=RN) cube_nbrs)) as ([[[st1 js] tri] f] & HR); auto.
    + split; [cbn; lia|exact (proj1 (proj2 cube_mutual))].
    + intros p Hp. unfold det3. rewrite !(FA p Hp _ _) by lia. unfold cube_stretch. cbn. lra.
    + intros p k j Fb HB _ HL. destruct (BL p k j HB) as (_ & HL' & _). destruct (cube_bond p k j HB) as (_ & _ & Z3). assert (EF : eq3 Fb cube_stretch) by (eapply bond_level_unique; [|exact HL|exact HL']; rewrite Z3; lra).
      unfold det3. rewrite !(EF _ _) by lia. unfold cube_stretch. cbn. lra.
    + intros p k j b o sg e HB Hb Hs He HO. rewrite (CR p k j b o HB Hb HO). apply nth_error_In, repeat_spec in Hs. apply nth_error_In, repeat_spec in He. subst. exists r. exact R1.
    + exists s0, (Plastic s1 (repeat 0 8) st1 (map j_stress js) (ba_stresses (N:=RN) cube_nbrs) (map j_eqps js)), js, tri, f. split; [exact HI|]. split; [unfold plastic_step, cube_e, plastic_start; cbn [p_ba p_damage p_bonds p_stress p_before p_strain]; rewrite E; cbn [bind]; rewrite HR; reflexivity|].
      destruct (plastic_bond _ _ _ _ _ _ _ _ _ _ _ _ _ _ _ _ _ _ _ _ HR) as (LJ & _ & _ & _ & D). split; [exact LJ|]. apply Forall_forall. intros r' Hr. apply In_nth_error in Hr as [k Hk]. destruct (bond_exists cube_nbrs k) as (p & j & HB); [rewrite <- LJ; apply nth_error_Some; congruence|].
      destruct (D p k j HB) as (b & o & sg & e & r2 & a & A1 & A2 & A3 & A4 & A5 & A6 & A7 & A8 & A9). rewrite Hk in A6. injection A6 as <-. rewrite (CR p k j b o HB A1 A9) in A8. apply nth_error_In, repeat_spec in A3. apply nth_error_In, repeat_spec in A4. subst sg e.
      assert (ER : Ok r' = Ok r) by (rewrite <- A8; exact R1). injection ER as ->. exact TR.
Qed.
Print Assumptions C80_triaxiality_refuted.

(** ** The hypotheses can be met: the cube, perfectly plastic, beyond yield *)
Example C80_met : exists s0 c1 js tri f, ba_initialize (N:=RN) ex_om cube_svd 1 cube_x cube_v (repeat 1 8) cube_nbrs = Ok s0 /\ apart cube_nbrs cube_x (s_w0 s0) /\
  reported cube_nbrs (repeat 0 8) (repeat 0 (num_bonds cube_nbrs)) [cube_e] /\
  plastic_step ex_om sin cos (perfect_bond (N:=RN) 1 1 (1 / 2)) cube_svd 1 cube_x cube_v (repeat 1 8) cube_nbrs 1 cube_e (plastic_start s0 (repeat 0 8) cube_nbrs) = Ok (c1, js, tri, f) /\
  momentum cube_v f = vzero /\ moment cube_v (moved cube_x cube_u) f = vzero /\ Forall (fun sg => mises (ent sg) = 1 / 2) (p_stress c1).
Proof.
  destruct cube_setup as (s0 & s1 & Fs & Gs & HI & AP & E & HD & AP1 & LF & LG & FA & GA & BL). pose proof (cube_rates Fs Gs s1 BL) as CR.
  assert (RP : reported cube_nbrs (repeat 0 8) (repeat 0 (num_bonds cube_nbrs)) [cube_e]) by (split; [intros; left; reflexivity|exact Logic.I]).
  assert (ME : mises (elastic_step 1 1 1 (ent cube_rate) (ent mzero)) = 1).
  { transitivity (sqrt 1); [|apply sqrt_1]. unfold mises. f_equal. unfold ddot, dev_of, elastic_step, hooke_of, dev_of, scaled, tr3, sum3, kron. cbn. field. }
  destruct (C80_runs sin cos 1 1 (1 / 2) 1 cube_x (moved cube_x cube_u) cube_u cube_v cube_nbrs s1 Fs Gs (ba_bonds (N:=RN) cube_nbrs) (ba_stresses (N:=RN) cube_nbrs) (ba_stresses (N:=RN) cube_nbrs) (ba_plastic_strains (N:=RN) cube_nbrs)) as ([[[st1 js] tri] f] & HR); auto.
  - split; [cbn; lia|exact (proj1 (proj2 cube_mutual))].
  - intros p Hp. unfold det3. rewrite !(FA p Hp _ _) by lia. unfold cube_stretch. cbn. lra.
  - intros p k j Fb HB _ HL. destruct (BL p k j HB) as (_ & HL' & _). destruct (cube_bond p k j HB) as (_ & _ & Z3). assert (EF : eq3 Fb cube_stretch) by (eapply bond_level_unique; [|exact HL|exact HL']; rewrite Z3; lra).
    unfold det3. rewrite !(EF _ _) by lia. unfold cube_stretch. cbn. lra.
  - assert (FS : plastic_step ex_om sin cos (perfect_bond (N:=RN) 1 1 (1 / 2)) cube_svd 1 cube_x cube_v (repeat 1 8) cube_nbrs 1 cube_e (plastic_start s0 (repeat 0 8) cube_nbrs) = Ok (Plastic s1 (repeat 0 8) st1 (map j_stress js) (ba_stresses (N:=RN) cube_nbrs) (map j_eqps js), js, tri, f)).
    { unfold plastic_step, cube_e, plastic_start. cbn [p_ba p_damage p_bonds p_stress p_before p_strain]. rewrite E. cbn [bind]. rewrite HR. reflexivity. }
    destruct (C80_history ex_om sin cos (perfect_bond (N:=RN) 1 1 (1 / 2)) cube_svd 1 cube_x cube_v (repeat 1 8) cube_nbrs 1 s0 (repeat 0 8) [] _ (repeat 0 8) cube_dmg cube_u cube_u _ js tri f HI eq_refl FS) as [M1 M2]; auto.
    + exact cube_mutual.
    + apply C80_symmetric.
    + apply cube_even.
    + intros. unfold ex_om. lra.
    + constructor; [|constructor]. split; [apply cube_even|reflexivity].
    + exists s0. do 4 eexists. split; [exact HI|]. split; [exact AP|]. split; [exact RP|]. split; [exact FS|]. split; [exact M1|]. split; [apply M2; [lia|exact cube_resolved]|].
      destruct (plastic_bond _ _ _ _ _ _ _ _ _ _ _ _ _ _ _ _ _ _ _ _ HR) as (LJ & _ & _ & _ & D). cbn [p_stress]. apply Forall_forall. intros sg0 Hr. apply in_map_iff in Hr as (r' & <- & Hr). apply In_nth_error in Hr as [k Hk]. destruct (bond_exists cube_nbrs k) as (p & j & HB); [rewrite <- LJ; apply nth_error_Some; congruence|].
      destruct (D p k j HB) as (b & o & sg & e & r2 & a & A1 & A2 & A3 & A4 & A5 & A6 & A7 & A8 & A9). rewrite Hk in A6. injection A6 as <-. rewrite (CR p k j b o HB A1 A9) in A8. apply nth_error_In, repeat_spec in A3. apply nth_error_In, repeat_spec in A4. subst sg e. injection A8 as <-.
      apply C19_plastic; [lra|rewrite ME; lra|]. assert (MN : norm3 (dev_of (elastic_step 1 1 1 (ent cube_rate) (ent mzero))) = sqrt (2 / 3)) by (rewrite mises_norm in ME; match goal with |- ?n = _ => transitivity (sqrt (2 / 3) * (sqrt (3 / 2) * n)) end; [rewrite <- Rmult_assoc, s23_32; ring|rewrite ME; ring]). rewrite MN.
      apply Rle_trans with (1 / 2); [|apply Rsqr_incr_0_var; [rewrite Rsqr_sqrt by lra; unfold Rsqr; lra|apply sqrt_pos]]. unfold smallest. apply Rmult_le_reg_r with (10 ^ 20); [apply pow_lt; lra|]. unfold Rdiv at 1. rewrite Rmult_assoc, Rinv_l by (apply pow_nonzero; lra). assert (10 ^ 1 <= 10 ^ 20) by (apply Rle_pow; [lra|lia]). cbn [pow] in *. lra.
Qed.
