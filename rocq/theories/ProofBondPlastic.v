(** * Plastic bonds *)
From Coq Require Import Reals Lra Lia.
From Verif Require Import Base Num ModelNeigh SpecDamage ModelForce SpecForce ModelCorr SpecCorr ModelPlastic ModelGlobal ModelJ2 SpecJ2
  ProofData ProofDamage ProofForce ProofKernels ProofCorr ProofCorr2 ProofCorr3 ProofCorr4 ProofCorr5 ProofTangent ProofRot ProofRot2 ProofJ2 ProofJ22 ProofJ23 ProofJ24 ProofBondAssoc ProofBondAssoc2 ProofBondAssoc3 ProofBondAssoc4 ProofBondForce ProofBondForce2 ProofBondForce3 ProofBondForce4 ProofBondForce5 ProofBondForce6 ProofBondStress
  ModelBondAssoc SpecBondAssoc SpecBondForce ModelBondPlastic SpecBondPlastic.
Local Open Scope R_scope.
Local Notation vec := (V3 RN).
Local Notation ten := (M3 RN).

(** the stress update that returns the stress it is given *)
Definition given (dt : R) (d s : ten) : ten := s.
Lemma given_sym : keeps_symmetric given.
Proof. intros dt d s _ H. exact H. Qed.
Lemma each_spec : forall step ds ss (es : list R) js, each_point (N:=RN) step ds ss es = Ok js -> length js = length ds /\ length ss = length ds /\ length es = length ds /\
  forall k d, nth_error ds k = Some d -> exists s e r, nth_error ss k = Some s /\ nth_error es k = Some e /\ nth_error js k = Some r /\ step d s e = Ok r.
Proof.
  intros step. induction ds as [|d ds IH]; intros [|s ss] [|e es] js H; cbn in H; try discriminate.
  - injection H as <-. repeat split; auto. intros [|k] d' H; discriminate.
  - apply bind_Ok in H as (r & H1 & H). apply bind_Ok in H as (rs & H2 & H). injection H as <-. destruct (IH _ _ _ H2) as (L1 & L2 & L3 & D). cbn [length]. repeat split; try lia.
    intros [|k] d' Hd; cbn in *; [injection Hd as <-; exists s, e, r; auto|]. apply D; auto.
Qed.
Lemma tri_spec : forall tri kept js l, triaxialities (N:=RN) tri kept js = Ok l -> length kept = length js /\ length l = length js /\
  forall k r, nth_error js k = Some r -> exists a, nth_error kept k = Some a /\ nth_error l k = Some (tri a r).
Proof.
  intros tri. induction kept as [|a kept IH]; intros [|r js] l H; cbn in H; try discriminate.
  - injection H as <-. repeat split; auto. intros [|k] r H; discriminate.
  - apply bind_Ok in H as (l' & H1 & H). injection H as <-. destruct (IH _ _ H1) as (L1 & L2 & D). cbn [length]. repeat split; try lia. intros [|k] r' Hr; cbn in *; [injection Hr as <-; eauto|]. apply D; auto.
Qed.
Lemma snd_combine : forall A B (a : list A) (b : list B), length a = length b -> map snd (combine a b) = b.
Proof. induction a as [|u a IH]; intros [|w b] H; cbn in *; try discriminate; auto. f_equal. auto. Qed.
Lemma combine_map_r : forall A B C (g : B -> C) (a : list A) (b : list B), combine a (map g b) = map (fun c => (fst c, g (snd c))) (combine a b).
Proof. induction a as [|u a IH]; intros [|w b]; cbn; auto. now rewrite IH. Qed.

(** the forces are those of the stresses found *)
Lemma plastic_parts : forall sinf cosf law dt (x y vel : list vec) (v : list R) nbrs (s : ba_state (N:=RN)) Fs Gs st sN kept (eN : list R) st1 js tri f,
  ba_plastic_force (N:=RN) sinf cosf law dt x y vel v nbrs s Fs Gs st sN kept eN = Ok (st1, js, tri, f) <->
  exists kin, bond_kinematics (N:=RN) sinf cosf dt x y vel Fs Gs (s_wt s) st 0 0 nbrs = Ok kin /\ each_point (N:=RN) (l_step law dt) (map snd kin) sN eN = Ok js /\
    triaxialities (N:=RN) (l_tri law) kept js = Ok tri /\ ba_compute_force (N:=RN) sinf cosf given dt x y vel v nbrs s Fs Gs st (map j_stress js) = Ok (st1, map j_stress js, f).
Proof.
  intros *. assert (Q : forall kin js, length js = length kin -> map (fun c => given dt (snd (fst c)) (snd c)) (combine kin (map j_stress js)) = map j_stress js /\
    map (fun c : (bst (N:=RN) * ten) * ten => bond_piola (fst (fst c)) (snd c)) (combine kin (map j_stress js)) = map (fun c => bond_piola (fst (fst c)) (j_stress (snd c))) (combine kin js)).
  { intros kin js' L. split; [exact (snd_combine _ _ kin (map j_stress js') ltac:(rewrite map_length; lia))|]. rewrite combine_map_r, map_map. reflexivity. }
  unfold ba_plastic_force, ba_compute_force. destruct (negb (node_code Fs =? 0)%Z); [split; [discriminate|intros (kin & _ & _ & _ & H); discriminate]|]. split.
  - intros H. apply bind_Ok in H as (kin & HK & H). apply bind_Ok in H as (js' & HJ & H). apply bind_Ok in H as (tri' & HT & H). cbv zeta in H. apply bind_Ok in H as (Is & HI & H). apply bind_Ok in H as ([f' out] & HR & H). injection H as <- <- <- <-.
    destruct (each_spec _ _ _ _ _ HJ) as (LJ & _). rewrite map_length in LJ. destruct (Q kin js' LJ) as [Q1 Q2]. exists kin. split; [exact HK|]. split; [exact HJ|]. split; [exact HT|]. rewrite HK. cbn [bind]. cbv zeta. rewrite Q1, Q2, HI. cbn [bind]. rewrite HR. reflexivity.
  - intros (kin & HK & HJ & HT & H). rewrite HK in *. cbn [bind] in *. rewrite HJ. cbn [bind]. rewrite HT. cbn [bind]. destruct (each_spec _ _ _ _ _ HJ) as (LJ & _). rewrite map_length in LJ. destruct (Q kin js LJ) as [Q1 Q2]. cbv zeta in *. rewrite Q1, Q2 in H.
    apply bind_Ok in H as (Is & HI & H). rewrite HI. cbn [bind]. apply bind_Ok in H as ([f' out] & HR & H). rewrite HR. cbn [bind]. now injection H as <- <-.
Qed.
(** each bond *)
Lemma plastic_bond : forall sinf cosf law dt (x y vel : list vec) (v : list R) nbrs (s : ba_state (N:=RN)) Fs Gs st sN kept (eN : list R) st1 js tri f,
  ba_plastic_force (N:=RN) sinf cosf law dt x y vel v nbrs s Fs Gs st sN kept eN = Ok (st1, js, tri, f) ->
  length js = num_bonds nbrs /\ length sN = num_bonds nbrs /\ length eN = num_bonds nbrs /\ length kept = num_bonds nbrs /\ forall p k j, bond_at nbrs p k j ->
  exists b o sg e r a, nth_error st k = Some b /\ nth_error st1 k = Some (fst o) /\ nth_error sN k = Some sg /\ nth_error eN k = Some e /\ nth_error kept k = Some a /\ nth_error js k = Some r /\
    nth_error tri k = Some (l_tri law a r) /\ l_step law dt (snd o) sg e = Ok r /\ step_of sinf cosf dt x y vel Fs Gs (om_of (s_wt s) k) p j b = Ok o.
Proof.
  intros * H. apply plastic_parts in H as (kin & HK & HJ & HT & H). pose proof (kin_spec _ _ _ _ _ _ _ _ _ _ _ _ HK) as [LK D]. destruct (each_spec _ _ _ _ _ HJ) as (L1 & L2 & L3 & DJ). destruct (tri_spec _ _ _ _ HT) as (L4 & L5 & DT). rewrite map_length in *.
  split; [lia|]. split; [lia|]. split; [change (T RN) with R in *; lia|]. split; [lia|]. intros p k j HB. destruct (D p k j HB) as (w & b & o & A1 & A2 & A3 & A4). destruct (DJ k (snd o)) as (sg & e & r & B1 & B2 & B3 & B4); [now rewrite nth_error_map, A3|].
  destruct (DT k r B3) as (a & C1 & C2). exists b, o, sg, e, r, a. apply force_parts in H as (kin' & Is & out & HK' & -> & _). rewrite HK in HK'. injection HK' as <-. repeat (split; [first [assumption|now rewrite nth_error_map, A3]|]). now rewrite (om_nth _ _ _ A1).
Qed.
Lemma bond_exists : forall nbrs k, (k < num_bonds nbrs)%nat -> exists p j, bond_at nbrs p k j.
Proof.
  induction nbrs as [|js rest IH]; intros k Hk; [cbn in Hk; lia|]. rewrite num_bonds_cons in Hk. destruct (Nat.lt_ge_cases k (length js)) as [L|L].
  - exists 0%nat, (nth k js 0%nat), js, k. repeat split; auto. now apply nth_error_nth'.
  - destruct (IH (k - length js)%nat ltac:(lia)) as (p & j & js' & m & A & B & C). exists (S p), j, js', m. repeat split; auto. rewrite offset_S. lia.
Qed.
(** the two halves of every bond stay alike *)
Lemma plastic_keeps : forall sinf cosf law dt (x y vel : list vec) (v : list R) nbrs (s : ba_state (N:=RN)) Fs Gs st sN kept (eN : list R) st1 js tri f,
  ba_plastic_force (N:=RN) sinf cosf law dt x y vel v nbrs s Fs Gs st sN kept eN = Ok (st1, js, tri, f) -> apart nbrs x (s_w0 s) -> two_sided nbrs (map (w_om (N:=RN)) (s_wt s)) -> law_symmetric law ->
  two_sided nbrs st -> two_sided nbrs sN -> two_sided nbrs eN -> Forall (fun a => symmetric (ent a)) sN ->
  two_sided nbrs st1 /\ two_sided nbrs (map j_stress js) /\ two_sided nbrs (map j_eqps js) /\ Forall (fun a => symmetric (ent a)) (map j_stress js).
Proof.
  intros * H AP TW LS TS TN TE FS. pose proof (plastic_bond _ _ _ _ _ _ _ _ _ _ _ _ _ _ _ _ _ _ _ _ H) as (LJ & LN & LE & _ & D). apply plastic_parts in H as (kin & HK & HJ & _ & H). pose proof (kin_two _ _ _ _ _ _ _ _ _ _ _ _ _ HK AP TW TS) as TK.
  assert (TJ : two_sided nbrs js).
  { destruct (each_spec _ _ _ _ _ HJ) as (_ & _ & _ & DJ). pose proof (kin_spec _ _ _ _ _ _ _ _ _ _ _ _ HK) as [LK _]. intros p k j k' HB HB'. pose proof (TK _ _ _ _ HB HB') as E. assert (Hk : (k < num_bonds nbrs)%nat) by (eapply bond_at_bound; eauto). destruct (nth_error kin k) as [o|] eqn:E1; [|apply nth_error_None in E1; lia].
    destruct (DJ k (snd o)) as (s1 & e1 & r1 & A1 & A2 & A3 & A4); [now rewrite nth_error_map, E1|]. destruct (DJ k' (snd o)) as (s2 & e2 & r2 & B1 & B2 & B3 & B4); [now rewrite nth_error_map, <- E|].
    rewrite (TN _ _ _ _ HB HB') in A1. pose proof (TE _ _ _ _ HB HB') as TE'. change (T RN) with R in *. rewrite TE' in A2. rewrite A1 in B1. rewrite A2 in B2. injection B1 as <-. injection B2 as <-. congruence. }
  apply force_parts in H as (kin' & Is & out & HK' & -> & _). rewrite HK in HK'. injection HK' as <-.
  split; [now apply two_map|]. split; [now apply two_map|]. split; [now apply two_map|]. apply Forall_forall. intros a Ha. apply in_map_iff in Ha as (r & <- & Hr). apply In_nth_error in Hr as [k Hk].
  destruct (bond_exists nbrs k) as (p & j & HB); [rewrite <- LJ; apply nth_error_Some; congruence|]. destruct (D p k j HB) as (b & o & sg & e & r' & a & A1 & A2 & A3 & A4 & A5 & A6 & A7 & A8 & A9). rewrite Hk in A6. injection A6 as <-.
  eapply LS; [eapply step_rate_sym; exact A9| |exact A8]. rewrite Forall_forall in FS. apply FS. now apply nth_error_In in A3.
Qed.

(** ** histories *)
Section H.
Variables (omega : R -> R -> R) (sinf cosf : R -> R) (law : bond_law RN) (svd : list (list R) -> list (list R) * list R * list (list R)) (order : Z)
  (x : list vec) (v hs : list R) (nbrs : list (list nat)) (dt : R) (w0 : list R).
Definition elastic_part (c : plastic_state) : between_steps := (p_ba c, p_damage c, p_bonds c, p_stress c).
Definition pgood (dmg : list R) (c : plastic_state) : Prop := good omega svd order x v hs nbrs w0 dmg (elastic_part c) /\ two_sided nbrs (p_strain c).
Hypothesis (MU : mutual nbrs) (AP : apart nbrs x w0) (LS : law_symmetric law) (EH : even_horizon nbrs hs) (OM : forall r h, 0 <= omega r h)
  (Lx : length x = length nbrs) (Lv : length v = length nbrs).
Lemma pgood_step : forall dN1 dmg u vel c c1 js tri f dmgN, plastic_step omega sinf cosf law svd order x v hs nbrs dt (dN1, dmg, u, vel) c = Ok (c1, js, tri, f) -> pgood dmgN c ->
  (forall p, (p < length nbrs)%nat -> own nbrs p dmg = own nbrs p dmgN \/ nth p (p_damage c) 0 + 1 / 1000000000000000 < nth p dN1 0) -> even_damage nbrs dmg -> length u = length x ->
  pgood dmg c1 /\ p_damage c1 = dN1 /\ momentum v f = vzero /\ ((1 <= order)%Z -> all_resolved omega svd order x v hs nbrs dmg -> moment v (moved x u) f = vzero).
Proof.
  intros dN1 dmg u vel [s dN st sN kept eN] c1 js tri f dmgN H ((G1 & G2 & G3 & G4 & G5 & G6 & G7) & TE) HR [ED1 ED2] Lu. cbn [p_damage p_strain elastic_part p_ba p_bonds p_stress] in *. unfold plastic_step in H. cbn [p_ba p_damage p_bonds p_stress p_before p_strain] in H. apply bind_Ok in H as ([[s1 Fs] Gs] & HP & H). apply bind_Ok in H as ([[[st1 js'] tri'] f'] & HC & H). injection H as <- <- <- <-.
  destruct (precompute_fresh _ _ _ _ _ _ _ _ _ _ _ _ _ _ _ _ _ HP G1 G2 HR) as (A & B & HF & HG & W).
  pose proof (fresh_two _ _ _ _ _ _ _ _ _ B EH ED1) as TW. pose proof (fresh_proper _ _ _ _ _ _ _ _ _ B OM ED2) as PW. assert (AP1 : apart nbrs x (s_w0 s1)) by (rewrite W, G3; exact AP).
  pose proof (plastic_keeps _ _ _ _ _ _ _ _ _ _ _ _ _ _ _ _ _ _ _ _ HC AP1 TW LS G5 G6 TE G7) as (K2 & K3 & K5 & K4). pose proof (plastic_bond _ _ _ _ _ _ _ _ _ _ _ _ _ _ _ _ _ _ _ _ HC) as (LJ & _).
  apply plastic_parts in HC as (kin & HK & HJ & HT & HC). assert (LJ' : length (map (j_stress (N:=RN)) js') = num_bonds nbrs) by (rewrite map_length; exact LJ).
  assert (LM : length (moved x u) = length nbrs) by (unfold moved; rewrite map_length, combine_length; lia).
  split; [split; [|exact K5]; repeat split; auto; try apply A; try apply B; cbn; congruence|]. split; [reflexivity|]. split; [eapply force_momentum; [exact HC|change (T RN) with R in *; lia]|].
  intros Ho AR. pose proof (force_len _ _ _ _ _ _ _ _ _ _ _ _ _ _ _ _ _ HC) as LF. apply moment_power; try (change (T RN) with R in *; lia). intros e.
  eapply (turn_power sinf cosf given dt x (moved x u) u vel v nbrs s1 Fs Gs st (map j_stress js') st1 (map j_stress js') _ e HC); eauto; try (apply B); try apply given_sym.
  - intros p Hp. apply at3_moved; lia.
  - eapply fresh_reproduces; eauto.
Qed.
Lemma pgood_steps : forall e es c c1 dmgN, plastic_steps omega sinf cosf law svd order x v hs nbrs dt es c = Ok c1 -> pgood dmgN c ->
  reported nbrs (p_damage c) dmgN (es ++ [e]) -> Forall (fun e => even_damage nbrs (snd (fst (fst e))) /\ length (snd (fst e)) = length x) (es ++ [e]) ->
  exists dmg, pgood dmg c1 /\ reported nbrs (p_damage c1) dmg [e].
Proof.
  intros e. induction es as [|[[[d1 dm] u] vel] es IH]; intros c c1 dmgN H G RP FE; unfold plastic_steps in H; cbn [foldM] in H.
  - injection H as <-. exists dmgN. auto.
  - apply bind_Ok in H as (c2 & H1 & H). apply bind_Ok in H1 as ([[[c2' js] tri] f] & H1 & E). injection E as <-. cbn [app] in FE. apply Forall_cons_iff in FE as [F1 F2]. cbn [fst snd] in F1. destruct F1 as [F1 F1']. destruct RP as [R1 R2].
    destruct (pgood_step _ _ _ _ _ _ _ _ _ _ H1 G R1 F1 F1') as (G' & E & _). rewrite <- E in R2. eapply IH; eauto.
Qed.
End H.
Lemma pgood_start : forall omega svd order (x : list vec) (v hs : list R) nbrs s0 d0, ba_initialize (N:=RN) omega svd order x v hs nbrs = Ok s0 ->
  pgood omega svd order x v hs nbrs (s_w0 s0) (repeat 0 (num_bonds nbrs)) (plastic_start s0 d0 nbrs).
Proof.
  intros * H. split; [exact (good_start _ _ _ _ _ _ _ _ d0 H)|]. assert (NB : length (concat nbrs) = num_bonds nbrs) by (clear; induction nbrs as [|js r IH]; auto; cbn [concat]; rewrite app_length, num_bonds_cons, IH; auto).
  unfold plastic_start, ba_plastic_strains. cbn [p_strain]. rewrite NB. apply two_repeat.
Qed.

(** an invariant of stress and plastic strain of each bond *)
Definition each_bond (Q : ten -> R -> Prop) (c : plastic_state) : Prop := forall k sg e, nth_error (p_stress c) k = Some sg -> nth_error (p_strain c) k = Some e -> Q sg e.
Lemma inv_step : forall omega sinf cosf law svd order (x : list vec) (v hs : list R) nbrs dt e c c1 js tri f (Q : ten -> R -> Prop), plastic_step omega sinf cosf law svd order x v hs nbrs dt e c = Ok (c1, js, tri, f) ->
  (forall d s e r, l_step law dt d s e = Ok r -> Q s e -> Q (j_stress r) (j_eqps r)) -> each_bond Q c -> each_bond Q c1.
Proof.
  intros * H HQ EB. destruct e as [[[dN1 dmg] u] vel]. unfold plastic_step in H. apply bind_Ok in H as ([[s1 Fs] Gs] & HP & H). apply bind_Ok in H as ([[[st1 js'] tri'] f'] & HC & H). injection H as <- <- <- <-.
  apply plastic_bond in HC as (LJ & _ & _ & _ & D). intros k sg e' H1 H2. cbn [p_stress p_strain] in H1, H2. rewrite nth_error_map in H1, H2. destruct (nth_error js' k) as [r|] eqn:E; [|discriminate]. injection H1 as <-. injection H2 as <-.
  destruct (bond_exists nbrs k) as (p & j & HB); [rewrite <- LJ; apply nth_error_Some; congruence|]. destruct (D p k j HB) as (b & o & sg & e & r' & a & A1 & A2 & A3 & A4 & A5 & A6 & A7 & A8 & A9). rewrite E in A6. injection A6 as <-. eapply HQ; [exact A8|]. eapply EB; eauto.
Qed.
Lemma inv_steps : forall omega sinf cosf law svd order (x : list vec) (v hs : list R) nbrs dt (Q : ten -> R -> Prop),
  (forall d s e r, l_step law dt d s e = Ok r -> Q s e -> Q (j_stress r) (j_eqps r)) -> forall es c c1, plastic_steps omega sinf cosf law svd order x v hs nbrs dt es c = Ok c1 -> each_bond Q c -> each_bond Q c1.
Proof.
  intros * HQ. induction es as [|e es IH]; intros c c1 H EB; unfold plastic_steps in H; cbn [foldM] in H; [now injection H as <-|].
  apply bind_Ok in H as (c2 & H1 & H). apply bind_Ok in H1 as ([[[c2' js] tri] f] & H1 & E). injection E as <-. eapply IH; [exact H|]. eapply inv_step; eauto.
Qed.
(** never less plastic strain *)
Lemma grow_steps : forall omega sinf cosf law svd order (x : list vec) (v hs : list R) nbrs dt (Q : ten -> R -> Prop),
  (forall d s e r, l_step law dt d s e = Ok r -> Q s e -> Q (j_stress r) (j_eqps r) /\ e <= j_eqps r) -> forall es c c1, plastic_steps omega sinf cosf law svd order x v hs nbrs dt es c = Ok c1 -> each_bond Q c ->
  forall k e e1, nth_error (p_strain c) k = Some e -> nth_error (p_strain c1) k = Some e1 -> e <= e1.
Proof.
  intros * HQ. induction es as [|[[[dN1 dmg] u] vel] es IH]; intros c c1 H EB k e e1 H1 H2; unfold plastic_steps in H; cbn [foldM] in H; [injection H as <-; rewrite H1 in H2; injection H2 as <-; lra|].
  apply bind_Ok in H as (c2 & HS & H). apply bind_Ok in HS as ([[[c2' js] tri] f] & HS & E). injection E as <-. pose proof (inv_step _ _ _ _ _ _ _ _ _ _ _ _ _ _ _ _ _ Q HS (fun d s e r A B => proj1 (HQ d s e r A B)) EB) as EB'.
  unfold plastic_step in HS. apply bind_Ok in HS as ([[s1 Fs] Gs] & HP & HS). apply bind_Ok in HS as ([[[st1 js'] tri'] f'] & HC & HS). injection HS as <- <- <- <-. apply plastic_bond in HC as (LJ & _ & LE & _ & D).
  assert (Hk : (k < num_bonds nbrs)%nat). { rewrite <- LE. apply nth_error_Some. change (T RN) with R in *. congruence. } destruct (bond_exists nbrs k Hk) as (p & j & HB). destruct (D p k j HB) as (b & o & sg & e' & r' & a & A1 & A2 & A3 & A4 & A5 & A6 & A7 & A8 & A9). change (T RN) with R in *. rewrite H1 in A4. injection A4 as <-.
  destruct (HQ _ _ _ _ A8 (EB k _ _ A3 H1)) as [_ G1]. assert (E2 : nth_error (map (j_eqps (N:=RN)) js') k = Some (j_eqps r')) by now rewrite nth_error_map, A6. pose proof (IH _ _ H EB' k _ _ E2 H2) as G2. change (T RN) with R in *. lra.
Qed.
