(** * C78: forces of the bond-associated correspondence material *)
From Coq Require Import Reals Lra Lia.
From Verif Require Import Base Num ModelNeigh SpecDamage ModelForce SpecForce ModelCorr SpecCorr
  ProofData ProofDamage ProofForce ProofKernels ProofCorr ProofCorr2 ProofCorr3 ProofTangent ProofBondAssoc ProofBondAssoc2 ProofBondAssoc3 ProofBondAssoc4
  ProofBondForce ProofBondForce2 ProofBondForce3 ProofBondForce4 ProofBondForce5 ProofBondForce6 PropBondAssoc ModelBondAssoc SpecBondAssoc SpecBondForce.
Local Open Scope R_scope.

(** The forces add up to nothing, whatever the weights, gradients, states and stresses. *)
Theorem C78_momentum : forall sinf cosf cauchy dt x y vel (v : list R) nbrs (s : ba_state (N:=RN)) Fs Gs st sN st1 s1 f,
  ba_compute_force (N:=RN) sinf cosf cauchy dt x y vel v nbrs s Fs Gs st sN = Ok (st1, s1, f) ->
  length v = length y -> momentum v f = vzero.
Proof. exact force_momentum. Qed.
Print Assumptions C78_momentum.

(** Power: for every velocity field, the power of the forces is minus the sum over the bonds
    of first Piola stress times the bond level gradient of the field.  The stress is that of
    the new unrotated Cauchy stress, the new rotation and the bond level deformation gradient. *)
Theorem C78_power : forall sinf cosf cauchy dt x y vel (v : list R) nbrs (s : ba_state (N:=RN)) Fs Gs st sN st1 s1 f,
  ba_compute_force (N:=RN) sinf cosf cauchy dt x y vel v nbrs s Fs Gs st sN = Ok (st1, s1, f) ->
  ba_data (length nbrs) nbrs x y vel v (s_w0 s) (s_wt s) -> mutual nbrs -> apart nbrs x (s_w0 s) -> proper_weights (s_wt s) ->
  keeps_symmetric cauchy -> length sN = num_bonds nbrs -> Forall (fun a => symmetric (ent a)) sN ->
  two_sided nbrs (map (w_om (N:=RN)) (s_wt s)) -> two_sided nbrs st -> two_sided nbrs sN ->
  exists P : nat -> mat,
    (forall p k j, bond_at nbrs p k j -> 0 < om_of (s_wt s) k -> forall Fb,
       bond_level (average (ten_of Fs p) (ten_of Fs j)) (between x p j) (between y p j) Fb ->
       exists b sg, nth_error st1 k = Some b /\ nth_error s1 k = Some sg /\ det3 Fb <> 0 /\ first_piola Fb (ent (b_R b)) (ent sg) (P k)) /\
    (forall w Ws G, length w = length nbrs -> velocity_gradients (N:=RN) v w (s_wt s) nbrs = Ok Ws ->
       (forall p k j, bond_at nbrs p k j -> bond_level (average (ten_of Ws p) (ten_of Ws j)) (between x p j) (between w p j) (G p k j)) ->
       power v w f = - total nbrs (fun p k j => share v (s_w0 s) (s_wt s) p k j * ddot (P k) (G p k j))).
Proof.
  intros * H (_ & Lx & _) MU AP PW KS LS FS TW TS TN. pose proof (force_keeps _ _ _ _ _ _ _ _ _ _ _ _ _ _ _ _ _ H AP TW KS LS TS TN FS) as (L1 & _ & T1 & _).
  apply force_parts in H as (kin & Is & out & HK & -> & _ & HI & HR). cbv zeta in HI, HR.
  pose proof (kin_spec _ _ _ _ _ _ _ _ _ _ _ _ HK) as [LK D]. pose proof (kin_two _ _ _ _ _ _ _ _ _ _ _ _ _ HK AP TW TS) as TK.
  set (P := map (fun c => bond_piola (fst (fst c)) (snd c)) (combine kin s1)) in *. assert (TP : two_sided nbrs P) by (apply two_map, two_combine; auto). exists (ten_of P). split.
  - intros p k j HB Hom Fb HL. destruct (D p k j HB) as (w & s0 & o & A1 & A2 & A3 & A4). assert (Hk : (k < num_bonds nbrs)%nat) by (eapply bond_at_bound; eauto).
    destruct (nth_error s1 k) as [sg|] eqn:ES; [|apply nth_error_None in ES; lia]. exists (fst o), sg. split; [now rewrite nth_error_map, A3|]. split; [reflexivity|].
    assert (EP : nth_error P k = Some (bond_piola (fst o) sg)). { unfold P. rewrite nth_error_map, nth_combine, A3, ES. reflexivity. }
    unfold ten_of at 1. rewrite (nth_error_nth _ _ mzero EP). rewrite (om_nth _ _ _ A1) in Hom. eapply piola_first; eauto. apply (AP p k j HB).
  - intros w Ws G Lw HW HG. eapply bond_power; eauto; lia.
Qed.
Print Assumptions C78_power.

(** No turning moment, and the two halves of every bond stay alike: one evaluation. *)
Theorem C78_moment : forall sinf cosf cauchy dt x y u vel (v : list R) nbrs (s : ba_state (N:=RN)) Fs Gs st sN st1 s1 f,
  ba_compute_force (N:=RN) sinf cosf cauchy dt x y vel v nbrs s Fs Gs st sN = Ok (st1, s1, f) ->
  ba_data (length nbrs) nbrs x y vel v (s_w0 s) (s_wt s) -> mutual nbrs -> apart nbrs x (s_w0 s) -> proper_weights (s_wt s) ->
  keeps_symmetric cauchy -> length sN = num_bonds nbrs -> Forall (fun a => symmetric (ent a)) sN ->
  two_sided nbrs (map (w_om (N:=RN)) (s_wt s)) -> two_sided nbrs st -> two_sided nbrs sN ->
  (forall p, (p < length nbrs)%nat -> at3 y p = vadd (at3 x p) (at3 u p)) ->
  reproduces nbrs x v (s_wt s) -> deformation_gradients (N:=RN) v u (s_wt s) nbrs = Ok Fs ->
  moment v y f = vzero /\ two_sided nbrs st1 /\ two_sided nbrs s1 /\ Forall (fun a => symmetric (ent a)) s1.
Proof.
  intros * H (_ & Lx & Ly & _ & Lv & _ & Lw) MU AP PW KS LS FS TW TS TN HY RP HF. split; [|apply (force_keeps _ _ _ _ _ _ _ _ _ _ _ _ _ _ _ _ _ H AP TW KS LS TS TN FS)].
  pose proof (force_len _ _ _ _ _ _ _ _ _ _ _ _ _ _ _ _ _ H) as LF. apply moment_power; try (change (T RN) with R in *; lia). intros e. eapply turn_power; eauto.
Qed.
Print Assumptions C78_moment.

(** Whole histories: from initialize, any number of accepted steps in which the two halves of
    a bond are damaged alike and damage shows in the point damage.  In the last of them the
    forces have no resultant and, where the bonds left resolve every point, no moment. *)
Theorem C78_history : forall omega sinf cosf cauchy svd order x (v hs : list R) nbrs dt s0 d0 es c dN1 dmg u vel c1 f,
  ba_initialize (N:=RN) omega svd order x v hs nbrs = Ok s0 ->
  force_steps omega sinf cosf cauchy svd order x v hs nbrs dt es (s0, d0, ba_bonds (N:=RN) nbrs, ba_stresses (N:=RN) nbrs) = Ok c ->
  force_step omega sinf cosf cauchy svd order x v hs nbrs dt (dN1, dmg, u, vel) c = Ok (c1, f) ->
  mutual nbrs -> apart nbrs x (s_w0 s0) -> keeps_symmetric cauchy -> even_horizon nbrs hs -> (forall r h, 0 <= omega r h) ->
  length x = length nbrs -> length v = length nbrs ->
  reported nbrs d0 (repeat 0 (num_bonds nbrs)) (es ++ [(dN1, dmg, u, vel)]) ->
  Forall (fun e => even_damage nbrs (snd (fst (fst e))) /\ length (snd (fst e)) = length x) (es ++ [(dN1, dmg, u, vel)]) ->
  momentum v f = vzero /\
  ((1 <= order)%Z -> all_resolved omega svd order x v hs nbrs dmg -> moment v (moved x u) f = vzero).
Proof.
  intros * HI HS HF MU AP KS EH OM Lx Lv RP FE. pose proof (good_start omega svd order x v hs nbrs s0 d0 HI) as G0.
  destruct (good_steps omega sinf cosf cauchy svd order x v hs nbrs dt (s_w0 s0) MU AP KS EH OM Lx Lv (dN1, dmg, u, vel) es _ c _ HS G0 RP FE) as (dmgN & G & [R1 _]).
  apply Forall_app in FE as [_ FE]. inversion FE as [|? ? [F1 F2] _]; subst. cbn [fst snd] in F1, F2.
  apply (good_step omega sinf cosf cauchy svd order x v hs nbrs dt (s_w0 s0) MU AP KS EH OM Lx Lv _ _ _ _ _ _ _ _ HF G R1 F1 F2).
Qed.
Print Assumptions C78_history.

(** The elastic material is one of those meant. *)
Theorem C78_elastic : forall K mu, keeps_symmetric (hooke (N:=RN) K mu).
Proof. exact hooke_sym. Qed.
Print Assumptions C78_elastic.

(** Weights of the current damage: proper, alike on both halves, exact for linear fields. *)
Theorem C78_weights : forall omega svd order x (v hs : list R) nbrs (dmg : list R) wt,
  fresh omega svd order x v hs nbrs dmg wt -> (forall r h, 0 <= omega r h) -> even_horizon nbrs hs -> even_damage nbrs dmg ->
  proper_weights wt /\ two_sided nbrs (map (w_om (N:=RN)) wt) /\ ((1 <= order)%Z -> all_resolved omega svd order x v hs nbrs dmg -> reproduces nbrs x v wt).
Proof.
  intros * FR OM EH [E1 E2]. apply all_fresh_iff in FR. split; [eapply fresh_proper; eauto|]. split; [eapply fresh_two; eauto|]. intros Ho AR. eapply fresh_reproduces; eauto.
Qed.
Print Assumptions C78_weights.

(** Uniform stress and affine velocity: the power is stress times gradient times the volume,
    each volume in the proportion of the present to the initial weighted volume. *)
Theorem C78_uniform : forall x w (v w0 : list R) wt P0 Is nbrs f out W A b,
  integrals (N:=RN) x v w0 wt (repeat P0 (num_bonds nbrs)) 0 0 nbrs = Ok Is ->
  run_kernel (ba_force (N:=RN) x v w0 wt (repeat P0 (num_bonds nbrs)) Is) nbrs (repeat vzero (length nbrs)) = Ok (f, out) ->
  weighted_volumes (N:=RN) v wt 0 nbrs = Ok W ->
  mutual nbrs -> apart nbrs x w0 -> proper_weights wt -> two_sided nbrs (map (w_om (N:=RN)) wt) -> reproduces nbrs x v wt ->
  length x = length nbrs -> length w = length nbrs -> length v = length nbrs -> length wt = num_bonds nbrs -> affine A b x w ->
  power v w f = - (ddot (ent P0) A * sum_to (length nbrs) (fun p => nth p v 0 * (nth p W 0 / nth p w0 0))).
Proof.
  intros * HI HR HW MU AP PW TW RP Lx Lw Lv Lwt HA.
  destruct (gradients_total mzero v w wt nbrs 0 0) as [Ws HG]; change (T RN) with R in *; try lia. { destruct MU as (_ & FB & _). rewrite Lw. exact FB. }
  pose proof (affine_gradient A b x w v wt nbrs Ws RP MU Lx HA HG) as EA.
  rewrite (bond_power _ nbrs x w v w0 wt _ Is f out Ws (fun _ _ _ => A) MU AP PW TW (two_repeat _ P0 nbrs) ltac:(lia) ltac:(lia) HI HR HG).
  - f_equal. transitivity (ddot (ent P0) A * total nbrs (share v w0 wt)); [|exact (f_equal (Rmult _) (share_total nbrs v w0 wt W MU TW HW))]. rewrite <- total_mul. apply total_ext. intros p k j HB. destruct (bond_at_bound _ _ _ _ HB) as [_ B2]. unfold ten_of. rewrite (nth_error_nth _ _ mzero (nth_error_rep _ P0 _ _ B2)). ring.
  - intros p k j HB. destruct (bond_at_parts _ _ _ _ HB) as (Hp & m & Hm & _ & Ej). assert (Hj : (j < length nbrs)%nat). { destruct MU as (_ & FB & _). rewrite Forall_forall in FB. specialize (FB (nth p nbrs []) (nth_In _ _ Hp)). rewrite Forall_forall in FB. apply FB. rewrite Ej. now apply nth_In. }
    split.
    + intros i Hi. unfold between. transitivity (comp (at3 w j) i - comp (at3 w p) i); [|clear -Hi; i3 i Hi; reflexivity]. rewrite (HA p ltac:(lia) i Hi), (HA j ltac:(lia) i Hi). unfold image, sum3. destruct (at3 x p) as [a1 a2 a3], (at3 x j) as [b1 b2 b3]. cbn. to_R. change (T RN) with R. ring.
    + intros t _ i Hi. unfold image, sum3, average. rewrite !(EA p Hp i), !(EA j Hj i) by lia. field.
Qed.
Print Assumptions C78_uniform.

(** Hence the whole volume as long as no bond has been damaged since initialize. *)
Theorem C78_intact : forall x w (v w0 : list R) wt P0 Is nbrs f out A b,
  integrals (N:=RN) x v w0 wt (repeat P0 (num_bonds nbrs)) 0 0 nbrs = Ok Is ->
  run_kernel (ba_force (N:=RN) x v w0 wt (repeat P0 (num_bonds nbrs)) Is) nbrs (repeat vzero (length nbrs)) = Ok (f, out) ->
  weighted_volumes (N:=RN) v wt 0 nbrs = Ok w0 -> Forall (fun js => js <> []) nbrs ->
  mutual nbrs -> apart nbrs x w0 -> proper_weights wt -> two_sided nbrs (map (w_om (N:=RN)) wt) -> reproduces nbrs x v wt ->
  length x = length nbrs -> length w = length nbrs -> length v = length nbrs -> length wt = num_bonds nbrs -> affine A b x w ->
  power v w f = - (ddot (ent P0) A * sum_to (length nbrs) (fun p => nth p v 0)).
Proof.
  intros * HI HR HW NE MU AP PW TW RP Lx Lw Lv Lwt HA. rewrite (C78_uniform _ _ _ _ _ _ _ _ _ _ _ _ _ HI HR HW MU AP PW TW RP Lx Lw Lv Lwt HA). do 2 f_equal. apply sum_to_ext. intros p Hp.
  rewrite Forall_forall in NE. specialize (NE (nth p nbrs []) (nth_In _ _ Hp)). assert (B : bond_at nbrs p (offset nbrs p + 0) (nth 0 (nth p nbrs []) 0%nat)). { apply bond_at_lt; auto. destruct (nth p nbrs []); [contradiction|cbn; lia]. }
  destruct (AP _ _ _ B) as (_ & Z & _). change (T RN) with R in *. field. exact Z.
Qed.
Print Assumptions C78_intact.

(** A point all of whose bonds have lost their influence gets no force. *)
Theorem C78_broken : forall x (v w0 : list R) wt P Is nbrs n f out q,
  run_kernel (ba_force (N:=RN) x v w0 wt P Is) nbrs (repeat vzero n) = Ok (f, out) -> proper_weights wt ->
  (forall p k j, bond_at nbrs p k j -> p = q \/ j = q -> om_of wt k = 0) -> (q < n)%nat -> nth_error f q = Some vzero.
Proof. exact unloaded. Qed.
Print Assumptions C78_broken.

(** An evaluation on data of the right size ends with forces unless the gradient at some point
    or of some bond with influence is singular, and then it stops the run; it never reads past
    an array. *)
Theorem C78_stops : forall sinf cosf cauchy dt x y vel (v : list R) nbrs (s : ba_state (N:=RN)) Fs Gs st sN,
  ba_data (length nbrs) nbrs x y vel v (s_w0 s) (s_wt s) -> bonds_fit (length nbrs) nbrs -> apart nbrs x (s_w0 s) ->
  length Fs = length nbrs -> length Gs = length nbrs -> length st = num_bonds nbrs -> length sN = num_bonds nbrs ->
  let point_singular := exists p, (p < length nbrs)%nat /\ det3 (ten_of Fs p) = 0 in
  let bond_singular := exists p k j Fb, bond_at nbrs p k j /\ 0 < om_of (s_wt s) k /\
    bond_level (average (ten_of Fs p) (ten_of Fs j)) (between x p j) (between y p j) Fb /\ det3 Fb = 0 in
  ((exists r, ba_compute_force (N:=RN) sinf cosf cauchy dt x y vel v nbrs s Fs Gs st sN = Ok r) /\ ~ point_singular /\ ~ bond_singular) \/
  (ba_compute_force (N:=RN) sinf cosf cauchy dt x y vel v nbrs s Fs Gs st sN = Err /\ (point_singular \/ bond_singular)).
Proof.
  intros * HD [_ FB] AP LF LG Ls LN points bonds.
  assert (EQ : forall p k j Fb, bond_at nbrs p k j -> bond_level (average (ten_of Fs p) (ten_of Fs j)) (between x p j) (between y p j) Fb -> (det3 Fb = 0 <-> flat_bond x y Fs p j)).
  { intros p k j Fb HB HL. destruct (C77_bond_level (nth p Fs mzero) (nth j Fs mzero) (between x p j) (between y p j) (proj1 (AP p k j HB))) as (_ & U & _). specialize (U Fb HL). unfold flat_bond, det3. rewrite !(U _ _) by lia. reflexivity. }
  destruct (force_total sinf cosf cauchy dt x y vel v nbrs s Fs Gs st sN HD FB LF LG Ls LN) as [[r HR]|(HE & [PS|(p & k & j & A & B & C)])].
  - left. split; [eauto|]. split.
    + intros (p & Hp & Z). rewrite <- LF in Hp. exact (force_nodes _ _ _ _ _ _ _ _ _ _ _ _ _ _ _ HR p Hp Z).
    + intros (p & k & j & Fb & A & B & C & D). apply (EQ p k j Fb A C) in D. exact (force_sound _ _ _ _ _ _ _ _ _ _ _ _ _ _ _ HR p k j A B D).
  - right. split; [exact HE|]. left. exact PS.
  - right. split; [exact HE|]. right. destruct (C77_bond_level (nth p Fs mzero) (nth j Fs mzero) (between x p j) (between y p j) (proj1 (AP p k j A))) as (L & _).
    exists p, k, j. eexists. split; [exact A|]. split; [exact B|]. split; [exact L|]. exact C.
Qed.
Print Assumptions C78_stops.

(** ** The hypotheses can be met: the corners of a cube, bonds along the edges, one step
    that stretches it to twice its length *)
Definition cube_at (i : nat) : V3 RN := v3 (N:=RN) (INR (i mod 2)) (INR (i / 2 mod 2)) (INR (i / 4)).
Definition cube_x : list (V3 RN) := map cube_at (seq 0 8).
Definition cube_u : list (V3 RN) := map (fun i => v3 (N:=RN) (INR (i mod 2)) 0 0) (seq 0 8).
Definition cube_v : list R := repeat 1 8.
Definition cube_nbrs : list (list nat) :=
  [[1; 2; 4]; [0; 3; 5]; [3; 0; 6]; [2; 1; 7]; [5; 6; 0]; [4; 7; 1]; [7; 4; 2]; [6; 5; 3]]%nat.
Definition cube_svd (_ : list (list R)) : list (list R) * list R * list (list R) := (ex_one, [1; 1; 1], ex_one).
Definition cube_stretch : mat := fun i j => if Nat.eqb i j then (if Nat.eqb i 0 then 2 else 1) else 0.
Definition cube_dmg : list R := repeat 0 (num_bonds cube_nbrs).

Lemma nth_repeat_lt : forall A (a d : A) n k, (k < n)%nat -> nth k (repeat a n) d = a.
Proof. intros. apply nth_error_nth. now apply nth_error_rep. Qed.
Lemma cube_mutual : mutual cube_nbrs.
Proof.
  split; [|split].
  - unfold cube_nbrs. repeat constructor; cbn; intuition lia.
  - unfold cube_nbrs. cbn [length]. repeat constructor.
  - intros p j. do 8 (destruct p as [|p]; [cbn; intros [<-|[<-|[<-|[]]]]; cbn; auto|]). destruct p; intros [].
Qed.
Lemma cube_bond : forall p k j, bond_at cube_nbrs p k j -> (p < 8)%nat /\ (j < 8)%nat /\ vdot (between cube_x p j) (between cube_x p j) = 1.
Proof.
  intros p k j (js & m & H1 & H2 & _). do 8 (destruct p as [|p]; [cbn in H1; injection H1 as <-; do 3 (destruct m as [|m]; [cbn in H2; injection H2 as <-; split; [lia|]; split; [lia|]; unfold between, at3; cbn; to_R; change (T RN) with R; ring|]); destruct m; discriminate|]). destruct p; discriminate.
Qed.
Definition cube_bonds (p : nat) : list bond3 := map (fun j => (vsub (cube_at j) (cube_at p), 1, 0)) (nth p cube_nbrs []).
Lemma cube_around : forall p, (p < 8)%nat -> around cube_x cube_v (repeat 1 8) cube_dmg cube_nbrs p (cube_at p) 1 (cube_bonds p).
Proof.
  intros p Hp. do 8 (destruct p as [|p]; [eexists; do 4 (split; [reflexivity|]); intros n j Hn; do 3 (destruct n as [|n]; [cbn in Hn; injection Hn as <-; do 3 eexists; repeat (split; [reflexivity|]); reflexivity|]); destruct n; discriminate|]). lia.
Qed.
Lemma cube_gram : forall p, (p < 8)%nat -> gram ex_om 1 (powers 1) (cube_bonds p) = ex_one.
Proof.
  intros p Hp. unfold gram, cube_bonds, cube_nbrs, weight_of, ex_om, sum_over, ex_one. change (powers 1) with [(1, 0, 0); (0, 1, 0); (0, 0, 1)]%nat.
  do 8 (destruct p as [|p]; [cbn; repeat (apply f_equal2; [repeat (apply f_equal2; [field|]); reflexivity|]); reflexivity|]). lia.
Qed.
Lemma cube_resolved : all_resolved ex_om cube_svd 1 cube_x cube_v (repeat 1 8) cube_nbrs cube_dmg.
Proof.
  intros p Hp. change (length cube_nbrs) with 8%nat in Hp. do 3 eexists. split; [now apply cube_around|]. split; [lra|].
  exists ex_one, [1; 1; 1], ex_one. split; [reflexivity|]. split; [|repeat constructor; lra]. rewrite cube_gram by exact Hp. change (length (powers 1)) with 3%nat. unfold is_svd, square, sum_to, sum_over.
  split; [|split; [|split; [|split; [|split; [|split; [|split]]]]]]; try (split; [reflexivity|repeat constructor]); try reflexivity;
    try (intros i j Hi Hj; ij i j Hi Hj; cbn; lra). repeat constructor; lra.
Qed.
Lemma cube_even : even_damage cube_nbrs cube_dmg /\ even_horizon cube_nbrs (repeat 1 8).
Proof.
  split; [split|].
  - apply two_repeat.
  - unfold cube_dmg. apply Forall_forall. intros d Hd. apply repeat_spec in Hd. subst. lra.
  - intros p k j HB. destruct (cube_bond p k j HB) as (A & B & _). rewrite !nth_repeat_lt by lia. reflexivity.
Qed.
Example C78_met : forall sinf cosf K mu, exists s0 c1 f, let e := (repeat 0 8, cube_dmg, cube_u, cube_u) in
  ba_initialize (N:=RN) ex_om cube_svd 1 cube_x cube_v (repeat 1 8) cube_nbrs = Ok s0 /\ apart cube_nbrs cube_x (s_w0 s0) /\
  reported cube_nbrs (repeat 0 8) (repeat 0 (num_bonds cube_nbrs)) [e] /\
  force_step ex_om sinf cosf (hooke (N:=RN) K mu) cube_svd 1 cube_x cube_v (repeat 1 8) cube_nbrs 1 e (s0, repeat 0 8, ba_bonds (N:=RN) cube_nbrs, ba_stresses (N:=RN) cube_nbrs) = Ok (c1, f) /\
  momentum cube_v f = vzero /\ moment cube_v (moved cube_x cube_u) f = vzero.
Proof.
  intros sinf cosf K mu. assert (FIT : bonds_fit (length cube_x) cube_nbrs) by (split; [cbn; lia|exact (proj1 (proj2 cube_mutual))]).
  destruct (C77_runs ex_om cube_svd 1 cube_x cube_v (repeat 1 8) cube_nbrs FIT) as [(s0 & HI & L1 & L2) HP]; [cbn; lia|cbn; lia|].
  destruct (HP (repeat 0 8) (repeat 0 8) cube_dmg cube_u cube_u s0) as (s1 & Fs & Gs & E & L3 & L4 & L5); auto; try (cbn; lia).
  assert (RP : reported cube_nbrs (repeat 0 8) (repeat 0 (num_bonds cube_nbrs)) [(repeat 0 8, cube_dmg, cube_u, cube_u)]) by (split; [intros; left; reflexivity|exact Logic.I]).
  destruct (initialize_fresh _ _ _ _ _ _ _ _ HI) as (A & B & W). apply volumes_spec in W as [W1 W2].
  assert (AP : apart cube_nbrs cube_x (s_w0 s0)).
  { assert (Z : forall p, (p < 8)%nat -> nth p (s_w0 s0) 0 = 3).
    { intros p Hp. rewrite (W2 p Hp). transitivity (sum_to 3 (fun _ => 1)); [|unfold sum_to, sum_over; cbn; lra].
      replace (length (nth p cube_nbrs [])) with 3%nat by (do 8 (destruct p as [|p]; [reflexivity|]); lia). apply sum_to_ext. intros m Hm.
      assert (HB : bond_at cube_nbrs p (offset cube_nbrs p + m) (nth m (nth p cube_nbrs []) 0%nat)). { apply bond_at_lt; [exact Hp|]. do 8 (destruct p as [|p]; [cbn; lia|]). lia. }
      destruct (fresh_bond _ _ _ _ _ _ _ _ _ B _ _ _ HB) as (w & d & C1 & C2 & C3 & _). cbn [Nat.add]. rewrite (om_nth _ _ _ C1), C3. apply nth_error_In, repeat_spec in C2. subst d. unfold ex_om, cube_v. rewrite nth_repeat_lt by apply (cube_bond _ _ _ HB). lra. }
    intros p k j HB. destruct (cube_bond p k j HB) as (Z1 & Z2 & ->). rewrite !Z by auto. lra. }
  destruct (precompute_fresh _ _ _ _ _ _ _ _ _ _ _ _ _ _ _ _ _ E A B (proj1 RP)) as (_ & _ & HD & HV & E0).
  assert (LG : length Gs = length cube_nbrs). { apply gradients_spec in HV as [HV _]. exact HV. }
  assert (FA : forall p, (p < 8)%nat -> eq3 (ten_of Fs p) cube_stretch).
  { intros p Hp. assert (Hn : nth_error cube_nbrs p = Some (nth p cube_nbrs [])) by now apply nth_error_nth'. destruct (cube_resolved p Hp) as (X & h & bs & R1 & R2 & R3).
    destruct (C77_affine ex_om cube_svd 1 cube_x cube_v (repeat 1 8) cube_nbrs s0 (repeat 0 8) [] s0 (repeat 0 8) (repeat 0 8) cube_dmg cube_u cube_u s1 Fs Gs p X h bs (nth p cube_nbrs []) cube_stretch vzero HI eq_refl E RP Hn R1 R2 ltac:(lia) R3) as (F & F1 & F2).
    - intros j Y U _ HY HU i Hi. clear -HY HU Hi. do 8 (destruct j as [|j]; [cbn in HY, HU; injection HY as <-; injection HU as <-; i3 i Hi; unfold image, sum3, cube_stretch; cbn; to_R; change (T RN) with R; lra|]). destruct j; discriminate.
    - unfold ten_of. rewrite (nth_error_nth _ _ mzero F1). exact F2. }
  destruct (C78_stops sinf cosf (hooke (N:=RN) K mu) 1 cube_x (moved cube_x cube_u) cube_u cube_v cube_nbrs s1 Fs Gs (ba_bonds (N:=RN) cube_nbrs) (ba_stresses (N:=RN) cube_nbrs)) as [[[[[st1 g1] f] HR] _]|[_ [(p & Hp & HZ)|(p & k & j & Fb & HB & _ & HL & HZ)]]].
  - unfold ba_data. rewrite E0. repeat (split; [first [reflexivity|assumption]|]). exact L3.
  - exact FIT.
  - now rewrite E0.
  - exact L5.
  - exact LG.
  - reflexivity.
  - reflexivity.
  - assert (FS : force_step ex_om sinf cosf (hooke (N:=RN) K mu) cube_svd 1 cube_x cube_v (repeat 1 8) cube_nbrs 1 (repeat 0 8, cube_dmg, cube_u, cube_u) (s0, repeat 0 8, ba_bonds (N:=RN) cube_nbrs, ba_stresses (N:=RN) cube_nbrs) = Ok (s1, repeat 0 8, st1, g1, f)).
    { unfold force_step. rewrite E. cbn [bind]. rewrite HR. reflexivity. }
    destruct (C78_history ex_om sinf cosf (hooke (N:=RN) K mu) cube_svd 1 cube_x cube_v (repeat 1 8) cube_nbrs 1 s0 (repeat 0 8) [] _ (repeat 0 8) cube_dmg cube_u cube_u _ f HI eq_refl FS) as [M1 M2]; auto.
    + exact cube_mutual.
    + apply C78_elastic.
    + apply cube_even.
    + intros. unfold ex_om. lra.
    + constructor; [|constructor]. split; [apply cube_even|reflexivity].
    + exists s0. do 2 eexists. split; [exact HI|]. split; [exact AP|]. split; [exact RP|]. split; [exact FS|]. split; [exact M1|]. apply M2; [lia|]. exact cube_resolved.
  - exfalso. revert HZ. unfold det3. rewrite !(FA p Hp _ _) by lia. unfold cube_stretch. cbn. lra.
  - exfalso. destruct (cube_bond p k j HB) as (Z1 & Z2 & Z3). destruct (C77_bond_level (nth p Fs mzero) (nth j Fs mzero) (between cube_x p j) (between (moved cube_x cube_u) p j)) as (_ & U & _); [lra|].
    assert (EF : eq3 Fb cube_stretch).
    { intros a c Ha Hc. rewrite (U Fb HL a c Ha Hc). apply C77_bond_affine; auto; [lra|apply FA; auto|apply FA; auto|]. clear -Z1 Z2. intros i Hi. unfold between, at3, moved, cube_x, cube_u.
      do 8 (destruct p as [|p]; [do 8 (destruct j as [|j]; [i3 i Hi; unfold image, sum3, cube_stretch; cbn; to_R; change (T RN) with R; lra|]); lia|]). lia. }
    revert HZ. unfold det3. rewrite !(EF _ _) by lia. unfold cube_stretch. cbn. lra.
Qed.

(** the whole cube under a uniform stress and an affine velocity *)
Example C78_intact_met : forall P0 A b w, length w = 8%nat -> affine A b cube_x w -> exists s0 Is f out,
  ba_initialize (N:=RN) ex_om cube_svd 1 cube_x cube_v (repeat 1 8) cube_nbrs = Ok s0 /\
  integrals (N:=RN) cube_x cube_v (s_w0 s0) (s_wt s0) (repeat P0 (num_bonds cube_nbrs)) 0 0 cube_nbrs = Ok Is /\
  run_kernel (ba_force (N:=RN) cube_x cube_v (s_w0 s0) (s_wt s0) (repeat P0 (num_bonds cube_nbrs)) Is) cube_nbrs (repeat vzero (length cube_nbrs)) = Ok (f, out) /\
  power cube_v w f = - (ddot (ent P0) A * 8).
Proof.
  intros P0 A b w Lw HA. destruct (C78_met (fun _ => 0) (fun _ => 0) 1 1) as (s0 & _ & _ & HI & AP & _). destruct (initialize_fresh _ _ _ _ _ _ _ _ HI) as (_ & B & W).
  pose proof (volumes_spec _ _ _ _ _ W) as [L0 _]. pose proof (proj1 B) as L1.
  destruct (forces_total cube_x cube_v (s_w0 s0) (s_wt s0) cube_nbrs (repeat P0 (num_bonds cube_nbrs))) as (Is & f & out & E1 & E2); auto; [apply cube_mutual|]. exists s0, Is, f, out. do 3 (split; [assumption|]).
  apply all_fresh_iff in B. destruct (C78_weights _ _ _ _ _ _ _ _ _ B) as (W1 & W2 & W3); [intros; unfold ex_om; lra|apply cube_even|apply cube_even|].
  rewrite (C78_intact cube_x w cube_v (s_w0 s0) (s_wt s0) P0 Is cube_nbrs f out A b E1 E2 W); auto.
  - unfold sum_to, sum_over. cbn. f_equal. f_equal. lra.
  - unfold cube_nbrs. repeat constructor; discriminate.
  - exact cube_mutual.
  - apply W3; [lia|exact cube_resolved].
Qed.

(** The tensors of the points are for output only, and still stop the run: one corner of the
    cube pressed into the plane of its neighbours, every bond with a regular gradient. *)
Definition dent_u : list (V3 RN) := v3 (N:=RN) (1 / 3) (1 / 3) (1 / 3) :: repeat vzero 7.
Definition dent_row (p : nat) : nat -> R := match p with 0%nat => fun _ => 1 / 3 | 1%nat => fun c => kron c 0 / 3 | 2%nat => fun c => kron c 1 / 3 | 4%nat => fun c => kron c 2 / 3 | _ => fun _ => 0 end.
Definition dent_at (p : nat) : mat := fun i c => kron i c - dent_row p c.
Definition dent_shift (p : nat) : V3 RN := match p with 0%nat | 1%nat | 2%nat | 4%nat => v3 (N:=RN) (1 / 3) (1 / 3) (1 / 3) | _ => vzero end.
Definition dent_bond (p j : nat) : mat := fun i c => if Req_EM_T (comp (between cube_x p j) c) 0 then average (dent_at p) (dent_at j) i c else comp (between (moved cube_x dent_u) p j) i / comp (between cube_x p j) c.
Theorem C78_output_refuted : forall sinf cosf K mu, exists s0 s1 Fs Gs,
  ba_initialize (N:=RN) ex_om cube_svd 1 cube_x cube_v (repeat 1 8) cube_nbrs = Ok s0 /\
  ba_precompute (N:=RN) ex_om cube_svd 1 cube_x cube_v (repeat 1 8) cube_nbrs (repeat 0 8) (repeat 0 8) cube_dmg dent_u dent_u s0 = Ok (s1, Fs, Gs) /\
  (forall p k j Fb, bond_at cube_nbrs p k j -> bond_level (average (ten_of Fs p) (ten_of Fs j)) (between cube_x p j) (between (moved cube_x dent_u) p j) Fb -> 1 / 3 <= det3 Fb) /\
  ba_compute_force (N:=RN) sinf cosf (hooke (N:=RN) K mu) 1 cube_x (moved cube_x dent_u) dent_u cube_v cube_nbrs s1 Fs Gs (ba_bonds (N:=RN) cube_nbrs) (ba_stresses (N:=RN) cube_nbrs) = Err.
Proof.
  intros sinf cosf K mu. assert (FIT : bonds_fit (length cube_x) cube_nbrs) by (split; [cbn; lia|exact (proj1 (proj2 cube_mutual))]).
  destruct (C77_runs ex_om cube_svd 1 cube_x cube_v (repeat 1 8) cube_nbrs FIT) as [(s0 & HI & L1 & L2) HP]; [cbn; lia|cbn; lia|].
  destruct (HP (repeat 0 8) (repeat 0 8) cube_dmg dent_u dent_u s0) as (s1 & Fs & Gs & E & L3 & L4 & L5); auto; try (cbn; lia).
  assert (RP : reported cube_nbrs (repeat 0 8) (repeat 0 (num_bonds cube_nbrs)) [(repeat 0 8, cube_dmg, dent_u, dent_u)]) by (split; [intros; left; reflexivity|exact Logic.I]).
  assert (FA : forall p, (p < 8)%nat -> eq3 (ten_of Fs p) (dent_at p)).
  { intros p Hp. assert (Hn : nth_error cube_nbrs p = Some (nth p cube_nbrs [])) by now apply nth_error_nth'. destruct (cube_resolved p Hp) as (X & h & bs & R1 & R2 & R3).
    destruct (C77_affine ex_om cube_svd 1 cube_x cube_v (repeat 1 8) cube_nbrs s0 (repeat 0 8) [] s0 (repeat 0 8) (repeat 0 8) cube_dmg dent_u dent_u s1 Fs Gs p X h bs (nth p cube_nbrs []) (dent_at p) (dent_shift p) HI eq_refl E RP Hn R1 R2 ltac:(lia) R3) as (F & F1 & F2).
    - intros j Y U Hj HY HU i Hi. clear -Hj HY HU Hi Hp.
      do 8 (destruct p as [|p]; [cbn in Hj; repeat (destruct Hj as [<-|Hj]; [cbn in HY, HU; injection HY as <-; injection HU as <-; unfold image, sum3, dent_at, dent_row, dent_shift, kron; i3 i Hi; cbn; to_R; change (T RN) with R; lra|]); destruct Hj|]). lia.
    - unfold ten_of. rewrite (nth_error_nth _ _ mzero F1). exact F2. }
  assert (BB : forall p k j Fb, bond_at cube_nbrs p k j -> bond_level (average (ten_of Fs p) (ten_of Fs j)) (between cube_x p j) (between (moved cube_x dent_u) p j) Fb -> 1 / 3 <= det3 Fb).
  { intros p k j Fb HB HL. pose proof (cube_bond p k j HB) as (Z1 & Z2 & Z3).
    assert (EF : eq3 Fb (dent_bond p j)).
    { apply (bond_level_unique (average (ten_of Fs p) (ten_of Fs j)) (between cube_x p j) (between (moved cube_x dent_u) p j)); [lra|exact HL|]. split.
      - intros i Hi. clear -HB Hi. destruct HB as (js & m & H1 & H2 & _). unfold image, sum3, dent_bond.
        do 8 (destruct p as [|p]; [cbn in H1; injection H1 as <-; do 3 (destruct m as [|m]; [cbn in H2; injection H2 as <-; unfold between, at3; cbn; to_R; change (T RN) with R; repeat (match goal with |- context [Req_EM_T ?a ?b] => destruct (Req_EM_T a b); try lra end); field_simplify; try lra|]); destruct m; discriminate|]). destruct p; discriminate.
      - intros t Ht i Hi. transitivity (image (average (dent_at p) (dent_at j)) t i); [|unfold image, sum3, average; rewrite !(FA p Z1 i), !(FA j Z2 i) by lia; reflexivity]. clear -HB Hi Ht. destruct HB as (js & m & H1 & H2 & _). unfold image, sum3, dent_bond, average. destruct t as [t1 t2 t3]. revert Ht.
        do 8 (destruct p as [|p]; [cbn in H1; injection H1 as <-; do 3 (destruct m as [|m]; [cbn in H2; injection H2 as <-; unfold between, at3, vdot; cbn; to_R; change (T RN) with R; intros Ht; repeat (match goal with |- context [Req_EM_T ?a ?b] => destruct (Req_EM_T a b); try lra end);
          first [replace t1 with 0 by lra; lra|replace t2 with 0 by lra; lra|replace t3 with 0 by lra; lra]|]); destruct m; discriminate|]). destruct p; discriminate. }
    unfold det3. rewrite !(EF _ _) by lia. clear -HB. destruct HB as (js & m & H1 & H2 & _). unfold dent_bond, average, dent_at, dent_row, kron.
    do 8 (destruct p as [|p]; [cbn in H1; injection H1 as <-; do 3 (destruct m as [|m]; [cbn in H2; injection H2 as <-; unfold between, at3; cbn; to_R; change (T RN) with R; repeat (match goal with |- context [Req_EM_T ?a ?b] => destruct (Req_EM_T a b); try lra end)|]); destruct m; discriminate|]). destruct p; discriminate. }
  exists s0, s1, Fs, Gs. split; [exact HI|]. split; [exact E|]. split; [exact BB|].
  unfold ba_compute_force. destruct (node_code Fs =? 0)%Z eqn:EN; [exfalso|reflexivity]. apply Z.eqb_eq, node_code_iff in EN. rewrite Forall_forall in EN. apply (EN (nth 0 Fs mzero)); [apply nth_In; rewrite L5; cbn; lia|].
  unfold det3. fold (ten_of Fs 0). rewrite !(FA 0%nat ltac:(lia) _ _) by lia. unfold dent_at, dent_row, kron. cbn. lra.
Qed.
Print Assumptions C78_output_refuted.
