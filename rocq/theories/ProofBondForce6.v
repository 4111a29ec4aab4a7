(** * When a force evaluation stops *)
From Coq Require Import Reals Lra Lia.
From Verif Require Import Base Num ModelNeigh SpecDamage ModelForce SpecForce ModelCorr SpecCorr
  ProofData ProofDamage ProofForce ProofKernels ProofCorr ProofCorr2 ProofCorr3 ProofCorr4 ProofCorr5 ProofTangent ProofBondAssoc ProofBondAssoc2 ProofBondAssoc3 ProofBondAssoc4 ProofBondForce ProofBondForce2 ProofBondForce3 ProofBondForce4 ProofBondForce5
  ModelBondAssoc SpecBondAssoc SpecBondForce.
Local Open Scope R_scope.
Local Notation vec := (V3 RN).
Local Notation ten := (M3 RN).

Ltac at_l l i := let a := fresh "a" in let E := fresh "E" in destruct (at_lt _ l i) as [a E]; [try (change (T RN) with R in *; lia)|rewrite E; cbn [bind]].
Section Sc.
Variables (sinf cosf : R -> R) (dt : R) (n : nat) (x y vel : list vec) (Fs Gs : list ten) (wt : list (bw (N:=RN))) (st : list (bst (N:=RN))).
Hypothesis (Lx : length x = n) (Ly : length y = n) (Lvel : length vel = n) (LF : length Fs = n) (LG : length Gs = n).
Definition flat_bond (p j : nat) : Prop := det3 (ent (bond_gradient (N:=RN) (mean (nth p Fs mzero) (nth j Fs mzero)) (between x p j) (between y p j))) = 0.
Lemma step_total : forall om xi dY dU F FP G GP s, (exists o, bond_step (N:=RN) sinf cosf dt om xi dY dU F FP G GP s = Ok o /\ (0 < om -> det3 (ent (bond_gradient (mean F FP) xi dY)) <> 0)) \/
  (bond_step (N:=RN) sinf cosf dt om xi dY dU F FP G GP s = Err /\ 0 < om /\ det3 (ent (bond_gradient (mean F FP) xi dY)) = 0).
Proof.
  intros om xi dY dU F FP G GP s. unfold bond_step. cbv zeta. destruct (ltb (n:=RN) (ofZ 0) om) eqn:E.
  - assert (0 < om) by (cbn in E; unfold Rltb in E; destruct (Rlt_dec 0 om); [auto|discriminate]). destruct (Req_dec (det3 (ent (bond_gradient (mean F FP) xi dY))) 0) as [Z|NZ].
    + right. rewrite (invert_singular _ Z). auto.
    + left. destruct (invert_regular _ NZ) as (Fi & EI & _). rewrite EI. cbn [Z.ltb Z.compare]. match goal with |- context [rotation_step (N:=RN) sinf cosf dt ?L ?V ?Q] => destruct (rotation_step (N:=RN) sinf cosf dt L V Q) as [[V1 R1] d] end. eauto.
  - left. eexists. split; [reflexivity|]. intros H. cbn in E. unfold Rltb in E. destruct (Rlt_dec 0 om); [discriminate|lra].
Qed.
Lemma at_nth3 : forall (l : list vec) p, (p < length l)%nat -> at_ub l p = Ok (at3 l p).
Proof. intros l p H. unfold at_ub, at3. now rewrite (nth_error_nth' l vzero H). Qed.
Lemma at_nthm : forall (l : list ten) p, (p < length l)%nat -> at_ub l p = Ok (nth p l mzero).
Proof. intros l p H. unfold at_ub. now rewrite (nth_error_nth' l mzero H). Qed.
Lemma steps_total : forall p js k, Forall (fun j => (j < n)%nat) js -> (k + length js <= length wt)%nat -> (k + length js <= length st)%nat ->
  (exists kin, bond_steps (N:=RN) sinf cosf dt x y vel Fs Gs wt st (at3 x p) (at3 y p) (at3 vel p) (nth p Fs mzero) (nth p Gs mzero) k js = Ok kin) \/
  (bond_steps (N:=RN) sinf cosf dt x y vel Fs Gs wt st (at3 x p) (at3 y p) (at3 vel p) (nth p Fs mzero) (nth p Gs mzero) k js = Err /\
   exists m j, nth_error js m = Some j /\ 0 < om_of wt (k + m) /\ flat_bond p j).
Proof.
  intros p. induction js as [|j js IH]; intros k F Hw Hs; cbn [bond_steps]; [left; eauto|]. apply Forall_cons_iff in F as [F1 F2]. cbn [length] in Hw, Hs. at_l wt k. at_l st k. apply at_ub_Ok in E.
  assert (EB : (if ltb (n:=RN) (ofZ 0) (w_om a) then let? XP := at_ub x j in let? YP := at_ub y j in let? UP := at_ub vel j in let? FP := at_ub Fs j in let? GP := at_ub Gs j in
      bond_step (N:=RN) sinf cosf dt (w_om a) (vsub XP (at3 x p)) (vsub YP (at3 y p)) (vsub UP (at3 vel p)) (nth p Fs mzero) FP (nth p Gs mzero) GP a0
      else bond_step (N:=RN) sinf cosf dt (w_om a) vzero vzero vzero (nth p Fs mzero) (nth p Fs mzero) (nth p Gs mzero) (nth p Gs mzero) a0)
    = step_of sinf cosf dt x y vel Fs Gs (w_om a) p j a0).
  { destruct (ltb (n:=RN) (ofZ 0) (w_om a)) eqn:E1; [|unfold step_of, bond_step; rewrite E1; reflexivity]. rewrite !at_nth3, !at_nthm by lia. reflexivity. }
  rewrite EB. destruct (step_total (w_om a) (between x p j) (between y p j) (between vel p j) (nth p Fs mzero) (nth j Fs mzero) (nth p Gs mzero) (nth j Gs mzero) a0) as [(o & EO & _)|(EO & P1 & P2)].
  - unfold step_of. rewrite EO. cbn [bind]. destruct (IH (1 + k)%nat F2 ltac:(lia) ltac:(lia)) as [[r ->]|(-> & m & j' & A & B & C)]; cbn [bind]; [left; eauto|]. right. split; auto. exists (S m), j'. replace (k + S m)%nat with (1 + k + m)%nat by lia. auto.
  - unfold step_of. rewrite EO. right. split; auto. exists 0%nat, j. rewrite Nat.add_0_r, (om_nth _ _ _ E). auto.
Qed.
Lemma kin_total : forall nbrs p k, Forall (Forall (fun j => (j < n)%nat)) nbrs -> (k + num_bonds nbrs <= length wt)%nat -> (k + num_bonds nbrs <= length st)%nat -> (p + length nbrs <= n)%nat ->
  (exists kin, bond_kinematics (N:=RN) sinf cosf dt x y vel Fs Gs wt st p k nbrs = Ok kin) \/
  (bond_kinematics (N:=RN) sinf cosf dt x y vel Fs Gs wt st p k nbrs = Err /\ exists q l j, bond_at nbrs q l j /\ 0 < om_of wt (k + l) /\ flat_bond (p + q) j).
Proof.
  induction nbrs as [|js rest IH]; intros p k F Hw Hs Hp; cbn [bond_kinematics]; [left; eauto|]. apply Forall_cons_iff in F as [F1 F2]. rewrite num_bonds_cons in *. cbn [length] in *.
  rewrite !at_nth3, !at_nthm by lia. cbn [bind]. destruct (steps_total p js k F1 ltac:(lia) ltac:(lia)) as [[l ->]|(-> & m & j & A & B & C)]; cbn [bind].
  - destruct (IH (1 + p)%nat (length js + k)%nat F2 ltac:(lia) ltac:(lia) ltac:(lia)) as [[r ->]|(-> & q & i & j & A & B & C)]; cbn [bind]; [left; eauto|]. right. split; auto. exists (S q), (length js + i)%nat, j.
    split; [destruct A as (js' & m & A1 & A2 & ->); exists js', m; repeat split; auto; rewrite offset_S; lia|]. replace (k + (length js + i))%nat with (length js + k + i)%nat by lia. replace (p + S q)%nat with (1 + p + q)%nat by lia. auto.
  - right. split; auto. exists 0%nat, m, j. rewrite Nat.add_0_r. split; auto. exists js, m. repeat split; auto.
Qed.
Lemma integral_total : forall (v w0 : list R) P (X : vec) (w : R) js k acc, length v = n -> length w0 = n -> Forall (fun j => (j < n)%nat) js -> (k + length js <= length wt)%nat -> (k + length js <= length P)%nat ->
  exists S, integral_sum (N:=RN) x v w0 wt P X w k js acc = Ok S.
Proof using Lx. clear Ly Lvel LG LF Gs Fs y vel.
  intros v w0 P X w. induction js as [|j js IH]; intros k acc Hv H0 F Hw HP; cbn [integral_sum]; eauto. apply Forall_cons_iff in F as [F1 F2]. cbn [length] in *. at_l wt k. change (T RN) with R in *.
  destruct (ltb (n:=RN) (ofZ 0) (w_om a)).
  - at_l v j. at_l x j. at_l w0 j. at_l P k. apply IH; auto; lia.
  - cbn [bind]. apply IH; auto; lia.
Qed.
Lemma integrals_total : forall (v w0 : list R) P nbrs p k, length v = n -> length w0 = n -> Forall (Forall (fun j => (j < n)%nat)) nbrs -> (k + num_bonds nbrs <= length wt)%nat -> (k + num_bonds nbrs <= length P)%nat -> (p + length nbrs <= n)%nat ->
  exists Is, integrals (N:=RN) x v w0 wt P p k nbrs = Ok Is.
Proof using Lx. clear Ly Lvel LG LF Gs Fs y vel.
  intros v w0 P. induction nbrs as [|js rest IH]; intros p k Hv H0 F Hw HP Hp; cbn [integrals]; eauto. apply Forall_cons_iff in F as [F1 F2]. rewrite num_bonds_cons in *. cbn [length] in *. change (T RN) with R in *. at_l x p. at_l w0 p.
  destruct (integral_total v w0 P a a0 js k mzero) as [s ->]; auto; try lia. cbn [bind]. destruct (IH (1 + p)%nat (length js + k)%nat) as [r ->]; auto; try lia. cbn [bind]. eauto.
Qed.
End Sc.

Lemma node_code_iff : forall Fs, node_code (N:=RN) Fs = 0%Z <-> Forall (fun F : ten => det3 (ent F) <> 0) Fs.
Proof.
  assert (K : forall Fs rc, (0 <= rc)%Z -> fold_left (fun rc (F : ten) => let '(c, _, _) := invert F in if Z.ltb 0 c then c else rc) Fs rc = 0%Z <-> rc = 0%Z /\ Forall (fun F : ten => det3 (ent F) <> 0) Fs).
  { induction Fs as [|F Fs IH]; intros rc Hrc; cbn [fold_left]; [split; [auto|tauto]|]. rewrite Forall_cons_iff. destruct (Req_dec (det3 (ent F)) 0) as [Z|NZ].
    - rewrite (invert_singular _ Z). cbn [Z.ltb Z.compare]. rewrite IH by lia. split; [intros [? _]; lia|intros (_ & ? & _); contradiction].
    - destruct (invert_regular _ NZ) as (Fi & -> & _). cbn [Z.ltb Z.compare]. rewrite IH by lia. tauto. }
  intros Fs. unfold node_code. rewrite K by lia. tauto.
Qed.
Lemma node_flat : forall Fs, node_code (N:=RN) Fs <> 0%Z -> exists p, (p < length Fs)%nat /\ det3 (ten_of Fs p) = 0.
Proof.
  intros Fs H. destruct (Forall_Exists_dec (fun F : ten => det3 (ent F) <> 0)) with (l := Fs) as [A|A].
  - intros F. destruct (Req_EM_T (det3 (ent F)) 0); [right; tauto|now left].
  - contradict H. now apply node_code_iff.
  - apply Exists_exists in A as (F & I1 & I2). apply (In_nth _ _ mzero) in I1 as (p & Hp & E). exists p. split; auto. unfold ten_of. rewrite E. destruct (Req_dec (det3 (ent F)) 0); tauto.
Qed.
Lemma forces_total : forall (x : list vec) (v w0 : list R) (wt : list (bw (N:=RN))) nbrs P, length x = length nbrs -> length v = length nbrs -> length w0 = length nbrs -> length wt = num_bonds nbrs -> length P = num_bonds nbrs ->
  Forall (Forall (fun j => (j < length nbrs)%nat)) nbrs ->
  exists Is f out, integrals (N:=RN) x v w0 wt P 0 0 nbrs = Ok Is /\ run_kernel (ba_force (N:=RN) x v w0 wt P Is) nbrs (repeat vzero (length nbrs)) = Ok (f, out).
Proof.
  intros * Lx Lv L0 Lw LP FB.
  destruct (integrals_total (length nbrs) x wt Lx v w0 P nbrs 0 0) as [Is HI]; auto; try lia. exists Is.
  destruct (run_total (ba_force (N:=RN) x v w0 wt P Is) nbrs (repeat vzero (length nbrs))) as (f & out & HR & _); [|exists f, out; auto].
  pose proof HI as HI'. apply integrals_spec in HI' as [LI _]. rewrite repeat_length. change (T RN) with R in *. split.
  - intros p js Hp. cbn [pre ba_force]. change (T RN) with R. assert ((p < length nbrs)%nat) by (apply nth_error_Some; congruence). at_l x p. at_l w0 p. at_l Is p. eauto.
  - intros p js d k j Hp Hd HB. cbn [pre bond vols ba_force] in *. destruct (bond_at_bound _ _ _ _ HB) as [B1 B2].
    assert (Hj : (j < length nbrs)%nat). { destruct HB as (js' & m & A1 & A2 & _). rewrite Forall_forall in FB. specialize (FB js' (nth_error_In _ _ A1)). rewrite Forall_forall in FB. apply FB. now apply nth_error_In in A2. }
    repeat split; auto.
    + destruct d as [[X w] Si]. at_l wt k. destruct (ltb (n:=RN) (ofZ 0) (w_om a)); [|eauto]. at_l x j. at_l P k. eauto.
    + unfold cell_volumes. change (T RN) with R. at_l v j. at_l v p. eauto.
Qed.
Lemma force_total : forall sinf cosf cauchy dt (x y vel : list vec) (v : list R) nbrs (s : ba_state (N:=RN)) Fs Gs st sN,
  ba_data (length nbrs) nbrs x y vel v (s_w0 s) (s_wt s) -> Forall (Forall (fun j => (j < length nbrs)%nat)) nbrs -> length Fs = length nbrs -> length Gs = length nbrs -> length st = num_bonds nbrs -> length sN = num_bonds nbrs ->
  (exists r, ba_compute_force (N:=RN) sinf cosf cauchy dt x y vel v nbrs s Fs Gs st sN = Ok r) \/
  (ba_compute_force (N:=RN) sinf cosf cauchy dt x y vel v nbrs s Fs Gs st sN = Err /\ ((exists p, (p < length nbrs)%nat /\ det3 (ten_of Fs p) = 0) \/ exists p k j, bond_at nbrs p k j /\ 0 < om_of (s_wt s) k /\ flat_bond x y Fs p j)).
Proof.
  intros * (_ & Lx & Ly & Lvel & Lv & L0 & Lw) FB LF LG Lst LsN. unfold ba_compute_force. destruct (node_code Fs =? 0)%Z eqn:EN; cbn [negb]; [|right; split; auto; left; rewrite <- LF; apply node_flat, Z.eqb_neq, EN].
  destruct (kin_total sinf cosf dt (length nbrs) x y vel Fs Gs (s_wt s) st Lx Ly Lvel LF LG nbrs 0 0 FB ltac:(lia) ltac:(lia) ltac:(lia)) as [[kin HK]|(-> & B)]; [|right; auto]. left.
  pose proof (proj1 (kin_spec _ _ _ _ _ _ _ _ _ _ _ _ HK)) as LK. rewrite HK. cbn [bind]. cbv zeta. set (s1 := map _ (combine kin sN)). set (P := map _ (combine kin s1)).
  assert (LP : length P = num_bonds nbrs) by (unfold P, s1; rewrite map_length, combine_length, map_length, combine_length; lia). clearbody P s1.
  destruct (forces_total x v (s_w0 s) (s_wt s) nbrs P Lx Lv L0 Lw LP FB) as (Is & f & out & -> & HR). cbn [bind]. change (T RN) with R in *. rewrite Ly, HR. cbn [bind]. eauto.
Qed.
Lemma force_sound : forall sinf cosf cauchy dt (x y vel : list vec) (v : list R) nbrs (s : ba_state (N:=RN)) Fs Gs st sN r,
  ba_compute_force (N:=RN) sinf cosf cauchy dt x y vel v nbrs s Fs Gs st sN = Ok r -> forall p k j, bond_at nbrs p k j -> 0 < om_of (s_wt s) k -> ~ flat_bond x y Fs p j.
Proof.
  intros * H p k j HB Hom. destruct r as [[st1 s1] f]. apply force_parts in H as (kin & Is & out & HK & _). apply kin_spec in HK as [_ D]. destruct (D p k j HB) as (w & s0 & o & A1 & _ & _ & A4). rewrite (om_nth _ _ _ A1) in Hom.
  unfold step_of in A4. match type of A4 with bond_step ?a ?b ?c ?d ?e ?f ?g ?h ?i ?j ?k ?l = _ => destruct (step_total a b c d e f g h i j k l) as [(o' & _ & K)|(E & _)] end; [now apply K|congruence].
Qed.
Lemma force_nodes : forall sinf cosf cauchy dt (x y vel : list vec) (v : list R) nbrs (s : ba_state (N:=RN)) Fs Gs st sN r,
  ba_compute_force (N:=RN) sinf cosf cauchy dt x y vel v nbrs s Fs Gs st sN = Ok r -> forall p, (p < length Fs)%nat -> det3 (ten_of Fs p) <> 0.
Proof.
  intros * H p Hp. unfold ba_compute_force in H. destruct (node_code Fs =? 0)%Z eqn:EN; [|discriminate]. apply Z.eqb_eq, node_code_iff in EN. rewrite Forall_forall in EN. apply EN. now apply nth_In.
Qed.
