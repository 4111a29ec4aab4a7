(** * Whole evaluations of the plastic solids (C14, C15) *)
From Coq Require Import ZArith Reals Lra Lia.
From Verif Require Import Base Num ModelNeigh SpecDamage ModelForce SpecForce ModelPlastic SpecPlastic.
From Verif Require Import ProofData ProofCopy ProofDamage ProofForce ProofKernels ProofFrame ProofMaterial ProofCubic ProofPlastic.
Local Open Scope R_scope.
Local Notation vec := (V3 RN).

Lemma yield_R : forall sigma h pl, 0 < h -> opt_ok (Rlt 0) pl -> yield_value (N:=RN) sigma h pl = yield_point sigma h pl.
Proof. intros sigma h [th|] Hh Hp; [now apply yield_value_planar_R|now apply yield_value_R]. Qed.
Lemma yield_point_pos : forall sigma h pl, 0 < sigma -> 0 < h -> opt_ok (Rlt 0) pl -> 0 < yield_point sigma h pl.
Proof.
  intros sigma h pl Hs Hh Hp. pose proof PI_RGT_0. assert (0 < h ^ 5) by now apply pow_lt. assert (0 < h ^ 4) by now apply pow_lt.
  assert (0 < sigma * sigma) by nra.
  destruct pl as [th|]; cbn [opt_ok] in Hp; unfold yield_point, yield_of, yield_of_planar; apply Rmult_lt_0_compat; try nra; apply Rinv_0_lt_compat; repeat (apply Rmult_lt_0_compat; try assumption); lra.
Qed.
Lemma nth_in : forall (l : list R) p a, nth_error l p = Some a -> nth p l 0 = a.
Proof. intros. now apply nth_error_nth. Qed.
Lemma some_in : forall A (l : list A) n p, length l = n -> (p < n)%nat -> exists a, nth_error l p = Some a.
Proof. intros A l n p L H. destruct (nth_error l p) eqn:E; eauto. apply nth_error_None in E. lia. Qed.

Section Generic.
  Variables (rm : @plastic_pre RN -> R -> R) (K : R) (nbrs : list (list nat)) (n : nat) (x y : list vec) (v dmg : list R).
  Variables (P : list R -> list R -> nat -> nat -> list nat -> outcome (@plastic_pre RN)).
  Let Kn edp lam : kernel RN (@plastic_pre RN) (R * R) := Kernel (N:=RN) _ _ (P edp lam) (plastic_bond (N:=RN) rm K x y dmg edp) (cell_volumes (N:=RN) v).
  Variables (H : R) (psi al th mm : nat -> R) (edp lam : list R).
  Hypothesis Hv : Forall (Rle 0) v.
  Hypothesis Hlam : length lam = length nbrs.
  Hypothesis good1 : forall p js d la, nth_error nbrs p = Some js -> nth_error lam p = Some la -> P edp lam p (offset nbrs p) js = Ok d ->
    good_pre rm x y v dmg edp H (psi p) la p (offset nbrs p) js d /\ pp_alpha d = al p /\ pp_theta d = th p /\ pp_m d = mm p.
  Lemma gen_point : forall f f' out, run_kernel (Kn edp lam) nbrs f = Ok (f', out) ->
    forall p js la, nth_error nbrs p = Some js -> nth_error lam p = Some la ->
    exists trial td la', trial_state x y edp (al p) (th p) p (offset nbrs p) js trial /\
      trial_state x y (new_edp (N:=RN) out) (al p) (th p) p (offset nbrs p) js td /\
      nth_error (new_lambda (N:=RN) out) p = Some la' /\
      yield_outcome H v dmg edp (offset nbrs p) js (psi p) la trial td (new_edp (N:=RN) out) la'.
  Proof.
    intros f f' out Hrun p js la Hp Hla.
    destruct (good_point rm K nbrs x y v dmg edp (P edp lam) H (psi p) la f f' out p js Hrun Hp) as (tr & d & ss & la' & T1 & T2 & T3 & T4 & T5).
    { intros d Hd. exact (proj1 (good1 p js d la Hp Hla Hd)). }
    destruct (good1 p js d la Hp Hla T2) as (_ & Q1 & Q2 & _). rewrite Q1, Q2 in T1.
    exists tr, (map snd ss), la'. split; [exact T1|]. split; [|split; [exact T4|exact T5]].
    split; [exact (proj1 T5)|]. intros i j t Hi Ht.
    destruct (next_bond rm K nbrs x y v dmg P H psi al th mm edp lam Hlam good1 f f' out Hrun p js d ss i j Hp T3 T2 Hi) as (fb & ep1 & td & B1 & B2 & B3 & B4).
    rewrite nth_error_map in Ht. assert (t = td) by (pose proof (eq_trans (eq_sym Ht) (f_equal (option_map snd) B2)) as W; now injection W).
    subst t. exact B4.
  Qed.
End Generic.

(** ** Perfect plasticity *)
Section Perfect.
  Variables (K MU sigma h : R) (planar : option R) (n : nat) (nbrs : list (list nat)) (x y : list vec) (v m theta dmg : list R).
  Hypothesis (Hv : Forall (Rle 0) v) (HMU : 0 < MU) (Hsig : 0 < sigma) (Hh : 0 < h) (Hpl : opt_ok (Rlt 0) planar) (Hm : positive_at_bonds nbrs m).
  Let al p := 15 * MU / nth p m 0.
  Let th p := nth p theta 0.
  Let mm p := nth p m 0.
  Let psi (p : nat) := yield_point sigma h planar.
  Let P edp lam := ep_pre (N:=RN) K MU (yield_value (N:=RN) sigma h planar) x y v m theta dmg edp lam.

  Lemma ep_pre_good : length m = length nbrs -> length theta = length nbrs -> forall edp lam p js d la, nth_error nbrs p = Some js -> nth_error lam p = Some la -> P edp lam p (offset nbrs p) js = Ok d ->
    good_pre (ep_return (N:=RN)) x y v dmg edp 0 (psi p) la p (offset nbrs p) js d /\ pp_alpha d = al p /\ pp_theta d = th p /\ pp_m d = mm p.
  Proof.
    intros Lm Lt edp lam p js d la Hp Hla Hd.
    assert (Lp : (p < length nbrs)%nat) by (apply nth_error_Some; congruence).
    destruct (some_in _ _ _ p Lm Lp) as [mp Emp]. destruct (some_in _ _ _ p Lt Lp) as [tp Etp].
    unfold P in Hd. rewrite yield_R in Hd by auto. unfold al, th, mm, psi. rewrite (nth_in _ _ _ Emp), (nth_in _ _ _ Etp).
    eapply ep_good; eauto using at_Ok, yield_point_pos. intros Hj. pose proof (Hm p js mp Hp Hj Emp).
    apply Rmult_lt_0_compat; [lra|now apply Rinv_0_lt_compat].
  Qed.

  Lemma ep_run_point : forall edp lam f, ep_inputs (N:=RN) n nbrs x y v m theta dmg edp lam -> length f = n ->
    exists f' out, run_kernel (elastic_plastic (N:=RN) K MU sigma h planar x y v m theta dmg edp lam) nbrs f = Ok (f', out) /\
    length (new_edp (N:=RN) out) = num_bonds nbrs /\ length (new_lambda (N:=RN) out) = length nbrs /\ all_le lam (new_lambda (N:=RN) out) /\
    forall p js mp tp la, nth_error nbrs p = Some js -> nth_error m p = Some mp -> nth_error theta p = Some tp -> nth_error lam p = Some la ->
    exists trial td la', trial_state x y edp (15 * MU / mp) tp p (offset nbrs p) js trial /\
      trial_state x y (new_edp (N:=RN) out) (15 * MU / mp) tp p (offset nbrs p) js td /\
      nth_error (new_lambda (N:=RN) out) p = Some la' /\
      yield_outcome 0 v dmg edp (offset nbrs p) js (yield_point sigma h planar) la trial td (new_edp (N:=RN) out) la'.
  Proof.
    intros edp lam f HI Hf.
    assert (HT : total_on (elastic_plastic (N:=RN) K MU sigma h planar x y v m theta dmg edp lam) nbrs n) by (eapply ep_total; eauto).
    rewrite <- Hf in HT. destruct (run_total _ _ _ HT) as (f' & out & Hrun & _). exists f', out. split; [exact Hrun|].
    assert (Ll : length lam = length nbrs) by apply HI.
    assert (Lm : length m = length nbrs) by apply HI. assert (Lt : length theta = length nbrs) by apply HI.
    destruct (lens (ep_return (N:=RN)) K nbrs x y v dmg P edp lam f f' out Hrun) as [L1 L2].
    split; [exact L1|]. split; [exact L2|]. split.
    - refine (grow (ep_return (N:=RN)) K nbrs x y v dmg P 0 psi al th mm edp lam Ll (ep_pre_good Lm Lt edp lam) f f' out Hrun).
    - intros p js mp tp la Hp Emp Etp Hla.
      pose proof (gen_point (ep_return (N:=RN)) K nbrs x y v dmg P 0 psi al th mm edp lam Ll (ep_pre_good Lm Lt edp lam) f f' out Hrun p js la Hp Hla) as G.
      unfold al, th in G. rewrite (nth_in _ _ _ Emp), (nth_in _ _ _ Etp) in G. exact G.
  Qed.

  Lemma ep_again : forall edp lam f f' out, ep_inputs (N:=RN) n nbrs x y v m theta dmg edp lam -> length f = n ->
    run_kernel (elastic_plastic (N:=RN) K MU sigma h planar x y v m theta dmg edp lam) nbrs f = Ok (f', out) ->
    exists out2, run_kernel (elastic_plastic (N:=RN) K MU sigma h planar x y v m theta dmg (new_edp (N:=RN) out) (new_lambda (N:=RN) out)) nbrs f = Ok (f', out2) /\
      new_edp (N:=RN) out2 = new_edp (N:=RN) out /\ new_lambda (N:=RN) out2 = new_lambda (N:=RN) out.
  Proof.
    intros edp lam f f' out HI Hf Hrun. assert (Ll : length lam = length nbrs) by apply HI.
    assert (Lm : length m = length nbrs) by apply HI. assert (Lt : length theta = length nbrs) by apply HI.
    assert (HI' : forall edp' lam', length edp' = num_bonds nbrs -> length lam' = length nbrs -> ep_inputs (N:=RN) n nbrs x y v m theta dmg edp' lam').
    { intros e l H1 H2. destruct HI as (? & ? & ? & ? & ? & ?). repeat split; auto; apply H. }
    destruct (lens (ep_return (N:=RN)) K nbrs x y v dmg P edp lam f f' out Hrun) as [L1 L2].
    refine (again (ep_return (N:=RN)) K nbrs n x y v dmg P 0 psi al th mm edp lam Hv Ll (ep_pre_good Lm Lt edp lam) _ _ f f' out Hrun Hf).
    - intros p js d la edp' lam' Hp Hla _ _ Hd. exact (ep_pre_good Lm Lt edp' lam' p js d la Hp Hla Hd).
    - intros e l H1 H2. exact (ep_total (N:=RN) K MU sigma h planar n nbrs x y v m theta dmg e l (HI' e l H1 H2)).
  Qed.
End Perfect.

(** ** Isotropic hardening *)
Section Hard.
  Variables (dmax K MU Hm sigma h : R) (n : nat) (nbrs : list (list nat)) (x y : list vec) (v m theta dmg scf : list R).
  Hypothesis (Hv : Forall (Rle 0) v) (HMU : 0 < MU) (HHm : 0 < Hm) (Hsig : 0 < sigma) (Hh : 0 < h) (Hd : 0 < dmax).
  Hypothesis (Hmp : positive_at_bonds nbrs m) (Hsp : positive_at_bonds nbrs scf).
  Let al p := nth p scf 0 * 15 * MU / nth p m 0.
  Let th p := nth p theta 0.
  Let mm p := nth p m 0.
  Let psi (p : nat) := nth p scf 0 * nth p scf 0 * yield_of sigma h.
  Let P edp lam := hard_pre (N:=RN) (update_R dmax) K MU Hm (yield_value (N:=RN) sigma h None) x y v m theta dmg scf edp lam.

  Lemma hard_pre_good : length m = length nbrs -> length theta = length nbrs -> length scf = length nbrs -> forall edp lam p js d la, 
    nth_error nbrs p = Some js -> nth_error lam p = Some la -> 0 <= la ->
    (forall ts, trial_state x y edp (al p) (th p) p (offset nbrs p) js ts -> sq_norm v dmg (offset nbrs p) js ts / (2 * Hm) < dmax) ->
    P edp lam p (offset nbrs p) js = Ok d ->
    good_pre (hard_return (N:=RN)) x y v dmg edp Hm (psi p) la p (offset nbrs p) js d /\ pp_alpha d = al p /\ pp_theta d = th p /\ pp_m d = mm p.
  Proof.
    intros Lm Lt Ls edp lam p js d la Hp Hla Hla0 Hb Hpre.
    assert (Lp : (p < length nbrs)%nat) by (apply nth_error_Some; congruence).
    destruct (some_in _ _ _ p Lm Lp) as [mp Emp]. destruct (some_in _ _ _ p Lt Lp) as [tp Etp]. destruct (some_in _ _ _ p Ls Lp) as [s Es].
    unfold P in Hpre. rewrite yield_value_R in Hpre by auto. unfold al, th, mm, psi in *.
    rewrite (nth_in _ _ _ Emp), (nth_in _ _ _ Etp), (nth_in _ _ _ Es) in *.
    eapply hard_good; eauto using at_Ok.
    - apply yield_of_pos; lra.
    - intros Hj. pose proof (Hmp p js mp Hp Hj Emp). pose proof (Hsp p js s Hp Hj Es).
      apply Rmult_lt_0_compat; [|now apply Rinv_0_lt_compat]. apply Rmult_lt_0_compat; lra.
  Qed.

  Variables (edp lam : list R) (f : list vec).
  Hypothesis HI : ep_inputs (N:=RN) n nbrs x y v m theta dmg edp lam.
  Hypothesis Ls : per_point (N:=RN) nbrs scf.
  Hypothesis Hf : length f = n.
  Hypothesis Hl0 : Forall (Rle 0) lam.
  Hypothesis HR : trials_below dmax MU Hm nbrs x y v m theta dmg scf edp.

  Lemma range_at : forall p js, nth_error nbrs p = Some js ->
    forall ts, trial_state x y edp (al p) (th p) p (offset nbrs p) js ts -> sq_norm v dmg (offset nbrs p) js ts / (2 * Hm) < dmax.
  Proof.
    intros p js Hp ts HT. assert (Lm : length m = length nbrs) by apply HI. assert (Lt : length theta = length nbrs) by apply HI.
    unfold per_point in Ls.
    assert (Lp : (p < length nbrs)%nat) by (apply nth_error_Some; congruence).
    destruct (some_in _ _ _ p Lm Lp) as [mp Emp]. destruct (some_in _ _ _ p Lt Lp) as [tp Etp]. destruct (some_in _ _ _ p Ls Lp) as [s Es].
    unfold al, th in HT. rewrite (nth_in _ _ _ Emp), (nth_in _ _ _ Etp), (nth_in _ _ _ Es) in HT. eapply HR; eauto.
  Qed.
  Lemma nonneg_at : forall l p (a : R), Forall (Rle 0) l -> nth_error l p = Some a -> 0 <= a.
  Proof. intros l p a H E. rewrite Forall_forall in H. apply H. eapply nth_error_In; eauto. Qed.

  Lemma hard_g1 : forall p js d la, nth_error nbrs p = Some js -> nth_error lam p = Some la -> P edp lam p (offset nbrs p) js = Ok d ->
    good_pre (hard_return (N:=RN)) x y v dmg edp Hm (psi p) la p (offset nbrs p) js d /\ pp_alpha d = al p /\ pp_theta d = th p /\ pp_m d = mm p.
  Proof.
    intros p js d la Hp Hla Hpre. apply (hard_pre_good (proj1 (proj2 HI)) (proj1 (proj2 (proj2 HI))) Ls edp lam p js d la Hp Hla (nonneg_at _ _ _ Hl0 Hla) (range_at p js Hp) Hpre).
  Qed.

  Lemma hard_run_point :
    exists f' out, run_kernel (hardening (N:=RN) (update_R dmax) K MU Hm sigma h x y v m theta dmg scf edp lam) nbrs f = Ok (f', out) /\
    length (new_edp (N:=RN) out) = num_bonds nbrs /\ length (new_lambda (N:=RN) out) = length nbrs /\ all_le lam (new_lambda (N:=RN) out) /\
    forall p js mp tp s la, nth_error nbrs p = Some js -> nth_error m p = Some mp -> nth_error theta p = Some tp -> nth_error scf p = Some s -> nth_error lam p = Some la ->
    exists trial td la', trial_state x y edp (s * 15 * MU / mp) tp p (offset nbrs p) js trial /\
      trial_state x y (new_edp (N:=RN) out) (s * 15 * MU / mp) tp p (offset nbrs p) js td /\
      nth_error (new_lambda (N:=RN) out) p = Some la' /\
      yield_outcome Hm v dmg edp (offset nbrs p) js (s * s * yield_of sigma h) la trial td (new_edp (N:=RN) out) la'.
  Proof.
    assert (HT : total_on (hardening (N:=RN) (update_R dmax) K MU Hm sigma h x y v m theta dmg scf edp lam) nbrs n) by (eapply hard_total; eauto).
    rewrite <- Hf in HT. destruct (run_total _ _ _ HT) as (f' & out & Hrun & _). exists f', out. split; [exact Hrun|].
    assert (Ll : length lam = length nbrs) by apply HI.
    destruct (lens (hard_return (N:=RN)) K nbrs x y v dmg P edp lam f f' out Hrun) as [L1 L2].
    split; [exact L1|]. split; [exact L2|]. split.
    - refine (grow (hard_return (N:=RN)) K nbrs x y v dmg P Hm psi al th mm edp lam Ll hard_g1 f f' out Hrun).
    - intros p js mp tp s la Hp Emp Etp Es Hla.
      pose proof (gen_point (hard_return (N:=RN)) K nbrs x y v dmg P Hm psi al th mm edp lam Ll hard_g1 f f' out Hrun p js la Hp Hla) as G.
      unfold al, th, psi in G. rewrite (nth_in _ _ _ Emp), (nth_in _ _ _ Etp), (nth_in _ _ _ Es) in G. exact G.
  Qed.

  Lemma hard_again : forall f' out, run_kernel (hardening (N:=RN) (update_R dmax) K MU Hm sigma h x y v m theta dmg scf edp lam) nbrs f = Ok (f', out) ->
    exists out2, run_kernel (hardening (N:=RN) (update_R dmax) K MU Hm sigma h x y v m theta dmg scf (new_edp (N:=RN) out) (new_lambda (N:=RN) out)) nbrs f = Ok (f', out2) /\
      new_edp (N:=RN) out2 = new_edp (N:=RN) out /\ new_lambda (N:=RN) out2 = new_lambda (N:=RN) out.
  Proof.
    intros f' out Hrun. assert (Ll : length lam = length nbrs) by apply HI.
    assert (HI' : forall edp' lam', length edp' = num_bonds nbrs -> length lam' = length nbrs -> ep_inputs (N:=RN) n nbrs x y v m theta dmg edp' lam').
    { intros e l H1 H2. destruct HI as (? & ? & ? & ? & ? & ?). repeat split; auto; apply H. }
    destruct (lens (hard_return (N:=RN)) K nbrs x y v dmg P edp lam f f' out Hrun) as [L1 L2].
    refine (again (hard_return (N:=RN)) K nbrs n x y v dmg P Hm psi al th mm edp lam Hv Ll hard_g1 _ _ f f' out Hrun Hf).
    - intros p js d la edp' lam' Hp Hla G1 G2 Hpre.
      refine (hard_pre_good (proj1 (proj2 HI)) (proj1 (proj2 (proj2 HI))) Ls edp' lam' p js d la Hp Hla _ _ Hpre).
      + assert (Lp : (p < length nbrs)%nat) by (apply nth_error_Some; congruence). destruct (some_in _ _ _ p Ll Lp) as [l0 El0].
        apply (nonneg_at _ _ _ Hl0) in El0 as Hl. revert G1 Hla El0 Hl. clear. unfold all_le. intros G. revert p.
        induction G; intros [|p]; cbn [nth_error]; try discriminate; eauto. intros A B C. injection A as ->. injection B as ->. lra.
      + intros ts' HT'. assert (EX : exists ts, trial_state x y edp (al p) (th p) p (offset nbrs p) js ts).
        { assert (Lp : (p < length nbrs)%nat) by (apply nth_error_Some; congruence). destruct (some_in _ _ _ p Ll Lp) as [l0 El0].
          assert (HT : total_on (hardening (N:=RN) (update_R dmax) K MU Hm sigma h x y v m theta dmg scf edp lam) nbrs n) by (eapply hard_total; eauto).
          destruct (proj1 HT p js Hp) as [d0 Hd0]. destruct (hard_g1 p js d0 l0 Hp El0 Hd0) as ((_ & _ & ts & HTS & _) & Q1 & Q2 & _).
          rewrite Q1, Q2 in HTS. eauto. }
        destruct EX as [ts HTS]. pose proof (G2 ts ts' HTS HT') as LE. pose proof (range_at p js Hp ts HTS) as RA.
        eapply Rle_lt_trans; [|exact RA]. unfold Rdiv. apply Rmult_le_compat_r; auto. left. apply Rinv_0_lt_compat. lra.
    - intros e l H1 H2. exact (hard_total (N:=RN) (update_R dmax) K MU Hm sigma h n nbrs x y v m theta dmg scf e l (HI' e l H1 H2) Ls).
  Qed.
End Hard.

(** ** Load histories *)
Lemma all_le_refl : forall a, all_le a a.
Proof. intros a. unfold all_le. induction a; constructor; auto. lra. Qed.
Lemma all_le_trans : forall a b c, all_le a b -> all_le b c -> all_le a c.
Proof.
  unfold all_le. intros a b c H. revert c. induction H; intros c' H'; inversion H'; subst; constructor; eauto. lra.
Qed.
Lemma all_le_nth : forall a b, length a = length b -> (forall p u w, nth_error a p = Some u -> nth_error b p = Some w -> u <= w) -> all_le a b.
Proof.
  unfold all_le. induction a as [|u a IH]; intros [|w b] L G; try discriminate; constructor.
  - exact (G 0%nat u w eq_refl eq_refl).
  - apply IH; [now injection L|]. intros p c d Hc Hd. exact (G (S p) c d Hc Hd).
Qed.

Section Hist.
  Variables (C S : Type) (eval : S -> C -> outcome S) (I : S -> Prop) (J : C -> Prop) (le : S -> S -> Prop).
  Hypothesis (Hrefl : forall s, le s s) (Htrans : forall a b c, le a b -> le b c -> le a c).
  Hypothesis Hev : forall s c, I s -> J c -> exists s', eval s c = Ok s' /\ I s' /\ le s s'.
  Let fits h := Forall (fun st => Forall J (fst st) /\ J (snd st)) h.
  Lemma step_inv : forall s st, I s -> Forall J (fst st) /\ J (snd st) -> exists s', load_step eval s st = Ok s' /\ eval s (snd st) = Ok s' /\ I s' /\ le s s'.
  Proof.
    intros s [cs c] HI [HJ Hc]. unfold load_step. cbn [fst snd] in *.
    assert (E : foldM (fun _ c => let? _ := eval s c in Ok tt) tt cs = Ok tt).
    { clear Hc. induction HJ as [|d cs Hd HJ IH]; [reflexivity|]. cbn [foldM]. destruct (Hev s d HI Hd) as (s' & E & _). rewrite E. exact IH. }
    rewrite E. cbn [bind]. destruct (Hev s c HI Hc) as (s' & E' & ? & ?). exists s'. auto.
  Qed.
  Lemma hist_inv : forall h s, I s -> fits h -> exists s', history eval s h = Ok s' /\ I s' /\ le s s'.
  Proof.
    induction h as [|st h IH]; intros s HI HF.
    - exists s. repeat split; auto.
    - inversion HF; subst. destruct (step_inv s st HI H1) as (s1 & E1 & _ & I1 & L1). destruct (IH s1 I1 H2) as (s2 & E2 & I2 & L2).
      exists s2. unfold history in *. cbn [foldM]. rewrite E1. cbn [bind]. repeat split; eauto.
  Qed.
  Lemma hist_app : forall h1 h2 s, I s -> fits h1 -> fits h2 ->
    exists s1 s2, history eval s h1 = Ok s1 /\ history eval s (h1 ++ h2) = Ok s2 /\ I s1 /\ I s2 /\ le s s1 /\ le s1 s2.
  Proof.
    intros h1 h2 s HI H1 H2. destruct (hist_inv h1 s HI H1) as (s1 & E1 & I1 & L1). destruct (hist_inv h2 s1 I1 H2) as (s2 & E2 & I2 & L2).
    exists s1, s2. split; [exact E1|]. split; auto. unfold history in *. rewrite foldM_app, E1. exact E2.
  Qed.
  Lemma hist_last : forall h cs c s, I s -> fits h -> Forall J cs -> J c ->
    exists s1 s2, history eval s h = Ok s1 /\ history eval s (h ++ [(cs, c)]) = Ok s2 /\ eval s1 c = Ok s2 /\ I s1 /\ I s2 /\ le s1 s2.
  Proof.
    intros h cs c s HI HF Hcs Hc. destruct (hist_inv h s HI HF) as (s1 & E1 & I1 & L1).
    destruct (step_inv s1 (cs, c) I1 (conj Hcs Hc)) as (s2 & E2 & E3 & I2 & L2).
    exists s1, s2. split; [exact E1|]. split; [|auto]. unfold history in *. rewrite foldM_app, E1. cbn [bind foldM]. rewrite E2. reflexivity.
  Qed.
End Hist.

Section PerfectHist.
  Variables (K MU sigma h : R) (planar : option R) (n : nat) (nbrs : list (list nat)) (x : list vec) (v m : list R).
  Hypothesis (Hv : Forall (Rle 0) v) (HMU : 0 < MU) (Hsig : 0 < sigma) (Hh : 0 < h) (Hpl : opt_ok (Rlt 0) planar) (Hm : positive_at_bonds nbrs m).
  Hypothesis (HC : cloud_ok (N:=RN) n nbrs x x v) (Lm : per_point (N:=RN) nbrs m).
  Let ev := ep_eval (N:=RN) K MU sigma h planar nbrs x v m.
  Let I (s : pstate RN) := length (fst s) = num_bonds nbrs /\ length (snd s) = length nbrs.
  Lemma fits_inputs : forall s c, I s -> config_fits nbrs n c -> ep_inputs (N:=RN) n nbrs x (cf_y c) v m (cf_theta c) (cf_dmg c) (fst s) (snd s).
  Proof. intros s c [I1 I2] (C1 & C2 & C3). destruct HC as (? & ? & ? & ? & ?). repeat split; auto. Qed.
  Lemma zero_len : length (map (fun _ : vec => vzero (N:=RN)) x) = n.
  Proof. rewrite map_length. apply HC. Qed.

  Lemma ep_eval_ok : forall s c, I s -> config_fits nbrs n c -> exists s', ev s c = Ok s' /\ I s' /\ all_le (snd s) (snd s') /\
    admissible MU (yield_point sigma h planar) nbrs x v m c (fst s').
  Proof.
    intros s c HI Hc. destruct (ep_run_point K MU sigma h planar n nbrs x (cf_y c) v m (cf_theta c) (cf_dmg c) Hv HMU Hsig Hh Hpl Hm
      (fst s) (snd s) _ (fits_inputs s c HI Hc) zero_len) as (f' & out & Hrun & L1 & L2 & LE & HP).
    exists (new_edp (N:=RN) out, new_lambda (N:=RN) out). split; [unfold ev, ep_eval; rewrite Hrun; reflexivity|].
    split; [split; assumption|]. split; [exact LE|]. intros p js mp tp td Hp Emp Etp HT. cbn [fst] in HT.
    assert (Lp : (p < length nbrs)%nat) by (apply nth_error_Some; congruence). destruct (some_in _ _ _ p (proj2 HI) Lp) as [la Ela].
    destruct (HP p js mp tp la Hp Emp Etp Ela) as (tr & td' & la' & T1 & T2 & T3 & T4).
    assert (W : td = td').
    { apply nth_ext_err. intros i. destruct HT as [A1 A2], T2 as [B1 B2]. destruct (nth_error js i) as [j|] eqn:Ej.
      - assert (i < length js)%nat by (apply nth_error_Some; congruence).
        destruct (nth_error td i) eqn:F1; [|apply nth_error_None in F1; lia]. destruct (nth_error td' i) eqn:F2; [|apply nth_error_None in F2; lia].
        f_equal. eapply trial_unique; eauto.
      - apply nth_error_None in Ej. assert (F1 : nth_error td i = None) by (apply nth_error_None; lia). rewrite F1. symmetry. apply nth_error_None. lia. }
    subst td'. destruct T4 as (_ & T4 & _). lra.
  Qed.

  Let le (a b : pstate RN) := all_le (snd a) (snd b).
  Let J c := config_fits nbrs n c.
  Lemma ep_ev : forall s c, I s -> J c -> exists s', ev s c = Ok s' /\ I s' /\ le s s'.
  Proof. intros s c HI Hc. destruct (ep_eval_ok s c HI Hc) as (s' & ? & ? & ? & _). eauto. Qed.

  Lemma ep_history_grows : forall h1 h2 s, length (fst s) = num_bonds nbrs -> length (snd s) = length nbrs -> history_fits nbrs n h1 -> history_fits nbrs n h2 ->
    exists s1 s2, history ev s h1 = Ok s1 /\ history ev s (h1 ++ h2) = Ok s2 /\ all_le (snd s) (snd s1) /\ all_le (snd s1) (snd s2).
  Proof.
    intros h1 h2 s A B H1 H2.
    destruct (hist_app _ _ ev I J le (fun s => all_le_refl _) (fun a b c => all_le_trans _ _ _) ep_ev h1 h2 s (conj A B) H1 H2) as (s1 & s2 & ? & ? & _ & _ & ? & ?).
    exists s1, s2. auto.
  Qed.
  Lemma ep_history_admissible : forall hs cs c s, length (fst s) = num_bonds nbrs -> length (snd s) = length nbrs ->
    history_fits nbrs n hs -> Forall (config_fits nbrs n) cs -> config_fits nbrs n c ->
    exists s', history ev s (hs ++ [(cs, c)]) = Ok s' /\ admissible MU (yield_point sigma h planar) nbrs x v m c (fst s').
  Proof.
    intros hs cs c s A B H1 H2 H3.
    destruct (hist_last _ _ ev I J le (fun s => all_le_refl _) (fun a b c => all_le_trans _ _ _) ep_ev hs cs c s (conj A B) H1 H2 H3) as (s1 & s2 & _ & E2 & E3 & I1 & _).
    exists s2. split; [exact E2|]. destruct (ep_eval_ok s1 c I1 H3) as (s' & E' & _ & _ & AD). rewrite E3 in E'. injection E' as <-. exact AD.
  Qed.
End PerfectHist.

Section HardHist.
  Variables (up : R -> R -> R -> R -> R -> R) (K MU Hm sigma h : R) (n : nat) (nbrs : list (list nat)) (x : list vec) (v m scf : list R).
  Hypothesis (HC : cloud_ok (N:=RN) n nbrs x x v) (Lm : per_point (N:=RN) nbrs m) (Ls : per_point (N:=RN) nbrs scf).
  Let ev := hard_eval (N:=RN) up K MU Hm sigma h nbrs x v m scf.
  Let I (s : pstate RN) := length (fst s) = num_bonds nbrs /\ length (snd s) = length nbrs.
  Lemma hard_pre_lambda : forall y theta dmg edp lam p k js d la, at_ub lam p = Ok la ->
    hard_pre (N:=RN) up K MU Hm (yield_value (N:=RN) sigma h None) x y v m theta dmg scf edp lam p k js = Ok d -> la <= pp_lambda d.
  Proof.
    intros y theta dmg edp lam p k js d la Hla Hpre. unfold hard_pre in Hpre. split_bind Hpre. cbn [bind] in Hpre. cbv zeta in Hpre.
    assert (a3 = la) by (pose proof (eq_trans (eq_sym E3) Hla) as W; now injection W). subst a3.
    to_R. match type of Hpre with context [Rltb 0 (if Rltb ?e 0 then 0 else ?e)] => set (dl0 := e) in Hpre end.
    destruct (Rltb 0 (if Rltb dl0 0 then 0 else dl0)) eqn:EB; injection Hpre as <-; cbn [pp_lambda]; [apply Rltb_true in EB|]; lra.
  Qed.
  Lemma hard_ev : forall s c, I s -> config_fits nbrs n c -> exists s', ev s c = Ok s' /\ I s' /\ all_le (snd s) (snd s').
  Proof.
    intros s c HI Hc. pose proof (fits_inputs n nbrs x v m HC Lm s c HI Hc) as HIn.
    assert (HT : total_on (hardening (N:=RN) up K MU Hm sigma h x (cf_y c) v m (cf_theta c) (cf_dmg c) scf (fst s) (snd s)) nbrs n) by (eapply hard_total; eauto).
    rewrite <- (zero_len n nbrs x v HC) in HT. destruct (run_total _ _ _ HT) as (f' & out & Hrun & _).
    destruct (lens (hard_return (N:=RN)) K nbrs x (cf_y c) v (cf_dmg c) (fun e l => hard_pre (N:=RN) up K MU Hm (yield_value (N:=RN) sigma h None) x (cf_y c) v m (cf_theta c) (cf_dmg c) scf e l) (fst s) (snd s) _ f' out Hrun) as [L1 L2].
    exists (new_edp (N:=RN) out, new_lambda (N:=RN) out). split; [unfold ev, hard_eval; rewrite Hrun; reflexivity|].
    split; [split; assumption|]. apply all_le_nth; [cbn [snd]; etransitivity; [exact (proj2 HI)|symmetry; exact L2]|].
    intros p u w Hu Hw. assert (Lp : (p < length nbrs)%nat) by (eapply eq_ind; [apply nth_error_Some; rewrite Hu; discriminate|exact (proj2 HI)]).
    destruct (some_in _ _ _ p eq_refl Lp) as [js Ejs]. pose proof (run_out _ _ _ _ _ Hrun) as [_ HR].
    destruct (HR p js Ejs) as (d & ss & A1 & A2 & _). cbn [snd] in Hw. unfold new_lambda in Hw. rewrite nth_error_map in Hw.
    pose proof (eq_trans (eq_sym (f_equal (option_map (fun o => @pp_lambda RN (fst o))) A1)) Hw) as W. cbn [option_map fst] in W. injection W as <-.
    cbn [pre hardening] in A2. eapply hard_pre_lambda; [|exact A2]. now apply at_Ok.
  Qed.
  Lemma hard_history_grows : forall h1 h2 s, length (fst s) = num_bonds nbrs -> length (snd s) = length nbrs -> history_fits nbrs n h1 -> history_fits nbrs n h2 ->
    exists s1 s2, history ev s h1 = Ok s1 /\ history ev s (h1 ++ h2) = Ok s2 /\ all_le (snd s) (snd s1) /\ all_le (snd s1) (snd s2).
  Proof.
    intros h1 h2 s A B H1 H2.
    destruct (hist_app _ _ ev I (config_fits nbrs n) (fun a b => all_le (snd a) (snd b)) (fun s => all_le_refl _) (fun a b c => all_le_trans _ _ _) hard_ev h1 h2 s (conj A B) H1 H2) as (s1 & s2 & ? & ? & _ & _ & ? & ?).
    exists s1, s2. auto.
  Qed.
End HardHist.
