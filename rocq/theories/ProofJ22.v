(** * Steps of the perfectly plastic and the hardening update *)
From Coq Require Import Reals Lra Lia.
From Verif Require Import Base Num ModelForce ModelCorr SpecCorr ModelPlastic ModelGlobal ModelJ2 SpecJ2 ProofData ProofCorr ProofCubic ProofJ2.
Local Open Scope R_scope.
Local Notation ten := (M3 RN).

Lemma smallest_eq : smallest = f20.
Proof. unfold smallest, f20. f_equal. exact (pow_IZR 10 20). Qed.

Section Cases.
  Variables (K G dt : R) (d s : ten) (eN : R).
  Let E := elastic_step K G dt (ent d) (ent s).
  Let tr := trial (N:=RN) K G dt d s.
  Definition returned (Y : R) : J2 RN := radial (N:=RN) G Y eN (dev_inc (N:=RN) dt d) s (deviator tr) (spherical tr) (magnitude (deviator tr)).
  Definition stays : J2 RN := @j2 RN tr (mises E) eN.
  Lemma perfect_cases : forall Y,
    (mises E <= Y /\ perfect (N:=RN) K G Y dt d s eN = stays) \/
    (Y < mises E /\ perfect (N:=RN) K G Y dt d s eN = returned Y).
  Proof.
    intros Y. unfold perfect. cbv zeta. rewrite vm_E. to_R. destruct (Rltb Y (mises (elastic_step K G dt (ent d) (ent s)))) eqn:C.
    - apply Rltb_true in C. right. split; [exact C|reflexivity].
    - apply Rltb_false in C. left. split; [exact C|reflexivity].
  Qed.
  (** the surface the hardening update returns to *)
  Definition surface (Y H : R) : R := Y + H * (eN + sqrt (2/3) * delta_lambda (N:=RN) G H Y (dev_inc (N:=RN) dt d) (deviator tr) (magnitude (deviator tr)) s).
  Lemma hardening_cases : forall Y H,
    ((mises E < Y \/ mises E <= surface Y H) /\ hardening (N:=RN) K G Y H dt d s eN = stays) \/
    (Y <= mises E /\ surface Y H < mises E /\ hardening (N:=RN) K G Y H dt d s eN = returned (surface Y H)).
  Proof.
    intros Y H. unfold hardening. cbv zeta. rewrite vm_E. to_R. destruct (Rltb (mises (elastic_step K G dt (ent d) (ent s))) Y) eqn:C.
    - apply Rltb_true in C. left. split; [left; exact C|reflexivity].
    - apply Rltb_false in C. match goal with |- context [Rltb ?a ?b] => destruct (Rltb a b) eqn:C' end.
      + apply Rltb_true in C'. right. split; [exact C|]. split; [exact C'|reflexivity].
      + apply Rltb_false in C'. left. split; [right; exact C'|reflexivity].
  Qed.
  Lemma delta_prop : forall Y H, proportional dt (ent d) (ent s) -> 0 < G -> H + 3 * G <> 0 -> f20 <= norm3 (dev_of E) ->
    sqrt (2/3) * delta_lambda (N:=RN) G H Y (dev_inc (N:=RN) dt d) (deviator tr) (magnitude (deviator tr)) s = (mises E - Y) / (H + 3 * G).
  Proof.
    intros Y H (u & b & c & Hb & Hc & Es & Ed) HG HH HF. unfold delta_lambda. cbv zeta. rewrite !contract_ent.
    rewrite (ddot_eq3 _ _ _ _ (deviator_ent s) (deviator_ent s)). unfold tr at 1. rewrite (ddot_eq3 _ _ _ _ (dev_ent K G dt d s) (dev_inc_ent dt d)). fold E.
    pose proof (magnitude_pos (deviator tr)) as P.
    assert (EM : magnitude (deviator tr) = norm3 (dev_of E)) by (rewrite magnitude_eq; unfold tr; rewrite norm_E; apply Rmax_right; exact HF).
    rewrite EM in *. to_R. fold (norm3 (dev_of (ent s))).
    assert (EE : eq3 (dev_of E) (scaled (b + 2 * G * c) u)).
    { intros i j Hi Hj. unfold E. rewrite dev_trial by auto. rewrite Es by auto. pose proof (Ed i j Hi Hj) as Q. unfold scaled in *. replace (2 * G * dt * dev_of (ent d) i j) with (2 * G * (dt * dev_of (ent d) i j)) by ring. rewrite Q. ring. }
    rewrite mises_norm. rewrite (ddot_eq3 _ _ _ _ EE Ed), ddot_scaled. rewrite (norm_eq3 _ _ EE) in *. rewrite (norm_eq3 _ _ Es). rewrite !norm_scaled in *.
    assert (Hbc : 0 <= b + 2 * G * c) by nra. rewrite (Rabs_pos_eq b Hb), (Rabs_pos_eq _ Hbc) in *.
    rewrite <- norm_sq. set (nu := norm3 u) in *.
    assert (N0 : 0 < nu) by (destruct (Req_dec nu 0) as [Q|Q]; [rewrite Q in P; lra|pose proof (norm_nonneg u); unfold nu in *; lra]).
    assert (B0 : 0 < b + 2 * G * c) by (destruct (Req_dec (b + 2 * G * c) 0) as [Q|Q]; [rewrite Q in P; lra|lra]).
    replace ((b + 2 * G * c) * c * (nu * nu) / ((b + 2 * G * c) * nu)) with (c * nu) by (field; split; lra).
    pose proof s23_sq. pose proof s23_32. rewrite s6_23. 
    replace (sqrt (3/2)) with (3 / 2 * sqrt (2/3)).
    2:{ apply Rmult_eq_reg_l with (sqrt (2/3)); [|pose proof s23_pos; lra]. replace (sqrt (2/3) * (3/2 * sqrt (2/3))) with (3/2 * (sqrt (2/3) * sqrt (2/3))) by ring. rewrite s23_sq, s23_32. field. }
    replace (sqrt (2/3) * ((6 * (c * nu) * G + 3 * (b * nu) - 3 * sqrt (2/3) * Y) / (2 * (H + 3 * G)))) with
      ((3 * sqrt (2/3) * (b + 2 * G * c) * nu - 3 * (sqrt (2/3) * sqrt (2/3)) * Y) / (2 * (H + 3 * G))) by (field; lra).
    rewrite s23_sq. field. lra.
  Qed.
  Lemma stays_vm : mises E = mises (ent (j_stress stays)).
  Proof. cbn [j_stress stays]. symmetry. apply mises_eq3, trial_ent. Qed.
End Cases.

Lemma virgin_proportional : forall dt d s, eq3 (dev_of s) (fun _ _ => 0) -> proportional dt d s.
Proof.
  intros dt d s H. exists (scaled dt (dev_of d)), 0, 1. split; [lra|]. split; [lra|]. split.
  - intros i j Hi Hj. rewrite H by auto. unfold scaled. ring.
  - intros i j Hi Hj. unfold scaled. ring.
Qed.
Lemma no_hardening : forall K G Y dt (d s : ten) eN, hardening (N:=RN) K G Y 0 dt d s eN = perfect (N:=RN) K G Y dt d s eN.
Proof.
  intros K G Y dt d s eN.
  assert (ES : surface K G dt d s eN Y 0 = Y) by (unfold surface; ring).
  destruct (perfect_cases K G dt d s eN Y) as [[C E]|[C E]]; destruct (hardening_cases K G dt d s eN Y 0) as [[C' E']|(C' & C'' & E')]; rewrite ES in *; rewrite E, E'; try reflexivity; exfalso; lra.
Qed.

(** histories *)
Lemma history_chain : forall (step : R -> ten -> ten -> R -> outcome (J2 RN)) (inv : J2 RN -> Prop) (rel : R -> R -> Prop),
  (forall dt d s e, exists r, step dt d s e = Ok r /\ inv r /\ rel e (j_eqps r)) ->
  forall steps s e, exists l, history (N:=RN) step steps s e = Ok l /\ length l = length steps /\ Forall inv l /\ chain rel e (map j_eqps l).
Proof.
  intros step inv rel HS. induction steps as [|[dt d] steps IH]; intros s e; cbn [history].
  - exists []. now repeat split.
  - destruct (HS dt d s e) as (r & -> & HI & HR). cbn [bind]. destruct (IH (j_stress r) (j_eqps r)) as (l & -> & L1 & L2 & L3). cbn [bind].
    exists (r :: l). repeat split; cbn; auto.
Qed.
