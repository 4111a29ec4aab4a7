(** * The laws of plastic bonds *)
From Coq Require Import Reals Lra Lia.
From Verif Require Import Base Num ModelNeigh SpecDamage ModelForce SpecForce ModelCorr SpecCorr ModelPlastic ModelGlobal ModelJ2 SpecJ2
  ProofCubic ProofData ProofDamage ProofForce ProofKernels ProofCorr ProofCorr2 ProofCorr3 ProofCorr4 ProofCorr5 ProofTangent ProofRot ProofRot2 ProofJ2 ProofJ22 ProofJ23 ProofJ24
  ModelBondAssoc SpecBondAssoc SpecBondForce ModelBondPlastic SpecBondPlastic.
Local Open Scope R_scope.
Local Notation vec := (V3 RN).
Local Notation ten := (M3 RN).

Lemma sym_parts : forall a : ten, symmetric (ent a) <-> m1 a = m3_ a /\ m2 a = m6 a /\ m5 a = m7 a.
Proof.
  intros a. split.
  - intros H. split; [exact (H 0%nat 1%nat ltac:(lia) ltac:(lia))|]. split; [exact (H 0%nat 2%nat ltac:(lia) ltac:(lia))|exact (H 1%nat 2%nat ltac:(lia) ltac:(lia))].
  - intros (A & B & C) i j Hi Hj. destruct i as [|[|[|i]]], j as [|[|[|j]]]; try lia; cbn; auto.
Qed.
Lemma newton_sym : forall law slope G tol vm flow, symmetric (ent flow) -> forall n f (s : ten) ep p s' ep' p', symmetric (ent s) -> newton (N:=RN) law slope G tol vm flow n f s ep p = Ok (s', ep', p') -> symmetric (ent s').
Proof.
  intros law slope G tol vm flow HF. induction n as [|n IH]; intros f s ep p s' ep' p' Hs H; cbn [newton] in H; destruct (ltb (n:=RN) tol (nabs f)); try discriminate; try (injection H as <- <- <-; exact Hs).
  eapply IH; [|exact H]. apply sym_parts in HF, Hs. apply sym_parts. destruct s, flow. cbn in *. to_R. destruct HF as (-> & -> & ->), Hs as (-> & -> & ->). auto.
Qed.
Lemma return_sym : forall law slope K G dt (d s : ten) e r, symmetric (ent d) -> symmetric (ent s) -> radial_return (N:=RN) law slope K G dt d s e = Ok r -> symmetric (ent (j_stress r)).
Proof.
  intros law slope K G dt d s e r Hd Hs H. unfold radial_return in H. cbv zeta in H. pose proof (stays_sym K G dt d s e Hd Hs) as ST. cbn [stays j_stress] in ST.
  destruct (ltb (n:=RN) _ _); [injection H as <-; exact ST|]. apply bind_Ok in H as ([[s' ep] p] & H1 & H). injection H as <-. cbn [j_stress]. eapply newton_sym; [|exact ST|exact H1].
  clear -ST. apply sym_parts in ST. apply sym_parts. destruct (trial (N:=RN) K G dt d s). cbn in *. destruct ST as (-> & -> & ->). auto.
Qed.
Lemma trial_zero : forall K G dt (s : ten), trial (N:=RN) K G dt mzero s = s.
Proof.
  intros K G dt s. apply M3_ext. intros i j Hi Hj. rewrite trial_ent by auto.
  assert (Z : forall a b, (a < 3)%nat -> (b < 3)%nat -> ent (mzero (N:=RN)) a b = 0) by (intros a b Ha Hb; ij a b Ha Hb; reflexivity).
  unfold elastic_step, hooke_of, scaled, dev_of, tr3, sum3. rewrite !Z by (auto; lia). change (T RN) with R in *. field.
Qed.
Lemma mises_zero_step : forall K G dt (s : ten), mises (elastic_step K G dt (ent mzero) (ent s)) = mises (ent s).
Proof. intros K G dt s. rewrite <- (mises_eq3 _ _ (trial_ent K G dt mzero s)). now rewrite trial_zero. Qed.
Lemma perfect_rest : forall K G Y dt (s : ten) e, mises (ent s) <= Y -> perfect (N:=RN) K G Y dt mzero s e = @j2 RN s (mises (ent s)) e.
Proof.
  intros K G Y dt s e H. destruct (perfect_cases K G dt mzero s e Y) as [[C ->]|[C ->]].
  - unfold stays. rewrite trial_zero. f_equal. apply mises_zero_step.
  - rewrite mises_zero_step in C. exfalso. to_R. lra.
Qed.
Lemma newton_stop : forall law slope G tol vm flow n f (s : ten) ep p, Rabs f <= tol -> newton (N:=RN) law slope G tol vm flow n f s ep p = Ok (s, ep, p).
Proof. intros law slope G tol vm flow n f s ep p H. destruct n; cbn [newton]; rewrite nabs_R; to_R; now rewrite (proj2 (Rltb_false _ _)) by exact H. Qed.
Lemma return_rest : forall law slope K G dt (s : ten) e, mises (ent s) <= law e + 1 / 10 ^ 16 * K -> radial_return (N:=RN) law slope K G dt mzero s e = Ok (@j2 RN s (mises (ent s)) e).
Proof.
  intros law slope K G dt s e H. destruct (Rlt_or_le (mises (elastic_step K G dt (ent mzero) (ent s))) (law e)) as [C|C].
  - rewrite return_elastic by exact C. unfold stays. rewrite trial_zero. do 2 f_equal. apply mises_zero_step.
  - rewrite mises_zero_step in C. unfold radial_return. cbv zeta. rewrite vm_E, trial_zero, mises_zero_step. to_R. rewrite (proj2 (Rltb_false _ _)) by lra. rewrite newton_stop.
    + cbn [bind]. do 2 f_equal. to_R. ring.
    + rewrite Rabs_pos_eq by lra. replace (1 / IZR (Zpos (10 ^ 16))) with (1 / 10 ^ 16); [lra|]. f_equal. exact (pow_IZR 10 16).
Qed.
