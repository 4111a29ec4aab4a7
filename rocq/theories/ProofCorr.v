(** * Tensor algebra of the correspondence materials *)
From Coq Require Import Reals Lra Lia.
From Verif Require Import Base Num ModelNeigh SpecDamage ModelForce SpecForce ModelCorr SpecCorr ProofData ProofDamage ProofForce ProofKernels.
Local Open Scope R_scope.
Local Notation vec := (V3 RN).
Local Notation ten := (M3 RN).

(** ring over the reals when the type of the equation is written as the scalars of [RN] *)
Ltac rring := to_R; change (T RN) with R in *; first [ring | apply Rminus_diag_uniq; ring].
Ltac rfield := to_R; change (T RN) with R in *; field.
(** case analysis over rows and columns *)
Ltac ij i j Hi Hj :=
  destruct i as [|[|[|i]]]; [| | |exfalso; lia]; (destruct j as [|[|[|j]]]; [| | |exfalso; lia]); clear Hi Hj.
Ltac i3 i Hi := destruct i as [|[|[|i]]]; [| | |exfalso; lia]; clear Hi.

Lemma M3_ext : forall a b : ten, eq3 (ent a) (ent b) -> a = b.
Proof.
  intros [a0 a1 a2 a3 a4 a5 a6 a7 a8] [b0 b1 b2 b3 b4 b5 b6 b7 b8] H. unfold eq3, ent in H. cbn in H.
  f_equal; [apply (H 0 0)%nat|apply (H 0 1)%nat|apply (H 0 2)%nat|apply (H 1 0)%nat|apply (H 1 1)%nat|apply (H 1 2)%nat|apply (H 2 0)%nat|apply (H 2 1)%nat|apply (H 2 2)%nat]; lia.
Qed.

Lemma matmul_ent : forall ta tb alpha (a b : ten) i j, (i < 3)%nat -> (j < 3)%nat ->
  ent (matmul ta tb alpha a b) i j =
  alpha * sum3 (fun k => (if ta then ent a k i else ent a i k) * (if tb then ent b j k else ent b k j)).
Proof.
  intros ta tb alpha a b i j Hi Hj. unfold matmul. cbv zeta. cbn [eqb ofZ RN]. destruct (Reqb alpha 1) eqn:E.
  - apply Reqb_true in E. subst alpha. destruct ta, tb; ij i j Hi Hj; unfold sum3, mul_tt, mul_tn, mul_nt, mul_nn; cbn; rring.
  - clear E. destruct ta, tb; ij i j Hi Hj; unfold sum3, mul_tt, mul_tn, mul_nt, mul_nn, mmulr; cbn; rring.
Qed.
Lemma matmul_nn : forall a b : ten, matmul (N:=RN) false false 1 a b = mul_nn a b.
Proof. intros. unfold matmul. cbv zeta. cbn [eqb ofZ RN]. now rewrite (proj2 (Reqb_true _ _) eq_refl). Qed.
Lemma matmul_tn : forall a b : ten, matmul (N:=RN) true false 1 a b = mul_tn a b.
Proof. intros. unfold matmul. cbv zeta. cbn [eqb ofZ RN]. now rewrite (proj2 (Reqb_true _ _) eq_refl). Qed.
Lemma matmul_nt : forall a b : ten, matmul (N:=RN) false true 1 a b = mul_nt a b.
Proof. intros. unfold matmul. cbv zeta. cbn [eqb ofZ RN]. now rewrite (proj2 (Reqb_true _ _) eq_refl). Qed.
Lemma nn_ent : forall (a b : ten), eq3 (ent (mul_nn a b)) (prod (ent a) (ent b)).
Proof. intros a b i j Hi Hj. ij i j Hi Hj; unfold prod, sum3; cbn; rring. Qed.

Ltac mext := apply M3_ext; let i := fresh in let j := fresh in let Hi := fresh in let Hj := fresh in
  intros i j Hi Hj; ij i j Hi Hj; cbn; try reflexivity; try rring.
Lemma nn_assoc : forall a b c : ten, mul_nn (mul_nn a b) c = mul_nn a (mul_nn b c).
Proof. intros. mext. Qed.
Lemma nn_one_r : forall a : ten, mul_nn a mone = a.
Proof. intros. mext. Qed.
Lemma nn_one_l : forall a : ten, mul_nn (N:=RN) mone a = a.
Proof. intros. mext. Qed.
Lemma nn_zero_l : forall a : ten, mul_nn mzero a = mzero.
Proof. intros. mext. Qed.
Lemma trans_nn : forall a b : ten, mtrans (mul_nn a b) = mul_nn (mtrans b) (mtrans a).
Proof. intros. mext. Qed.
Lemma trans_trans : forall a : ten, mtrans (mtrans a) = a.
Proof. intros. mext. Qed.
Lemma nt_trans : forall a b : ten, mul_nt a b = mul_nn a (mtrans b).
Proof. intros. mext. Qed.
Lemma tn_trans : forall a b : ten, mul_tn a b = mul_nn (mtrans a) b.
Proof. intros. mext. Qed.
Lemma ent_trans : forall a : ten, eq3 (ent (mtrans a)) (transp (ent a)).
Proof. intros a i j Hi Hj. ij i j Hi Hj; reflexivity. Qed.
Lemma kron_one : eq3 (ent mone) kron.
Proof. intros i j Hi Hj. ij i j Hi Hj; reflexivity. Qed.
Lemma symmetric_iff : forall a : ten, symmetric (ent a) <-> mtrans a = a.
Proof.
  intros a. split; intros H.
  - apply M3_ext. intros i j Hi Hj. rewrite ent_trans by auto. unfold transp. symmetry. now apply H.
  - intros i j Hi Hj. unfold transp. transitivity (ent (mtrans a) i j); [now rewrite H|now rewrite ent_trans].
Qed.
Lemma det_nn : forall a b : ten, det3 (ent (mul_nn a b)) = det3 (ent a) * det3 (ent b).
Proof. intros. unfold det3. cbn. ring. Qed.
Lemma det_trans : forall a : ten, det3 (ent (mtrans a)) = det3 (ent a).
Proof. intros. unfold det3. cbn. ring. Qed.
Lemma det_one : det3 (ent mone) = 1.
Proof. unfold det3. cbn. ring. Qed.

(** ** the inverse *)
Lemma invert_det : forall a : ten, snd (fst (invert a)) = det3 (ent a).
Proof.
  intros a. unfold invert. cbv zeta. cbn [eqb RN].
  match goal with |- context [Reqb ?d ?z] => destruct (Reqb d z) end; cbn [fst snd]; unfold det3; cbn; rring.
Qed.
Lemma invert_singular : forall a : ten, det3 (ent a) = 0 -> invert a = (1%Z, 0, mzero).
Proof.
  intros a H. unfold invert. cbv zeta. cbn [eqb RN].
  match goal with |- context [Reqb ?d ?z] => assert (E : d = 0) by (rewrite <- H; unfold det3; cbn; rring); rewrite (proj2 (Reqb_true d z)) by exact E; rewrite E end. reflexivity.
Qed.
Lemma invert_regular : forall a : ten, det3 (ent a) <> 0 -> exists b, invert a = (0%Z, det3 (ent a), b) /\ mul_nn a b = mone /\ mul_nn b a = mone.
Proof.
  intros a H. pose proof (invert_det a) as HD. unfold invert in *. cbv zeta in *. cbn [eqb RN] in *.
  match goal with |- context [Reqb ?d ?z] => set (D := d) in *; destruct (Reqb D z) eqn:E end.
  - exfalso. apply Reqb_true in E. cbn [fst snd] in HD. apply H. rewrite <- HD. exact E.
  - cbn [fst snd] in HD. eexists. split; [rewrite HD at 1; reflexivity|].
    assert (HD0 : D <> 0) by (intros Q; apply H; rewrite <- HD; exact Q). clear HD E H.
    unfold D in *. clear D. destruct a as [a0 a1 a2 a3 a4 a5 a6 a7 a8]. cbn in *. split; mext; rfield; exact HD0.
Qed.
Lemma invert_code : forall a : ten, fst (fst (invert a)) = if Reqb (det3 (ent a)) 0 then 1%Z else 0%Z.
Proof.
  intros a. destruct (Reqb (det3 (ent a)) 0) eqn:E.
  - apply Reqb_true in E. now rewrite (invert_singular a E).
  - apply Reqb_false in E. destruct (invert_regular a E) as (b & -> & _). reflexivity.
Qed.
Lemma inverse_of_nn : forall a b : ten, mul_nn a b = mone -> mul_nn b a = mone -> inverse_of (ent a) (ent b).
Proof.
  intros a b H1 H2. split; intros i j Hi Hj.
  - rewrite <- kron_one by auto. rewrite <- H1. now rewrite nn_ent.
  - rewrite <- kron_one by auto. rewrite <- H2. now rewrite nn_ent.
Qed.
Lemma nn_inv_unique : forall a b c : ten, mul_nn a b = mone -> mul_nn c a = mone -> b = c.
Proof. intros a b c H1 H2. rewrite <- (nn_one_l b), <- H2, nn_assoc, H1. apply nn_one_r. Qed.
