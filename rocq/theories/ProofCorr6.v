(** * The correspondence materials run, and what a single step gives *)
From Coq Require Import Reals Lra Lia.
From Verif Require Import Base Num ModelNeigh SpecDamage ModelForce SpecForce ModelCorr SpecCorr ProofData ProofDamage ProofForce ProofKernels ProofCorr ProofCorr2 ProofCorr3 ProofCorr4 ProofCorr5 ProofRot ProofRot2.
Local Open Scope R_scope.
Local Notation vec := (V3 RN).
Local Notation ten := (M3 RN).

Lemma correspondence_total : forall omega cauchy bulk coef dt n nbrs (x y vel : list vec) (v hs : list R) st sN dmg geo,
  corr_inputs n nbrs x y v hs -> length vel = n -> length st = length nbrs ->
  deformation (N:=RN) omega x y v hs nbrs = Ok (0%Z, geo) -> (forall p g, nth_error geo p = Some g -> det3 (ent (snd g)) <> 0) ->
  (forall d, length d = length nbrs -> exists s, cauchy d sN = Ok s /\ length s = length nbrs) ->
  exists f st' s' ps, correspondence (N:=RN) omega sin cos cauchy bulk coef dt x y vel v hs nbrs st sN dmg = Ok (f, st', s', ps).
Proof.
  intros omega cauchy bulk coef dt n nbrs x y vel v hs st sN dmg geo HI Hvel Hst ED HZ HC. unfold correspondence. rewrite ED. cbn [bind Z.eqb negb].
  destruct (deformation_ok omega n nbrs x y v hs HI) as (code & geo' & ED' & Lg & HG & _). rewrite ED in ED'. injection ED' as _ <-.
  destruct (rates_ok omega dt n nbrs x y vel v hs geo HI Hvel Lg) as (c & Ls & L1 & L2 & L3 & L4). assert (c = 0%Z) as -> by (apply L3; exact HZ).
  rewrite (L4 st Hst). cbn [bind Z.eqb negb]. set (rs := steps_of dt Ls st).
  assert (Lrs : length rs = length nbrs) by (unfold rs; rewrite steps_len; congruence).
  destruct (HC (map snd rs)) as (s & ES & Lss); [now rewrite map_length|]. rewrite ES. cbn [bind]. cbv zeta.
  pose proof HI as ((Hx & _) & _). rewrite Hx.
  set (rotated := map (fun rs => rotate_stress (snd (fst (fst rs))) (snd rs)) (combine rs s)).
  assert (Lrot : length rotated = length nbrs) by (unfold rotated; rewrite map_length, combine_length; lia).
  destruct (run_total (corr_force (N:=RN) omega x v hs geo rotated dmg) nbrs (repeat (vzero (N:=RN)) n)) as (f1 & out & E1 & _).
  { rewrite repeat_length. apply (corr_force_total omega n nbrs x y); auto. }
  rewrite E1. cbn [bind].
  destruct (run_total (hourglass (N:=RN) bulk coef x y v hs geo) nbrs (repeat (vzero (N:=RN)) n)) as (f2 & out2 & E2 & _).
  { rewrite repeat_length. apply hourglass_total; auto. }
  rewrite E2. cbn [bind]. do 4 eexists. reflexivity.
Qed.

(** invariants under a rotation *)
Lemma conj_trace : forall Q s : ten, mul_nn (mtrans Q) Q = mone -> tr3 (ent (mul_nn Q (mul_nn s (mtrans Q)))) = tr3 (ent s).
Proof.
  intros Q s H. transitivity (tr3 (ent (mul_nn s (mul_nn (mtrans Q) Q)))).
  - unfold tr3, sum3. cbn. rring.
  - rewrite H, nn_one_r. reflexivity.
Qed.
Lemma ddot_trace : forall a b : ten, ddot (ent a) (ent b) = tr3 (ent (mul_nn a (mtrans b))).
Proof. intros. unfold ddot, tr3, sum3. cbn. rring. Qed.
Lemma conj_ddot : forall Q s t : ten, mul_nn (mtrans Q) Q = mone ->
  ddot (ent (mul_nn Q (mul_nn s (mtrans Q)))) (ent (mul_nn Q (mul_nn t (mtrans Q)))) = ddot (ent s) (ent t).
Proof.
  intros Q s t H. rewrite !ddot_trace. rewrite <- (conj_trace Q (mul_nn s (mtrans t)) H). f_equal. f_equal.
  rewrite !trans_nn, trans_trans, !nn_assoc. f_equal. f_equal. rewrite <- (nn_assoc (mtrans Q) Q), H, nn_one_l. reflexivity.
Qed.
Lemma conj_det : forall Q s : ten, det3 (ent (mul_nn Q (mul_nn s (mtrans Q)))) = det3 (ent Q) * det3 (ent Q) * det3 (ent s).
Proof. intros. rewrite !det_nn, det_trans. ring. Qed.
