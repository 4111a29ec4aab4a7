(** * The viscoplastic update: cases, residual and root *)
From Coq Require Import Reals Lra Lia ZArith Ranalysis5.
From Verif Require Import Base Num ModelForce ModelCorr SpecCorr ModelPlastic ModelGlobal ModelJ2 SpecJ2 ModelNeedle SpecNeedle ProofData ProofCorr ProofCubic ProofJ2 ProofJ22 ProofJ23 ProofJ24 ProofNeedle.
Local Open Scope R_scope.
Local Notation ten := (M3 RN).

Lemma continuity_pt_ext : forall f g x, (forall y, f y = g y) -> continuity_pt f x -> continuity_pt g x.
Proof. intros f g x H C eps He. destruct (C eps He) as (al & Hal & C'). exists al. split; [exact Hal|]. intros y Hy. rewrite <- !H. now apply C'. Qed.

(** whatever pow is: the step is elastic or returns to a surface *)
Section Cases.
  Variables (powf : R -> R -> R) (w : flow RN) (K G Y dt : R) (d s : ten) (eN : R).
  Let E := elastic_step K G dt (ent d) (ent s).
  Let tr := trial (N:=RN) K G dt d s.
  Definition sought : R -> R :=
    needleman_residual (N:=RN) powf w Y G dt (contract (deviator tr) (dev_inc (N:=RN) dt d) / magnitude (deviator tr)) (sqrt (contract (deviator s) (deviator s))) eN.
  Definition found : R := fst (needleman_multiplier (N:=RN) sought).
  Definition top : R := needleman_yield (N:=RN) powf w Y dt found (eN + sqrt (2/3) * found).
  Lemma needleman_cases :
    (mises E < Y /\ needleman (N:=RN) powf w K G Y dt d s eN = (stays K G dt d s eN, true)) \/
    (Y <= mises E /\ mises E <= top /\ needleman (N:=RN) powf w K G Y dt d s eN = (stays K G dt d s eN, snd (needleman_multiplier (N:=RN) sought))) \/
    (Y <= mises E /\ top < mises E /\ needleman (N:=RN) powf w K G Y dt d s eN = (returned K G dt d s eN top, snd (needleman_multiplier (N:=RN) sought))).
  Proof.
    unfold needleman. cbv zeta. rewrite vm_E. to_R. fold E. destruct (Rltb (mises E) Y) eqn:C.
    - apply Rltb_true in C. left. split; [exact C|reflexivity].
    - apply Rltb_false in C. right. fold tr. fold sought. unfold top, found. destruct (needleman_multiplier (N:=RN) sought) as [dl ok]. cbn [fst snd].
      match goal with |- context [Rltb ?a ?b] => destruct (Rltb a b) eqn:C' end.
      + apply Rltb_true in C'. right. split; [exact C|]. split; [exact C'|reflexivity].
      + apply Rltb_false in C'. left. split; [exact C|]. split; [exact C'|reflexivity].
  Qed.
End Cases.

(** ** With the power function of the library *)
Section Root.
  Variables (K G Y dt eN n m rate0 e0 e1 : R) (d s : ten).
  Hypothesis HA : admissible G Y n m rate0 e0 e1 dt eN.
  Let E := elastic_step K G dt (ent d) (ent s).
  Hypothesis HF : f20 <= norm3 (dev_of E).
  Let w := @mkflow RN n m rate0 e0 e1.
  Let F := sought cpow w K G Y dt d s eN.
  Let q := sqrt (2/3).
  Lemma yield_flow : forall x ep, 0 <= ep -> needleman_yield (N:=RN) cpow w Y dt x ep = flow_stress Y n m rate0 e0 e1 ep (q * x / dt).
  Proof.
    intros x ep H. destruct HA as (HG & HY & Hn & Hm & Hr & H0 & H1 & Hdt & He). unfold needleman_yield, flow_stress. cbn [w w_n w_m w_rate w_e0 w_e1]. to_R.
    rewrite cpow_2; [reflexivity|]. apply Rmult_le_pos; [exact H|left; now apply Rinv_0_lt_compat].
  Qed.
  Lemma mag_E : magnitude (deviator (trial (N:=RN) K G dt d s)) = norm3 (dev_of E).
  Proof. rewrite magnitude_eq, norm_E. apply Rmax_right. exact HF. Qed.
  Lemma norm_pos_E : 0 < norm3 (dev_of E).
  Proof. pose proof f20_pos. lra. Qed.
  Lemma sought_excess : forall x, 0 <= x -> F x = excess Y n m rate0 e0 e1 K G dt eN (fun x => eN + x) (ent d) (ent s) x / (2 * G).
  Proof.
    intros x Hx. destruct HA as (HG & HY & Hn & Hm & Hr & H0 & H1 & Hdt & He). unfold F, sought, needleman_residual. to_R. rewrite yield_flow by lra.
    rewrite !contract_ent. rewrite (ddot_eq3 _ _ _ _ (deviator_ent s) (deviator_ent s)). rewrite (ddot_eq3 _ _ _ _ (dev_ent K G dt d s) (dev_inc_ent dt d)).
    rewrite mag_E. unfold excess, projected. fold E. fold (norm3 (dev_of (ent s))). fold q. field. split; [pose proof norm_pos_E; lra|lra].
  Qed.
  Lemma flow_nonneg : forall ep r, 0 <= flow_stress Y n m rate0 e0 e1 ep r.
  Proof.
    intros ep r. destruct HA as (HG & HY & _). unfold flow_stress. apply Rmult_le_pos; [|apply cpow_nonneg]. apply Rmult_le_pos; [apply Rmult_le_pos; [lra|apply cpow_nonneg]|].
    left. apply Rinv_0_lt_compat. pose proof (pow2_ge_0 (ep / e1)). lra.
  Qed.
  (** the projected increment and the old deviator make up for the elastic deviator *)
  Lemma projected_low : norm3 (dev_of E) <= norm3 (dev_of (ent s)) + 2 * G * projected K G dt (ent d) (ent s).
  Proof.
    destruct HA as (HG & _). pose proof norm_pos_E as P. unfold projected. fold E. set (M := norm3 (dev_of E)) in *. set (z := norm3 (dev_of (ent s))).
    assert (D : ddot (dev_of E) (scaled dt (dev_of (ent d))) = (M * M - ddot (dev_of E) (dev_of (ent s))) / (2 * G)).
    { unfold M. rewrite norm_sq. 
      assert (EE : eq3 (dev_of E) (fun i j => dev_of (ent s) i j + 2 * G * dt * dev_of (ent d) i j)) by apply dev_trial.
      rewrite (ddot_eq3 (dev_of E) (dev_of E) (dev_of E) (fun i j => dev_of (ent s) i j + 2 * G * dt * dev_of (ent d) i j)); [|intros i j Hi Hj; reflexivity|exact EE].
      unfold ddot, scaled, sum3. field. lra. }
    rewrite D. pose proof (ddot_cauchy (dev_of E) (dev_of (ent s))) as C. fold M z in C.
    replace (2 * G * ((M * M - ddot (dev_of E) (dev_of (ent s))) / (2 * G) / M)) with (M - ddot (dev_of E) (dev_of (ent s)) / M) by (field; split; lra).
    assert (ddot (dev_of E) (dev_of (ent s)) / M <= z); [|lra].
    apply Rmult_le_reg_r with M; [exact P|]. unfold Rdiv. rewrite Rmult_assoc, Rinv_l by lra. lra.
  Qed.
  Lemma projected_high : projected K G dt (ent d) (ent s) <= dt * norm3 (dev_of (ent d)).
  Proof.
    destruct HA as (HG & HY & Hn & Hm & Hr & H0 & H1 & Hdt & He). pose proof norm_pos_E as P. unfold projected. fold E.
    apply Rmult_le_reg_r with (norm3 (dev_of E)); [exact P|]. unfold Rdiv. rewrite Rmult_assoc, Rinv_l, Rmult_1_r by lra.
    eapply Rle_trans; [apply ddot_cauchy|]. rewrite norm_scaled, Rabs_pos_eq by lra. right. ring.
  Qed.
  Lemma sought_0 : 0 < F 0.
  Proof.
    destruct HA as (HG & HY & Hn & Hm & Hr & H0 & H1 & Hdt & He). rewrite sought_excess by lra. apply Rdiv_lt_0_compat; [|lra]. unfold excess.
    unfold flow_stress. replace (sqrt (2/3) * 0 / dt / rate0) with 0 by (field; split; lra). rewrite cpow_0 by exact Hm.
    pose proof projected_low. pose proof norm_pos_E. lra.
  Qed.
  Lemma sought_1 : dt * norm3 (dev_of (ent d)) + norm3 (dev_of (ent s)) / (2 * G) < 1 -> F 1 < 0.
  Proof.
    intros HS. pose proof HA as (HG & HY & Hn & Hm & Hr & H0 & H1 & Hdt & He). rewrite sought_excess by lra. unfold excess.
    pose proof projected_high as PH. set (p := projected K G dt (ent d) (ent s)) in *. pose proof (flow_nonneg (eN + 1) (sqrt (2/3) * 1 / dt)) as FN. pose proof s23_pos.
    set (f := flow_stress Y n m rate0 e0 e1 (eN + 1) (sqrt (2/3) * 1 / dt)) in *. assert (0 <= sqrt (2/3) * f) by (apply Rmult_le_pos; lra).
    assert (norm3 (dev_of (ent s)) + 2 * G * p - 2 * G < 0).
    { replace (norm3 (dev_of (ent s)) + 2 * G * p - 2 * G) with (2 * G * (p + norm3 (dev_of (ent s)) / (2 * G) - 1)) by (field; lra).
      assert (p + norm3 (dev_of (ent s)) / (2 * G) - 1 < 0) by lra. nra. }
    assert (Z : norm3 (dev_of (ent s)) + 2 * G * (p - 1) - sqrt (2/3) * f < 0) by lra.
    unfold Rdiv. apply Ropp_lt_cancel. rewrite Ropp_0, <- Ropp_mult_distr_l_reverse. apply Rmult_lt_0_compat; [lra|apply Rinv_0_lt_compat; lra].
  Qed.
  Definition smooth (x : R) : R := 
    (norm3 (dev_of (ent s)) + 2 * G * (projected K G dt (ent d) (ent s) - x) - q * (Y * cpow (1 + (eN + x) / e0) n / (1 + ((eN + x) / e1) ^ 2) * cpow (q * x / dt / rate0) m)) / (2 * G).
  Lemma smooth_cont : forall x, 0 <= x -> continuity_pt smooth x.
  Proof.
    intros x Hx. destruct HA as (HG & HY & Hn & Hm & Hr & H0 & H1 & Hdt & He).
    assert (CI : continuity_pt (fun x => x) x) by (apply derivable_continuous_pt, derivable_pt_id).
    assert (CC : forall k, continuity_pt (fun _ => k) x) by (intros k; apply continuity_pt_const; intros ? ?; reflexivity).
    assert (CA : continuity_pt (fun x => cpow (1 + (eN + x) / e0) n) x).
    { destruct (Req_dec n 0) as [->|N0].
      - apply continuity_pt_ext with (fun _ => 1); [|apply CC]. intros y. unfold cpow. destruct (Rlt_dec 0 (1 + (eN + y) / e0)) as [P|P]; [rewrite Rpower_O by lra; reflexivity|]. destruct (Req_EM_T 0 0); lra.
      - apply (continuity_pt_comp (fun x => 1 + (eN + x) / e0) (fun z => cpow z n)); [|apply cpow_cont; lra].
        apply (continuity_pt_plus (fun _ => 1) (fun x => (eN + x) / e0)); [apply CC|]. apply (continuity_pt_mult (fun x => eN + x) (fun _ => / e0)); [|apply CC].
        apply (continuity_pt_plus (fun _ => eN) (fun x => x)); [apply CC|exact CI]. }
    assert (CB : continuity_pt (fun x => 1 + ((eN + x) / e1) ^ 2) x).
    { apply (continuity_pt_plus (fun _ => 1) (fun x => ((eN + x) / e1) ^ 2)); [apply CC|].
      assert (CD : continuity_pt (fun x => (eN + x) / e1) x).
      { apply (continuity_pt_mult (fun x => eN + x) (fun _ => / e1)); [|apply CC]. apply (continuity_pt_plus (fun _ => eN) (fun x => x)); [apply CC|exact CI]. }
      apply continuity_pt_ext with (fun x => (eN + x) / e1 * ((eN + x) / e1)); [intros; ring|]. apply (continuity_pt_mult (fun x => (eN + x) / e1) (fun x => (eN + x) / e1)); exact CD. }
    assert (CD : continuity_pt (fun x => cpow (q * x / dt / rate0) m) x).
    { apply (continuity_pt_comp (fun x => q * x / dt / rate0) (fun z => cpow z m)); [|apply cpow_cont; lra].
      apply (continuity_pt_mult (fun x => q * x / dt) (fun _ => / rate0)); [|apply CC]. apply (continuity_pt_mult (fun x => q * x) (fun _ => / dt)); [|apply CC].
      apply (continuity_pt_mult (fun _ => q) (fun x => x)); [apply CC|exact CI]. }
    unfold smooth. apply (continuity_pt_mult (fun x => norm3 (dev_of (ent s)) + 2 * G * (projected K G dt (ent d) (ent s) - x) - q * (Y * cpow (1 + (eN + x) / e0) n / (1 + ((eN + x) / e1) ^ 2) * cpow (q * x / dt / rate0) m)) (fun _ => / (2 * G))); [|apply CC].
    apply (continuity_pt_minus (fun x => norm3 (dev_of (ent s)) + 2 * G * (projected K G dt (ent d) (ent s) - x)) (fun x => q * (Y * cpow (1 + (eN + x) / e0) n / (1 + ((eN + x) / e1) ^ 2) * cpow (q * x / dt / rate0) m))).
    - apply (continuity_pt_plus (fun _ => norm3 (dev_of (ent s))) (fun x => 2 * G * (projected K G dt (ent d) (ent s) - x))); [apply CC|].
      apply (continuity_pt_mult (fun _ => 2 * G) (fun x => projected K G dt (ent d) (ent s) - x)); [apply CC|].
      apply (continuity_pt_minus (fun _ => projected K G dt (ent d) (ent s)) (fun x => x)); [apply CC|exact CI].
    - apply (continuity_pt_mult (fun _ => q) (fun x => Y * cpow (1 + (eN + x) / e0) n / (1 + ((eN + x) / e1) ^ 2) * cpow (q * x / dt / rate0) m)); [apply CC|].
      apply (continuity_pt_mult (fun x => Y * cpow (1 + (eN + x) / e0) n / (1 + ((eN + x) / e1) ^ 2)) (fun x => cpow (q * x / dt / rate0) m)); [|exact CD].
      apply (continuity_pt_div (fun x => Y * cpow (1 + (eN + x) / e0) n) (fun x => 1 + ((eN + x) / e1) ^ 2)); [|exact CB|pose proof (pow2_ge_0 ((eN + x) / e1)); lra].
      apply (continuity_pt_mult (fun _ => Y) (fun x => cpow (1 + (eN + x) / e0) n)); [apply CC|exact CA].
  Qed.
  Lemma sought_smooth : forall x, 0 <= x -> F x = smooth x.
  Proof. intros x Hx. rewrite sought_excess by exact Hx. reflexivity. Qed.
  Lemma root_between : forall a b, 0 <= a -> a < b -> 0 <= F a -> F b < 0 -> exists z, a <= z < b /\ F z = 0.
  Proof.
    intros a b Ha Hab Fa Fb. destruct Fa as [Fa|Fa]; [|exists a; split; [lra|symmetry; exact Fa]].
    destruct (IVT_interv (fun x => - smooth x) a b) as (z & Hz & Ez).
    - intros x Hx. apply (continuity_pt_opp smooth). apply smooth_cont. lra.
    - exact Hab.
    - rewrite <- sought_smooth by lra. lra.
    - rewrite <- sought_smooth by lra. lra.
    - exists z. rewrite sought_smooth by lra. assert (smooth z = 0) by lra. split; [|assumption]. destruct Hz as [Hz [Hz'|Hz']]; [lra|]. subst z. rewrite <- sought_smooth in H by lra. lra.
  Qed.
  (** the multiplier the bisection finds is next to a root *)
  Lemma found_root : dt * norm3 (dev_of (ent d)) + norm3 (dev_of (ent s)) / (2 * G) < 1 -> exists z,
    0 < z < 1 /\ 0 < found cpow w K G Y dt d s eN < 1 /\ F z = 0 /\ Rabs (found cpow w K G Y dt d s eN - z) <= Rmax (found cpow w K G Y dt d s eN / 10 ^ 6) (/ 2 ^ bisect_limit) /\
    (/ 2 ^ (Nat.sub bisect_limit 20) <= z -> snd (needleman_multiplier (N:=RN) F) = true /\ Rabs (found cpow w K G Y dt d s eN - z) <= found cpow w K G Y dt d s eN / 10 ^ 6).
  Proof.
    intros HS. unfold found. fold F. pose proof sought_0 as F0. pose proof (sought_1 HS) as F1. destruct (needleman_multiplier (N:=RN) F) as [x ok] eqn:EM. cbn [fst snd]. unfold needleman_multiplier in EM.
    change (bisect (N:=RN) F bisect_limit 0 1 ((0 + 1) / 2) = (x, ok)) in EM.
    destruct (bisect_bracket F bisect_limit 0 1 _ x ok eq_refl ltac:(lra) ltac:(lra) ltac:(lra) F1 EM) as (a & b & Q1 & Q2 & Q3 & Q4 & Q5 & Q6 & Q7 & Q8).
    destruct (root_between a b Q1 Q2 Q5 Q6) as (z & Hz & Ez).
    assert (Z0 : 0 < z) by (destruct Hz as [[Hz|Hz] _]; [lra|]; subst z; destruct Q1 as [Q1|Q1]; [exact Q1|]; exfalso; rewrite <- Q1 in Ez; lra).
    assert (D : Rabs (x - z) <= (b - a) / 2) by (apply Rabs_le; lra).
    exists z. split; [lra|]. split; [lra|]. split; [exact Ez|].
    assert (L20 : bisect_limit = (20 + (bisect_limit - 20))%nat) by (unfold bisect_limit; lia).
    assert (P20 : 2 ^ bisect_limit = 2 ^ 20 * 2 ^ (bisect_limit - 20)) by (rewrite L20 at 1; apply pow_add).
    assert (PP : 0 < 2 ^ (bisect_limit - 20)) by (apply pow_lt; lra).
    assert (PL : 0 < 2 ^ bisect_limit) by (apply pow_lt; lra).
    destruct ok.
    - specialize (Q7 eq_refl). split; [eapply Rle_trans; [|apply Rmax_l]; lra|]. intros _. split; [reflexivity|lra].
    - destruct (Q8 eq_refl) as [Q9 Q10]. specialize (Q10 ltac:(unfold bisect_limit; lia)). rewrite Rminus_0_r in Q9. unfold Rdiv in Q9. rewrite Rmult_1_l in Q9.
      pose proof (Rinv_0_lt_compat _ PL) as IP. split; [eapply Rle_trans; [|apply Rmax_r]; lra|]. intros ZL. exfalso.
      assert (ZB : z < 500001 * / 2 ^ bisect_limit) by (rewrite Q9 in *; assert (x <= 10 ^ 6 * (/ 2 ^ bisect_limit / 2)) by lra; lra).
      rewrite P20 in ZB. rewrite Rinv_mult in ZB. pose proof (Rinv_0_lt_compat _ PP). replace (500001 * (/ 2 ^ 20 * / 2 ^ (bisect_limit - 20))) with (500001 / 2 ^ 20 * / 2 ^ (bisect_limit - 20)) in ZB by (unfold Rdiv; ring).
      assert (500001 / 2 ^ 20 < 1) by lra. nra.
  Qed.
  (** a step too large for the interval *)
  Definition high : R := Y * cpow (1 + (eN + 1) / e0) n * cpow (q / dt / rate0) m.
  Lemma flow_high : forall x ep, 0 <= x -> 0 <= ep <= eN + 1 -> flow_stress Y n m rate0 e0 e1 ep (q * x / dt) <= high * cpow x m.
  Proof.
    intros x ep Hx Hep. destruct HA as (HG & HY & Hn & Hm & Hr & H0 & H1 & Hdt & He). pose proof s23_pos as S0. fold q in S0. unfold flow_stress, high.
    replace (q * x / dt / rate0) with (x * (q / dt / rate0)) by (field; split; lra).
    assert (0 < q / dt / rate0) by (apply Rdiv_lt_0_compat; [apply Rdiv_lt_0_compat|]; lra).
    rewrite cpow_mult by lra. set (c := cpow (q / dt / rate0) m). pose proof (cpow_nonneg (q / dt / rate0) m). fold c in H2. pose proof (cpow_nonneg x m). set (cx := cpow x m) in *.
    replace (Y * cpow (1 + (eN + 1) / e0) n * c * cx) with (Y * cpow (1 + (eN + 1) / e0) n * (cx * c)) by ring. apply Rmult_le_compat_r; [nra|].
    pose proof (pow2_ge_0 (ep / e1)). pose proof (cpow_nonneg (1 + ep / e0) n).
    apply Rle_trans with (Y * cpow (1 + ep / e0) n).
    - apply Rmult_le_reg_r with (1 + (ep / e1) ^ 2); [lra|]. unfold Rdiv at 1. rewrite Rmult_assoc, Rinv_l, Rmult_1_r by lra. assert (0 <= Y * cpow (1 + ep / e0) n) by nra. nra.
    - apply Rmult_le_compat_l; [lra|]. apply cpow_mono; [exact Hn|]. assert (0 <= ep / e0) by (apply Rmult_le_pos; [lra|left; now apply Rinv_0_lt_compat]). split; [lra|]. apply Rplus_le_compat_l. apply Rmult_le_compat_r; [left; now apply Rinv_0_lt_compat|lra].
  Qed.
  Lemma found_large : 2 * G + q * high < norm3 (dev_of E) -> needleman_multiplier (N:=RN) F = (/ 2 ^ S bisect_limit, false).
  Proof.
    intros HL. apply bisect_left_half. intros x Hx. pose proof HA as (HG & HY & Hn & Hm & Hr & H0 & H1 & Hdt & He). rewrite sought_excess by lra. apply Rdiv_lt_0_compat; [|lra]. unfold excess.
    pose proof projected_low. pose proof (flow_high x (eN + x) ltac:(lra) ltac:(lra)) as FH. fold q. pose proof s23_pos as S0. fold q in S0.
    assert (cpow x m <= 1) by (eapply Rle_trans; [apply cpow_mono; [lra|split; [lra|apply Hx]]|]; rewrite cpow_pos_arg by lra; unfold Rpower; rewrite ln_1, Rmult_0_r, exp_0; lra).
    assert (0 <= high) by (unfold high; apply Rmult_le_pos; [apply Rmult_le_pos; [lra|]|]; apply cpow_nonneg).
    pose proof (cpow_nonneg x m). assert (high * cpow x m <= high) by nra. assert (q * flow_stress Y n m rate0 e0 e1 (eN + x) (q * x / dt) <= q * high) by (apply Rmult_le_compat_l; lra). nra.
  Qed.
End Root.
