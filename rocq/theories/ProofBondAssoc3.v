(** * Bond-associated correspondence: histories, broken bonds, margins *)
From Coq Require Import Reals Lra Lia.
From Verif Require Import Base Num ModelNeigh SpecDamage ModelForce SpecForce ModelCorr SpecCorr ModelBondAssoc SpecBondAssoc
  ProofData ProofDamage ProofForce ProofKernels ProofCorr ProofCorr2 ProofCorr3 ProofTangent ProofBondAssoc ProofBondAssoc2.
Local Open Scope R_scope.
Local Notation vec := (V3 RN).
Local Notation ten := (M3 RN).

(** ** singular values and quadratic form *)
Lemma spread_resolved : forall omega svd order h bs u w v, svd (gram omega h (powers order) bs) = (u, w, v) ->
  is_svd (length (powers order)) (gram omega h (powers order) bs) u w v -> spread omega order h bs -> resolved omega svd order h bs.
Proof.
  intros omega svd order h bs u w v E HS SP. exists u, w, v. split; [auto|]. split; [auto|].
  set (es := powers order) in *. set (n := length es) in *. destruct HS as (Su & Sw & Sv & HM & HU & HV & HV' & Hpos).
  apply Forall_forall. intros s Hs. destruct (In_nth _ _ 0 Hs) as (k & Hk & <-). rewrite Sw in Hk.
  pose proof (SP (fun i => entry v i k)) as Q. cbn beta in Q. fold es in Q. fold n in Q.
  specialize (Q ltac:(rewrite (HV' k k Hk Hk); unfold kron; now rewrite Nat.eqb_refl)).
  eapply Rlt_le_trans; [exact Q|].
  assert (W0 : 0 <= nth k w 0) by (rewrite Forall_forall in Hpos; auto).
  (* z . M z *)
  assert (A : sum_over (fun b => weight_of omega h b * bvol b * Rsqr (sum_to n (fun i => entry v i k * (mono (nth i es (0, 0, 0)%nat) (bvec b) / h ^ degree (nth i es (0, 0, 0)%nat))))) bs
     = sum_to n (fun i => sum_to n (fun j => entry v i k * entry v j k * entry (gram omega h es bs) i j))).
  { transitivity (sum_over (fun b => sum_to n (fun i => sum_to n (fun j => entry v i k * entry v j k * (weight_of omega h b * bvol b * (mono (nth i es (0, 0, 0)%nat) (bvec b) / h ^ degree (nth i es (0, 0, 0)%nat)) * (mono (nth j es (0, 0, 0)%nat) (bvec b) / h ^ degree (nth j es (0, 0, 0)%nat)))))) bs).
    - apply so_ext. intros b _. unfold Rsqr. unfold sum_to at 1. rewrite <- so_mul_r, <- so_mul. unfold sum_to at 2. apply so_ext. intros i _.
      unfold sum_to. rewrite <- !so_mul. apply so_ext. intros j _. ring.
    - unfold sum_to. rewrite so_swap. apply so_ext. intros i Hi. apply in_seq in Hi. rewrite so_swap. apply so_ext. intros j Hj. apply in_seq in Hj.
      rewrite so_mul. f_equal. rewrite gram_entry by (unfold n in *; lia). reflexivity. }
  rewrite A.
  assert (B : sum_to n (fun i => sum_to n (fun j => entry v i k * entry v j k * entry (gram omega h es bs) i j)) = nth k w 0 * sum_to n (fun i => entry v i k * entry u i k)).
  { unfold sum_to. rewrite <- so_mul. apply so_ext. intros i Hi. apply in_seq in Hi.
    transitivity (sum_to n (fun j => sum_to n (fun l => entry v i k * entry u i l * nth l w 0 * (entry v j k * entry v j l)))).
    { unfold sum_to. apply so_ext. intros j Hj. apply in_seq in Hj. rewrite HM by lia. unfold sum_to. rewrite <- so_mul. apply so_ext. intros l _. ring. }
    unfold sum_to. rewrite so_swap. transitivity (sum_to n (fun l => kron k l * (entry v i k * entry u i l * nth l w 0))).
    - unfold sum_to. apply so_ext. intros l Hl. apply in_seq in Hl. rewrite so_mul. change (sum_over (fun a => entry v a k * entry v a l) (seq 0 n)) with (sum_to n (fun a => entry v a k * entry v a l)). rewrite HV' by lia. ring.
    - rewrite so_kron by lia. ring. }
  rewrite B. rewrite <- (Rmult_1_r (nth k w 0)) at 2. apply Rmult_le_compat_l; [auto|].
  assert (C : 0 <= sum_to n (fun i => Rsqr (entry v i k - entry u i k))).
  { unfold sum_to. clear. induction (seq 0 n) as [|a l IH]; [rewrite so_nil; lra|]. rewrite so_cons. pose proof (Rle_0_sqr (entry v a k - entry u a k)). lra. }
  assert (D : sum_to n (fun i => Rsqr (entry v i k - entry u i k)) = sum_to n (fun i => entry v i k * entry v i k) + sum_to n (fun i => entry u i k * entry u i k) - 2 * sum_to n (fun i => entry v i k * entry u i k)).
  { unfold sum_to. rewrite <- so_mul, <- so_add, <- so_sub. apply so_ext. intros i _. unfold Rsqr. ring. }
  rewrite D, (HV' k k Hk Hk), (HU k k Hk Hk) in C. unfold kron in C. rewrite Nat.eqb_refl in C. lra.
Qed.

(** ** one point, fresh *)
Section Om.
Variable omega : R -> R -> R.

Lemma own_len : forall A (l : list A) nbrs p js, nth_error nbrs p = Some js -> length l = num_bonds nbrs -> length (own nbrs p l) = length js.
Proof.
  intros A l nbrs p js H L. unfold own. rewrite (nth_error_nth _ _ _ H), firstn_length, skipn_length, L.
  destruct (nth_error_split _ _ H) as (a & b & -> & <-). rewrite offset_app, num_bonds_app, num_bonds_cons. lia.
Qed.
Lemma sum_combine_map : forall A B (f : A * B -> R) (g : A -> B) l, sum_over f (combine l (map g l)) = sum_over (fun a => f (a, g a)) l.
Proof. intros A B f g. induction l as [|a l IH]; auto. cbn [map combine]. rewrite !so_cons, IH. auto. Qed.

Lemma fresh_moments : forall svd order x v hs dmg nbrs p X h bs js l, around x v hs dmg nbrs p X h bs -> nth_error nbrs p = Some js ->
  point_weights (N:=RN) omega svd order x v hs dmg p (offset nbrs p) js = Ok (0%Z, l) -> 0 < h -> (1 <= order)%Z -> resolved omega svd order h bs ->
  forall a e, (a < 3)%nat -> (1 <= Z.of_nat (degree e) <= order)%Z ->
  sum_over (fun t => comp (w_phi (snd t)) a * bvol (fst t) * mono e (bvec (fst t))) (combine bs l) = if is_exp e (unit_exp a) then 1 else 0.
Proof.
  intros svd order x v hs dmg nbrs p X h bs js l HA Hn HP Hh Ho HR a e Ha He. rewrite (point_weights_ok omega svd order x v hs dmg nbrs p X h bs js HA Hn) in HP by lra. injection HP as <-.
  rewrite sum_combine_map. cbn [fst snd]. now apply moments.
Qed.
(** gradient of a polynomial field *)
Lemma fresh_gradient : forall svd order x v hs dmg nbrs p X h bs js wt u q start Fs, around x v hs dmg nbrs p X h bs -> nth_error nbrs p = Some js ->
  point_weights (N:=RN) omega svd order x v hs dmg p (offset nbrs p) js = Ok (0%Z, own nbrs p wt) -> 0 < h -> (1 <= order)%Z -> resolved omega svd order h bs ->
  gradients (N:=RN) start v u wt 0 0 nbrs = Ok Fs -> displaced x u p js X q -> (forall i, (i < 3)%nat -> degree_upto order (q i)) ->
  exists F, nth_error Fs p = Some F /\ forall i c, (i < 3)%nat -> (c < 3)%nat -> ent F i c = ent start i c + slope (q i) c.
Proof.
  intros svd order x v hs dmg nbrs p X h bs js wt u q start Fs HA Hn HP Hh Ho HR HG HD Hq.
  destruct (gradients_spec _ _ _ _ _ _ _ _ HG) as [_ GS]. destruct (GS p js Hn) as (U & F & HU & HF & HS). cbn [Nat.add] in HU, HS. exists F. split; [auto|]. intros i c Hi Hc.
  pose proof (fresh_moments _ _ _ _ _ _ _ _ _ _ _ _ _ HA Hn HP Hh Ho HR) as MOM.
  destruct HA as (js' & Hn' & Hx & _ & L & HB). assert (js' = js) by congruence. subst js'.
  rewrite (grad_sum_eq v u wt U (fun xi => poly_at (q i) xi - poly_at (q i) vzero) i c js (offset nbrs p) bs start F Hi Hc HS L).
  - f_equal. assert (firstn (length js) (skipn (offset nbrs p) wt) = own nbrs p wt) as -> by (unfold own; now rewrite (nth_error_nth _ _ _ Hn)).
    set (ws := own nbrs p wt) in *.
    unfold slope.
    transitivity (sum_over (fun b => sum_over (fun t => fst t * ((mono (snd t) (bvec (fst b)) - mono (snd t) vzero) * (comp (w_phi (snd b)) c * bvol (fst b)))) (q i)) (combine bs ws)).
    { apply so_ext. intros b _. unfold poly_at. rewrite <- so_sub, <- so_mul_r. apply so_ext. intros t _. ring. }
    rewrite so_swap. apply so_ext. intros [k e] Ht. pose proof (Hq i Hi) as D. unfold degree_upto in D. rewrite Forall_forall in D. specialize (D _ Ht). cbn [fst snd] in *.
    rewrite so_mul. destruct (Nat.eq_dec (degree e) 0) as [E|E].
    + rewrite so_0; [|intros b _; rewrite !mono_deg0 by auto; ring]. destruct (is_exp e (unit_exp c)) eqn:Z; [|ring]. apply is_exp_iff in Z. subst e. exfalso. i3 c Hc; discriminate.
    + transitivity (k * sum_over (fun t => comp (w_phi (snd t)) c * bvol (fst t) * mono e (bvec (fst t))) (combine bs ws)).
      * f_equal. apply so_ext. intros b _. rewrite mono_0. destruct (Nat.eqb_spec (degree e) 0); [contradiction|]. ring.
      * rewrite MOM by (auto; lia). destruct (is_exp e (unit_exp c)); ring.
  - intros n j b Hj Hb. destruct (HB n j Hj) as (XP & vj & d & H1 & H2 & H3 & H4). rewrite H4 in Hb. injection Hb as <-. split; [exact H2|]. intros UP HUP.
    rewrite (HD j XP UP (or_intror (nth_error_In _ _ Hj)) H1 HUP i Hi), (HD p X U (or_introl eq_refl) Hx HU i Hi). unfold bvec. cbn [fst].
    assert (vsub X X = vzero) as -> by (destruct X; unfold vsub, vzero; cbn; f_equal; to_R; lra). reflexivity.
Qed.

(** ** dependence on the bond damage *)
Lemma nth_skip : forall A (l : list A) k n, nth_error (skipn k l) n = nth_error l (k + n).
Proof. induction l as [|a l IH]; intros [|k] n; cbn; auto. now destruct n. Qed.
Lemma nth_first : forall A (l : list A) m n, (n < m)%nat -> nth_error (firstn m l) n = nth_error l n.
Proof. induction l as [|a l IH]; intros [|m] [|n] H; cbn; auto; try lia. apply IH. lia. Qed.
Lemma gather_dmg : forall x v d d' h X js k, (forall n, (n < length js)%nat -> nth_error d (k + n) = nth_error d' (k + n)) ->
  gather (N:=RN) omega x v d h X k js = gather (N:=RN) omega x v d' h X k js.
Proof.
  intros x v d d' h X. induction js as [|j js IH]; intros k H; auto. cbn [gather].
  assert (E : at_ub d k = at_ub d' k) by (specialize (H 0%nat ltac:(cbn; lia)); rewrite Nat.add_0_r in H; unfold at_ub; now rewrite H).
  rewrite E, (IH (1 + k)%nat); auto. intros n Hn. specialize (H (S n) ltac:(cbn; lia)). replace (1 + k + n)%nat with (k + S n)%nat by lia. auto.
Qed.
Lemma point_weights_dmg : forall svd order x v hs d d' nbrs p js, nth_error nbrs p = Some js -> own nbrs p d = own nbrs p d' ->
  point_weights (N:=RN) omega svd order x v hs d p (offset nbrs p) js = point_weights (N:=RN) omega svd order x v hs d' p (offset nbrs p) js.
Proof.
  intros svd order x v hs d d' nbrs p js Hn H. unfold point_weights. destruct (at_ub hs p) as [h| |]; cbn [bind]; auto. destruct (at_ub x p) as [X| |]; cbn [bind]; auto.
  rewrite (gather_dmg x v d d' h X js (offset nbrs p)); auto. intros n Hl. rewrite <- !nth_skip. unfold own in H. rewrite (nth_error_nth _ _ _ Hn) in H.
  rewrite <- (nth_first _ (skipn _ d) (length js)), <- (nth_first _ (skipn _ d') (length js)) by auto. exact (f_equal (fun l => nth_error l n) H).
Qed.
Lemma split_own : forall A (l : list A) js rest, length l = num_bonds (js :: rest) -> exists a b, l = a ++ b /\ length a = length js /\ length b = num_bonds rest.
Proof. intros A l js rest L. rewrite num_bonds_cons in L. exists (firstn (length js) l), (skipn (length js) l). rewrite firstn_skipn, firstn_length, skipn_length. split; auto. lia. Qed.
Lemma weights_from_build : forall svd order x v hs dmg old flags nbrs p k code wt, length wt = num_bonds nbrs ->
  (forall q, (q < length nbrs)%nat -> nth_error flags (p + q) = Some 0) ->
  (forall q js, nth_error nbrs q = Some js -> point_weights (N:=RN) omega svd order x v hs dmg (p + q) (k + offset nbrs q) js = Ok (0%Z, own nbrs q wt)) ->
  exists fs, weights_from (N:=RN) omega svd order x v hs dmg p k nbrs flags old code = Ok (code, wt, fs).
Proof.
  intros svd order x v hs dmg old flags. induction nbrs as [|js rest IH]; intros p k code wt L HF H.
  - destruct wt; [|discriminate]. exists []. reflexivity.
  - destruct (split_own _ wt js rest L) as (a & b & -> & La & Lb). cbn [weights_from].
    pose proof (HF 0%nat ltac:(cbn; lia)) as F0. rewrite Nat.add_0_r in F0. rewrite (at_of (T RN) flags p 0 F0). cbn [bind].
    change (ltb (n:=RN) 0 (lit 1 2)) with (Rltb 0 (1 / 2)). rewrite (proj2 (Rltb_true 0 (1 / 2))) by lra.
    pose proof (H 0%nat js eq_refl) as P0. change (offset (js :: rest) 0) with 0%nat in P0. rewrite !Nat.add_0_r, own_0 in P0 by auto. rewrite P0. cbn [bind]. change (0 <? 0)%Z with false. cbn iota.
    destruct (IH (1 + p)%nat (length js + k)%nat code b Lb) as [fs E].
    + intros q Hq. specialize (HF (S q) ltac:(cbn; lia)). now replace (1 + p + q)%nat with (p + S q)%nat by lia.
    + intros q js' Hq. specialize (H (S q) js' Hq). rewrite own_S, offset_S in H by auto. replace (1 + p + q)%nat with (p + S q)%nat by lia.
      now replace (length js + k + offset rest q)%nat with (k + (length js + offset rest q))%nat by lia.
    + rewrite E. cbn [bind]. eexists. reflexivity.
Qed.
(** every point has the weights of this bond damage *)
Definition all_fresh svd order x v hs nbrs dmg wt := length wt = num_bonds nbrs /\
  forall q js, nth_error nbrs q = Some js -> point_weights (N:=RN) omega svd order x v hs dmg q (offset nbrs q) js = Ok (0%Z, own nbrs q wt).
Lemma nth_error_rep : forall A (a : A) n k, (k < n)%nat -> nth_error (repeat a n) k = Some a.
Proof. induction n as [|n IH]; intros [|k] H; cbn; auto; try lia. apply IH. lia. Qed.
Lemma all_fresh_iff : forall svd order x v hs nbrs dmg wt, all_fresh svd order x v hs nbrs dmg wt <-> fresh omega svd order x v hs nbrs dmg wt.
Proof.
  intros. split.
  - intros [L H]. unfold fresh, gradient_weights. apply weights_from_build; auto. intros q Hq. cbn [Nat.add]. now apply nth_error_rep.
  - intros [fs H]. unfold gradient_weights in H. apply weights_from_spec in H as (_ & L & _ & H). split; auto. intros q js Hq. destruct (H q js Hq) as (fl & Hf & [(_ & A & _)|(A & _)]); auto.
    cbn [Nat.add] in Hf. assert (Hl : (q < length nbrs)%nat) by (apply nth_error_Some; congruence). pose proof (nth_error_rep _ 0 _ _ Hl) as Z. change (T RN) with R in *. rewrite Z in Hf. injection Hf as <-. lra.
Qed.

Lemma update_flags_spec : forall flags dN dNP1 fs, update_flags (N:=RN) dN dNP1 flags = Ok fs -> length fs = length flags /\
  forall p f, nth_error flags p = Some f -> exists a b, nth_error dN p = Some a /\ nth_error dNP1 p = Some b /\
    nth_error fs p = Some (if Rltb (1 / 1000000000000000) (b - a) then 0 else f).
Proof.
  induction flags as [|f flags IH]; intros [|a dN] dNP1 fs H; cbn [update_flags] in H.
  - injection H as <-. split; auto. intros [|p] f Hf; discriminate.
  - injection H as <-. split; auto. intros [|p] f Hf; discriminate.
  - discriminate.
  - destruct dNP1 as [|b dNP1]; [discriminate|]. apply bind_Ok in H as (r & Hr & H). injection H as <-. apply IH in Hr as [L Hr]. split; [cbn; now f_equal|].
    intros [|p] g Hg; cbn [nth_error] in *; [injection Hg as ->; exists a, b; auto|auto].
Qed.

(** flags of a state after an evaluation *)
Definition settled (nbrs : list (list nat)) (flags : list R) := length flags = length nbrs /\ Forall (fun f => 1 / 2 <= f) flags.
Lemma weights_settled : forall svd order x v hs dmg flags old nbrs code code' wt fs,
  weights_from (N:=RN) omega svd order x v hs dmg 0 0 nbrs flags old code = Ok (code', wt, fs) -> settled nbrs fs.
Proof.
  intros * H. apply weights_from_spec in H as (_ & _ & L & H). split; [exact L|]. apply Forall_forall. intros f Hf. apply In_nth_error in Hf as [q Hq].
  assert (Hl : (q < length fs)%nat) by (apply nth_error_Some; change (T RN) with R in *; congruence). rewrite L in Hl. destruct (nth_error nbrs q) as [js|] eqn:E; [|apply nth_error_None in E; lia].
  destruct (H q js E) as (fl & _ & [(_ & _ & A)|(A & _ & B)]); change (T RN) with R in *; rewrite Hq in *; [injection A as ->; lra|injection B as ->; auto].
Qed.
Lemma precompute_fresh : forall svd order x v hs nbrs dN dNP1 dmgN dmg u vel s s1 Fs Gs,
  ba_precompute (N:=RN) omega svd order x v hs nbrs dN dNP1 dmg u vel s = Ok (s1, Fs, Gs) ->
  settled nbrs (s_flags s) -> all_fresh svd order x v hs nbrs dmgN (s_wt s) ->
  (forall p, (p < length nbrs)%nat -> own nbrs p dmg = own nbrs p dmgN \/ nth p dN 0 + 1 / 1000000000000000 < nth p dNP1 0) ->
  settled nbrs (s_flags s1) /\ all_fresh svd order x v hs nbrs dmg (s_wt s1) /\
  deformation_gradients (N:=RN) v u (s_wt s1) nbrs = Ok Fs /\ velocity_gradients (N:=RN) v vel (s_wt s1) nbrs = Ok Gs /\ s_w0 s1 = s_w0 s.
Proof.
  intros svd order x v hs nbrs dN dNP1 dmgN dmg u vel s s1 Fs Gs H [LF SF] [LW FR] REP. unfold ba_precompute in H.
  apply bind_Ok in H as (fl & Hfl & H). apply bind_Ok in H as ([[c wt] fs] & Hw & H). destruct (negb (Z.eqb c 0)); [discriminate|].
  apply bind_Ok in H as (F & HF & H). apply bind_Ok in H as (G & HG & H). injection H as <- <- <-. cbn [s_flags s_wt s_w0].
  unfold gradient_weights in Hw. pose proof (weights_settled _ _ _ _ _ _ _ _ _ _ _ _ _ Hw) as SE. split; [exact SE|]. split; [|repeat split; auto].
  apply weights_from_spec in Hw as (_ & L & _ & HS). split; [exact L|]. intros q js Hq. destruct (HS q js Hq) as (f & Hf & D). cbn [Nat.add] in *.
  destruct D as [(_ & A & _)|(A & B & _)]; [exact A|].
  assert (Hl : (q < length nbrs)%nat) by (apply nth_error_Some; congruence).
  destruct (update_flags_spec _ _ _ _ Hfl) as [_ UF]. destruct (nth_error (s_flags s) q) as [f0|] eqn:E0; [|apply nth_error_None in E0; change (T RN) with R in *; lia].
  destruct (UF q f0 E0) as (a & b & Ha & Hb & Hf'). change (T RN) with R in *. rewrite Hf in Hf'. injection Hf' as ->.
  destruct (Rltb (1 / 1000000000000000) (b - a)) eqn:RB; [lra|]. apply Rltb_false in RB.
  destruct (REP q Hl) as [EQ|GT]; [|rewrite (nth_error_nth _ _ _ Ha), (nth_error_nth _ _ _ Hb) in GT; lra].
  rewrite (point_weights_dmg _ _ _ _ _ _ _ _ _ _ Hq EQ), (FR q js Hq). f_equal. f_equal.
  unfold own at 1. rewrite (nth_error_nth _ _ _ Hq). symmetry. exact B.
Qed.
Lemma initialize_fresh : forall svd order x v hs nbrs s, ba_initialize (N:=RN) omega svd order x v hs nbrs = Ok s ->
  settled nbrs (s_flags s) /\ all_fresh svd order x v hs nbrs (repeat 0 (num_bonds nbrs)) (s_wt s) /\ weighted_volumes (N:=RN) v (s_wt s) 0 nbrs = Ok (s_w0 s).
Proof.
  intros svd order x v hs nbrs s H. unfold ba_initialize in H.
  assert (NB : length (concat nbrs) = num_bonds nbrs) by (clear; induction nbrs as [|js r IH]; auto; cbn [concat]; rewrite app_length, num_bonds_cons, IH; auto).
  rewrite NB in H. apply bind_Ok in H as ([[c wt] fs] & Hw & H). destruct (negb (Z.eqb c 0)); [discriminate|]. apply bind_Ok in H as (w0 & H0 & H). injection H as <-. cbn [s_flags s_wt s_w0].
  unfold gradient_weights in Hw. split; [eapply weights_settled; exact Hw|]. split; [|exact H0].
  apply weights_from_spec in Hw as (_ & L & _ & HS). split; [exact L|]. intros q js Hq. destruct (HS q js Hq) as (f & Hf & [(_ & A & _)|(A & _)]); [exact A|].
  assert (Hl : (q < length nbrs)%nat) by (apply nth_error_Some; congruence). pose proof (nth_error_rep _ 0 _ _ Hl) as Z. cbn [Nat.add] in Hf. change (T RN) with R in *. change (ofZ (n:=RN) 0) with 0 in Hf. rewrite Z in Hf. injection Hf as <-. lra.
Qed.
Lemma steps_fresh : forall svd order x v hs nbrs e es (s : ba_state (N:=RN)) dN dmgN (s' : ba_state (N:=RN)) dN', settled nbrs (s_flags s) -> all_fresh svd order x v hs nbrs dmgN (s_wt s) ->
  steps_run omega svd order x v hs nbrs es (s, dN) = Ok (s', dN') -> reported nbrs dN dmgN (es ++ [e]) ->
  settled nbrs (s_flags s') /\ s_w0 s' = s_w0 s /\ exists dmg', all_fresh svd order x v hs nbrs dmg' (s_wt s') /\ reported nbrs dN' dmg' [e].
Proof.
  intros svd order x v hs nbrs e. induction es as [|[[[d1 dm] u] vel] es IH]; intros s dN dmgN s' dN' HS HF H HR; unfold steps_run in H; cbn [foldM] in H.
  - injection H as <- <-. split; [auto|]. split; [auto|]. exists dmgN. auto.
  - apply bind_Ok in H as ([s1 dm1] & H1 & H). apply bind_Ok in H1 as ([[s1' F] G] & H1 & E). injection E as <- <-. cbn [fst snd] in H1. destruct HR as [R1 R2].
    destruct (precompute_fresh _ _ _ _ _ _ _ _ _ _ _ _ _ _ _ _ H1 HS HF R1) as (A & B & _ & _ & W).
    destruct (IH _ _ _ _ _ A B H R2) as (C & W' & D). split; [exact C|]. split; [congruence|exact D].
Qed.
End Om.
