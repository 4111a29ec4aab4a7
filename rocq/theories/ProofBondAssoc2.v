(** * Bond-associated correspondence: reproducing property of the gradient weights *)
From Coq Require Import Reals Lra Lia.
From Verif Require Import Base Num ModelNeigh SpecDamage ModelForce SpecForce ModelCorr SpecCorr ModelBondAssoc SpecBondAssoc
  ProofData ProofDamage ProofForce ProofKernels ProofCorr ProofCorr2 ProofCorr3 ProofTangent ProofBondAssoc.
Local Open Scope R_scope.
Local Notation vec := (V3 RN).
Local Notation ten := (M3 RN).

Section Weights.
Variable omega : R -> R -> R.
Definition todat (h : R) (b : bond3) : bdat (N:=RN) := Bdat (N:=RN) (bvec b) (weight_of omega h b) (bvol b).

Lemma gather_ok : forall x v dmg h X js k bs, length bs = length js ->
  (forall n j, nth_error js n = Some j -> exists XP vj d, nth_error x j = Some XP /\ nth_error v j = Some vj /\
      nth_error dmg (k + n) = Some d /\ nth_error bs n = Some (vsub XP X, vj, d)) ->
  gather (N:=RN) omega x v dmg h X k js = Ok (map (todat h) bs).
Proof.
  intros x v dmg h X. induction js as [|j js IH]; intros k bs L H; destruct bs as [|b bs]; try discriminate; auto. cbn [gather].
  destruct (H 0%nat j eq_refl) as (XP & vj & d & H1 & H2 & H3 & H4). rewrite Nat.add_0_r in H3. rewrite (at_of _ _ _ _ H1), (at_of _ _ _ _ H2), (at_of _ _ _ _ H3). cbn [bind].
  rewrite (IH (1 + k)%nat bs).
  - cbn in H4. injection H4 as ->. reflexivity.
  - now injection L.
  - intros n i Hn. destruct (H (S n) i Hn) as (XP' & vj' & d' & H1' & H2' & H3' & H4'). exists XP', vj', d'. repeat split; auto. rewrite <- H3'. f_equal. lia.
Qed.
Lemma gather_len : forall x v dmg h X js k bs, gather (N:=RN) omega x v dmg h X k js = Ok bs -> length bs = length js.
Proof.
  intros x v dmg h X. induction js as [|j js IH]; intros k bs H; cbn [gather] in H; [injection H as <-; auto|].
  apply bind_Ok in H as (a & _ & H). apply bind_Ok in H as (b & _ & H). apply bind_Ok in H as (c & _ & H). apply bind_Ok in H as (r & Hr & H). injection H as <-. cbn. f_equal. eauto.
Qed.
Lemma moment_gram : forall h es bs, h <> 0 -> moment_matrix (N:=RN) h es (map (todat h) bs) = gram omega h es bs.
Proof.
  intros h es bs Hh. unfold moment_matrix, gram. apply map_ext. intros e. apply map_ext. intros f.
  transitivity (0 + sum_over (fun b => b_om (N:=RN) b * b_vol b * monomial (N:=RN) h (b_xi b) e * monomial (N:=RN) h (b_xi b) f) (map (todat h) bs)); [exact (fold_sum _ (fun b => b_om (N:=RN) b * b_vol b * monomial (N:=RN) h (b_xi b) e * monomial (N:=RN) h (b_xi b) f) _ 0)|].
  rewrite Rplus_0_l, so_map. apply so_ext. intros b _. unfold todat. cbn [b_om b_vol b_xi]. rewrite !monomial_mono by auto. reflexivity.
Qed.
(** weights of a bond from the rows of the inverse *)
Definition bweight (h : R) (es : list (nat * nat * nat)) (Mi : list (list R)) (b : bond3) : bw (N:=RN) :=
  Bw (N:=RN) (weight_of omega h b) (v3 (phi (N:=RN) h es (nth 0 Mi []) (todat h b)) (phi (N:=RN) h es (nth 1 Mi []) (todat h b)) (phi (N:=RN) h es (nth 2 Mi []) (todat h b))).
Definition pinv svd (h : R) (M : list (list R)) := snd (invert_cond (N:=RN) svd (1 / 1000000 * h * h * h) M).
Lemma point_weights_ok : forall svd order x v hs dmg nbrs p X h bs js, around x v hs dmg nbrs p X h bs -> nth_error nbrs p = Some js -> h <> 0 ->
  point_weights (N:=RN) omega svd order x v hs dmg p (offset nbrs p) js
    = Ok (0%Z, map (bweight h (powers order) (pinv svd h (gram omega h (powers order) bs))) bs).
Proof.
  intros svd order x v hs dmg nbrs p X h bs js (js' & Hn & Hx & Hh & L & H) Hn' Hh0. rewrite Hn in Hn'. injection Hn' as ->.
  unfold point_weights. rewrite (at_of (T RN) hs p h Hh), (at_of _ _ _ _ Hx). cbn [bind]. rewrite (gather_ok _ _ _ _ _ _ _ _ L H). cbn [bind].
  rewrite moment_gram by auto. change (mul (n:=RN) (mul (n:=RN) (mul (n:=RN) (lit (n:=RN) 1 1000000) h) h) h) with (1 / 1000000 * h * h * h).
  pose proof (invert_cond_code svd (1 / 1000000 * h * h * h) (gram omega h (powers order) bs)) as C. unfold pinv.
  destruct (invert_cond svd (1 / 1000000 * h * h * h) (gram omega h (powers order) bs)) as [rc Mi]. cbn [fst] in C. subst rc. cbn [snd].
  rewrite map_map. reflexivity.
Qed.
Lemma point_weights_len : forall svd order x v hs dmg p k js rc l,
  point_weights (N:=RN) omega svd order x v hs dmg p k js = Ok (rc, l) -> length l = length js /\ rc = 0%Z.
Proof.
  intros svd order x v hs dmg p k js rc l H. unfold point_weights in H.
  apply bind_Ok in H as (h & _ & H). apply bind_Ok in H as (X & _ & H). apply bind_Ok in H as (bs & Hb & H). apply gather_len in Hb.
  pose proof (invert_cond_code svd (mul (n:=RN) (mul (n:=RN) (mul (n:=RN) (lit (n:=RN) 1 1000000) h) h) h) (moment_matrix (N:=RN) h (powers order) bs)) as C.
  destruct (invert_cond svd _ _) as [rc' Mi]. cbn [fst] in C. subst rc'. injection H as <- <-. now rewrite map_length.
Qed.

(** ** the moments *)
Lemma phi_sum : forall h es (row : list R) b, h <> 0 -> length row = length es ->
  phi (N:=RN) h es row (todat h b) = sum_to (length es) (fun j => nth j row 0 * (weight_of omega h b * (mono (nth j es (0,0,0)%nat) (bvec b) / h ^ degree (nth j es (0,0,0)%nat))) / h).
Proof.
  intros h es row b Hh L. unfold phi.
  transitivity (0 + sum_over (fun c => 1 * b_om (todat h b) * fst c * monomial (N:=RN) h (b_xi (todat h b)) (snd c) / h) (combine row es));
    [exact (fold_sum _ (fun c => 1 * b_om (todat h b) * fst c * monomial (N:=RN) h (b_xi (todat h b)) (snd c) / h) _ 0)|].
  rewrite Rplus_0_l, (so_combine _ _ _ 0 (0,0,0)%nat _ _ (length es)) by auto. unfold sum_to. apply so_ext. intros j _. cbn [fst snd todat b_om b_xi].
  rewrite monomial_mono by auto. unfold Rdiv. change (T RN) with R in *. ring.
Qed.
Lemma gram_entry : forall h es bs j l, (j < length es)%nat -> (l < length es)%nat ->
  entry (gram omega h es bs) j l = sum_over (fun b => weight_of omega h b * bvol b * (mono (nth j es (0,0,0)%nat) (bvec b) / h ^ degree (nth j es (0,0,0)%nat)) * (mono (nth l es (0,0,0)%nat) (bvec b) / h ^ degree (nth l es (0,0,0)%nat))) bs.
Proof. intros. unfold gram. etransitivity; [refine (entry_map _ _ _ es es j l (0,0,0)%nat (0,0,0)%nat _ _); auto|]. reflexivity. Qed.

Lemma moments : forall svd order h bs, 0 < h -> (1 <= order)%Z -> resolved omega svd order h bs ->
  forall a e, (a < 3)%nat -> (1 <= Z.of_nat (degree e) <= order)%Z ->
  sum_over (fun b => comp (w_phi (bweight h (powers order) (pinv svd h (gram omega h (powers order) bs)) b)) a * bvol b * mono e (bvec b)) bs
  = if is_exp e (unit_exp a) then 1 else 0.
Proof.
  intros svd order h bs Hh Ho (u & w & v & HE & HS & Hw) a e Ha He.
  set (es := powers order) in *. set (n := length es) in *. set (M := gram omega h es bs) in *.
  assert (Hn3 : (3 <= n)%nat) by (unfold n, es; destruct (powers_head order Ho) as [r ->]; cbn; lia).
  assert (Hua : nth a es (0,0,0)%nat = unit_exp a) by (unfold es; destruct (powers_head order Ho) as [r ->]; i3 a Ha; reflexivity).
  apply powers_In in He. fold es in He. destruct (In_nth _ _ (0,0,0)%nat He) as (l & Hl & El).
  assert (Hthr : 0 <= 1 / 1000000 * h * h * h) by (apply Rmult_le_pos; [apply Rmult_le_pos; [|lra]|lra]; lra).
  pose proof (invert_cond_inverse n svd _ M u v w HE HS Hthr Hw) as INV.
  destruct (invert_cond_entry n svd _ M u v w HE HS Hw) as [_ ROW].
  fold (pinv svd h M) in INV, ROW. set (Mi := pinv svd h M) in *. destruct (ROW a ltac:(lia)) as [Lrow _].
  transitivity (h ^ degree e / h * sum_to n (fun j => entry Mi a j * entry M j l)).
  - transitivity (sum_over (fun b => sum_to n (fun j => nth j (nth a Mi []) 0 * (weight_of omega h b * (mono (nth j es (0,0,0)%nat) (bvec b) / h ^ degree (nth j es (0,0,0)%nat))) / h * bvol b * mono e (bvec b))) bs).
    + apply so_ext. intros b _. assert (E : comp (w_phi (bweight h es Mi b)) a = phi (N:=RN) h es (nth a Mi []) (todat h b)) by (i3 a Ha; reflexivity).
      rewrite E, phi_sum by (auto; lra). unfold sum_to. now rewrite <- !so_mul_r.
    + unfold sum_to. rewrite so_swap, <- so_mul. apply so_ext. intros j Hj. apply in_seq in Hj. unfold M. rewrite gram_entry by (unfold n in *; lia).
      rewrite El. unfold entry. rewrite <- !so_mul. apply so_ext. intros b _.
      change (T RN) with R in *. assert (h ^ degree e <> 0) by (apply pow_nonzero; lra). assert (h ^ degree (nth j es (0,0,0)%nat) <> 0) by (apply pow_nonzero; lra).
      revert H H0. generalize (h ^ degree e), (h ^ degree (nth j es (0,0,0)%nat)). intros z1 z2 Z1 Z2. field. repeat split; auto; lra.
  - rewrite INV by (unfold n in *; lia). unfold kron. destruct (Nat.eqb_spec a l) as [<-|Hne].
    + rewrite Hua in El. subst e. rewrite (proj2 (is_exp_iff _ _) eq_refl). assert (degree (unit_exp a) = 1%nat) as -> by (i3 a Ha; reflexivity). field. lra.
    + destruct (is_exp e (unit_exp a)) eqn:X; [|ring]. apply is_exp_iff in X. exfalso. apply Hne.
      apply (proj1 (NoDup_nth es (0,0,0)%nat) (powers_NoDup order)); [unfold n in *; lia|auto|congruence].
Qed.

(** ** all points *)
Lemma num_bonds_cons : forall js rest, num_bonds (js :: rest) = (length js + num_bonds rest)%nat. Proof. reflexivity. Qed.
Lemma offset_S : forall js rest q, offset (js :: rest) (S q) = (length js + offset rest q)%nat. Proof. reflexivity. Qed.
Lemma own_0 : forall A (a b : list A) js rest, length a = length js -> own (js :: rest) 0 (a ++ b) = a.
Proof. intros A a b js rest L. unfold own. change (offset (js :: rest) 0) with 0%nat. cbn [nth skipn]. rewrite firstn_app, <- L, firstn_all, Nat.sub_diag. cbn. apply app_nil_r. Qed.
Lemma own_S : forall A (a b : list A) js rest q, length a = length js -> own (js :: rest) (S q) (a ++ b) = own rest q b.
Proof.
  intros A a b js rest q L. unfold own. rewrite offset_S. cbn [nth]. f_equal. rewrite skipn_app, skipn_all2 by lia. cbn. f_equal. lia.
Qed.
Lemma weights_from_spec : forall svd order x v hs dmg flags old nbrs p k code code' wt fs,
  weights_from (N:=RN) omega svd order x v hs dmg p k nbrs flags old code = Ok (code', wt, fs) ->
  code' = code /\ length wt = num_bonds nbrs /\ length fs = length nbrs /\
  forall q js, nth_error nbrs q = Some js -> exists flag, nth_error flags (p + q) = Some flag /\
    ((flag < 1 / 2 /\ point_weights (N:=RN) omega svd order x v hs dmg (p + q) (k + offset nbrs q) js = Ok (0%Z, own nbrs q wt) /\ nth_error fs q = Some 1)
     \/ (1 / 2 <= flag /\ own nbrs q wt = firstn (length js) (skipn (k + offset nbrs q) old) /\ nth_error fs q = Some flag)).
Proof.
  intros svd order x v hs dmg flags old. induction nbrs as [|js rest IH]; intros p k code code' wt fs H; cbn [weights_from] in H.
  - injection H as <- <- <-. repeat split; auto. intros q js' Hq. destruct q; discriminate.
  - apply bind_Ok in H as (flag & Hf & H). apply at_ub_Ok in Hf. apply bind_Ok in H as ([[c1 bws] f1] & Hs & H). apply bind_Ok in H as ([[c2 r] fs'] & Hr & H). injection H as <- <- <-.
    apply IH in Hr as (-> & Lr & Lf & HR).
    assert (K : c1 = code /\ length bws = length js /\
      ((flag < 1 / 2 /\ point_weights (N:=RN) omega svd order x v hs dmg p k js = Ok (0%Z, bws) /\ f1 = 1) \/ (1 / 2 <= flag /\ bws = firstn (length js) (skipn k old) /\ f1 = flag))).
    { change (ltb (n:=RN) flag (lit 1 2)) with (Rltb flag (1 / 2)) in Hs. destruct (Rltb flag (1 / 2)) eqn:B.
      - apply Rltb_true in B. apply bind_Ok in Hs as ([rc l] & Hl & Hs). pose proof (point_weights_len _ _ _ _ _ _ _ _ _ _ _ Hl) as [L ->]. injection Hs as <- <- <-. repeat split; auto.
      - apply Rltb_false in B. apply bind_Ok in Hs as (l & Hl & Hs). injection Hs as <- <- <-. unfold slice in Hl. destruct (k + length js <=? length old)%nat eqn:C; [|discriminate]. apply Nat.leb_le in C. injection Hl as <-.
        split; [auto|]. split; [rewrite firstn_length, skipn_length; lia|]. right. split; [lra|auto]. }
    destruct K as (-> & Lb & K). repeat split; auto.
    + rewrite app_length, num_bonds_cons. lia.
    + cbn. now f_equal.
    + intros q js' Hq. destruct q as [|q].
      * cbn in Hq. injection Hq as ->. exists flag. rewrite Nat.add_0_r. split; auto. change (offset (js' :: rest) 0) with 0%nat. rewrite Nat.add_0_r, own_0 by auto. cbn [nth_error].
        destruct K as [(A & B & C)|(A & B & C)]; [left|right]; rewrite C; auto.
      * cbn [nth_error] in Hq |- *. destruct (HR q js' Hq) as (fl & Hfl & D). exists fl. rewrite own_S by auto. rewrite offset_S.
        replace (p + S q)%nat with (1 + p + q)%nat by lia. replace (k + (length js + offset rest q))%nat with (length js + k + offset rest q)%nat by lia. auto.
Qed.

(** ** sums over the neighbours *)
Lemma grad_sum_eq : forall v u wt U g i c js k bs acc F, (i < 3)%nat -> (c < 3)%nat ->
  grad_sum (N:=RN) v u wt U k js acc = Ok F -> length bs = length js ->
  (forall n j b, nth_error js n = Some j -> nth_error bs n = Some b -> nth_error v j = Some (bvol b) /\
     forall UP, nth_error u j = Some UP -> comp UP i - comp U i = g (bvec b)) ->
  ent F i c = ent acc i c + sum_over (fun t => g (bvec (fst t)) * (comp (w_phi (snd t)) c * bvol (fst t))) (combine bs (firstn (length js) (skipn k wt))).
Proof.
  intros v u wt U g i c. induction js as [|j js IH]; intros k bs acc F Hi Hc HG L H; destruct bs as [|b bs]; try discriminate; cbn [grad_sum] in HG.
  - injection HG as <-. cbn. lra.
  - apply bind_Ok in HG as (vj & Hv & HG). apply bind_Ok in HG as (UP & HU & HG). apply bind_Ok in HG as (w & Hw & HG). apply at_ub_Ok in Hv, HU, Hw.
    destruct (H 0%nat j b eq_refl eq_refl) as [Hv' HU']. rewrite Hv in Hv'. injection Hv' as ->. specialize (HU' UP HU).
    apply (IH _ bs) in HG; auto; [|intros n j' b' Hn Hb; apply (H (S n)); auto].
    rewrite HG. cbn [length]. assert (SK : skipn k wt = w :: skipn (1 + k) wt).
    { clear -Hw. revert k Hw. induction wt as [|y wt IH]; intros [|k] Hw; try discriminate; cbn in Hw |- *; [injection Hw as ->; reflexivity|]. now apply IH. }
    rewrite SK. cbn [firstn combine]. rewrite so_cons. cbn [fst snd]. rewrite <- Rplus_assoc. f_equal.
    rewrite <- HU'. clear -Hi Hc. ij i c Hi Hc; cbn; to_R; change (T RN) with R; ring.
Qed.
Lemma gradients_spec : forall v u wt nbrs start p k Fs, gradients (N:=RN) start v u wt p k nbrs = Ok Fs ->
  length Fs = length nbrs /\ forall q js, nth_error nbrs q = Some js -> exists U F, nth_error u (p + q) = Some U /\ nth_error Fs q = Some F /\
    grad_sum (N:=RN) v u wt U (k + offset nbrs q) js start = Ok F.
Proof.
  intros v u wt. induction nbrs as [|js rest IH]; intros start p k Fs H; cbn [gradients] in H.
  - injection H as <-. split; auto. intros [|q] js Hq; discriminate.
  - apply bind_Ok in H as (U & HU & H). apply bind_Ok in H as (F & HF & H). apply bind_Ok in H as (r & Hr & H). injection H as <-. apply at_ub_Ok in HU.
    apply IH in Hr as [L HR]. split; [cbn; now f_equal|]. intros [|q] js' Hq.
    + cbn in Hq. injection Hq as ->. exists U, F. change (offset (js' :: rest) 0) with 0%nat. rewrite !Nat.add_0_r. auto.
    + destruct (HR q js' Hq) as (U' & F' & H1 & H2 & H3). exists U', F'. rewrite offset_S. replace (p + S q)%nat with (1 + p + q)%nat by lia.
      replace (k + (length js + offset rest q))%nat with (length js + k + offset rest q)%nat by lia. auto.
Qed.

(** ** polynomials *)
Lemma mono_0 : forall e, mono e vzero = if Nat.eqb (degree e) 0 then 1 else 0.
Proof.
  intros [[a b] c]. unfold mono, degree. change (vx (N:=RN) vzero) with 0. change (vy (N:=RN) vzero) with 0. change (vz (N:=RN) vzero) with 0.
  destruct a as [|a]; [|cbn; ring]. destruct b as [|b]; [|cbn; ring]. destruct c as [|c]; cbn; ring.
Qed.
Lemma mono_deg0 : forall e xi, degree e = 0%nat -> mono e xi = 1.
Proof. intros [[a b] c] xi H. unfold degree in H. assert (a = 0 /\ b = 0 /\ c = 0)%nat as (-> & -> & ->) by lia. unfold mono. cbn. ring. Qed.
End Weights.
