(** * Bond-associated correspondence: broken bonds, trials, flat neighbourhoods, bond level gradient *)
From Coq Require Import Reals Lra Lia.
From Verif Require Import Base Num ModelNeigh SpecDamage ModelForce SpecForce ModelCorr SpecCorr ModelBondAssoc SpecBondAssoc
  ProofData ProofDamage ProofForce ProofKernels ProofCorr ProofCorr2 ProofCorr3 ProofTangent ProofBondAssoc ProofBondAssoc2 ProofBondAssoc3.
Local Open Scope R_scope.
Local Notation vec := (V3 RN).
Local Notation ten := (M3 RN).

Section Om.
Variable omega : R -> R -> R.

(** ** broken bonds *)
Lemma phi_zero : forall h es (row : list R) b, b_om (N:=RN) b = 0 -> phi (N:=RN) h es row b = 0.
Proof.
  intros h es row b H. unfold phi. set (l := combine row es).
  transitivity (0 + sum_over (fun c => 1 * b_om (N:=RN) b * fst c * monomial (N:=RN) h (b_xi b) (snd c) / h) l); [exact (fold_sum _ (fun c => 1 * b_om (N:=RN) b * fst c * monomial (N:=RN) h (b_xi b) (snd c) / h) l 0)|].
  rewrite so_0; [apply Rplus_0_r|]. intros c _. rewrite H. unfold Rdiv. change (T RN) with R in *. ring.
Qed.
Lemma bweight_broken : forall h es Mi b, bdmg b = 1 -> bweight omega h es Mi b = Bw (N:=RN) 0 vzero.
Proof.
  intros h es Mi b H. assert (W : weight_of omega h b = 0) by (unfold weight_of; rewrite H; ring). unfold bweight. rewrite W. rewrite !phi_zero by exact W. reflexivity.
Qed.
Lemma weights_broken : forall svd order x x' v v' hs hs' dmg nbrs p X h bs bs' js, nth_error nbrs p = Some js -> 0 < h ->
  around x v hs dmg nbrs p X h bs -> around x' v' hs' dmg nbrs p X h bs' -> Forall2 (fun b b' => b = b' \/ (bdmg b = 1 /\ bdmg b' = 1)) bs bs' ->
  point_weights (N:=RN) omega svd order x v hs dmg p (offset nbrs p) js = point_weights (N:=RN) omega svd order x' v' hs' dmg p (offset nbrs p) js.
Proof.
  intros svd order x x' v v' hs hs' dmg nbrs p X h bs bs' js Hn Hh A A' F.
  rewrite (point_weights_ok omega svd order x v hs dmg nbrs p X h bs js A Hn), (point_weights_ok omega svd order x' v' hs' dmg nbrs p X h bs' js A' Hn) by lra.
  f_equal. f_equal. assert (G : gram omega h (powers order) bs = gram omega h (powers order) bs').
  { unfold gram. apply map_ext. intros e. apply map_ext. intros f. clear A A'. induction F as [|b b' bs bs' [->|[B B']] F IH]; auto; rewrite !so_cons, IH; auto.
    f_equal. unfold weight_of. rewrite B, B'. ring. }
  rewrite G. generalize (pinv svd h (gram omega h (powers order) bs')). intros Mi. clear A A' G. induction F as [|b b' bs bs' [->|[B B']] F IH]; cbn [map]; auto; rewrite IH; auto.
  f_equal. now rewrite !bweight_broken.
Qed.

(** ** a second evaluation in the same step *)
Lemma precompute_point : forall svd order x v hs nbrs dN dNP1 dmg u vel s s1 Fs Gs p js fl,
  ba_precompute (N:=RN) omega svd order x v hs nbrs dN dNP1 dmg u vel s = Ok (s1, Fs, Gs) -> nth_error nbrs p = Some js -> nth_error (s_flags s) p = Some fl ->
  (nth p dN 0 + 1 / 1000000000000000 < nth p dNP1 0 -> point_weights (N:=RN) omega svd order x v hs dmg p (offset nbrs p) js = Ok (0%Z, own nbrs p (s_wt s1)) /\ nth_error (s_flags s1) p = Some 1) /\
  (nth p dNP1 0 <= nth p dN 0 + 1 / 1000000000000000 -> 1 / 2 <= fl -> own nbrs p (s_wt s1) = own nbrs p (s_wt s)).
Proof.
  intros svd order x v hs nbrs dN dNP1 dmg u vel s s1 Fs Gs p js fl H Hn Hfl. unfold ba_precompute in H.
  apply bind_Ok in H as (fs & Hfs & H). apply bind_Ok in H as ([[c wt] fs'] & Hw & H). destruct (negb (Z.eqb c 0)); [discriminate|].
  apply bind_Ok in H as (F & HF & H). apply bind_Ok in H as (G & HG & H). injection H as <- <- <-. cbn [s_flags s_wt].
  apply weights_from_spec in Hw as (_ & L & _ & HS). destruct (HS p js Hn) as (f & Hf & D). cbn [Nat.add] in *.
  destruct (update_flags_spec _ _ _ _ Hfs) as [_ UF]. destruct (UF p fl Hfl) as (a & b & Ha & Hb & Hf'). change (T RN) with R in *. rewrite Hf in Hf'. injection Hf' as ->.
  rewrite (nth_error_nth _ _ _ Ha), (nth_error_nth _ _ _ Hb). split.
  - intros GT. rewrite (proj2 (Rltb_true _ _)) in D by lra. destruct D as [(_ & A & B)|(A & _)]; [auto|lra].
  - intros LE HF2. rewrite (proj2 (Rltb_false _ _)) in D by lra. destruct D as [(A & _)|(_ & A & _)]; [lra|]. rewrite A. unfold own. now rewrite (nth_error_nth _ _ _ Hn).
Qed.

(** ** flat neighbourhoods: the neighbours all move with the point *)
Lemma gradient_still : forall v u wt nbrs start Fs p js U, gradients (N:=RN) start v u wt 0 0 nbrs = Ok Fs -> nth_error nbrs p = Some js -> nth_error u p = Some U ->
  (forall j UP, In j js -> nth_error u j = Some UP -> UP = U) -> exists F, nth_error Fs p = Some F /\ eq3 (ent F) (ent start).
Proof.
  intros v u wt nbrs start Fs p js U H Hn HU HE. destruct (gradients_spec _ _ _ _ _ _ _ _ H) as [_ GS]. destruct (GS p js Hn) as (U' & F & HU' & HF & HS).
  cbn [Nat.add] in *. assert (U' = U) by congruence. subst U'. exists F. split; [auto|].
  clear -HS HE. revert HS. generalize (offset nbrs p). generalize start. revert HE. induction js as [|j js IH]; intros HE acc k HS; cbn [grad_sum] in HS.
  - injection HS as <-. now intros i c _ _.
  - apply bind_Ok in HS as (vj & _ & HS). apply bind_Ok in HS as (UP & HUP & HS). apply bind_Ok in HS as (w & _ & HS). apply at_ub_Ok in HUP.
    assert (UP = U) by (eapply HE; [now left|exact HUP]). subst UP. apply IH in HS; [|intros j' UP' Hj; apply HE; now right].
    intros i c Hi Hc. rewrite (HS i c Hi Hc). clear -Hi Hc. destruct U as [a b d], w as [om [p1 p2 p3]]. ij i c Hi Hc; cbn; to_R; change (T RN) with R; ring.
Qed.

(** ** orders below one *)
Lemma order_none : forall order, (order < 1)%Z -> powers order = []. Proof. intros order H. unfold powers. replace (Z.to_nat order) with 0%nat by lia. reflexivity. Qed.
Lemma phi_nil : forall h row b, phi (N:=RN) h [] row b = 0. Proof. intros. unfold phi. destruct row; reflexivity. Qed.
Lemma order_zero : forall svd order x v hs dmg p k js l, (order < 1)%Z -> point_weights (N:=RN) omega svd order x v hs dmg p k js = Ok (0%Z, l) -> Forall (fun w => w_phi w = vzero) l.
Proof.
  intros svd order x v hs dmg p k js l Ho H. unfold point_weights in H. rewrite order_none in H by auto.
  apply bind_Ok in H as (h & _ & H). apply bind_Ok in H as (X & _ & H). apply bind_Ok in H as (bs & Hb & H). destruct (invert_cond _ _ _) as [rc Mi]. injection H as _ <-.
  apply Forall_forall. intros w Hw. apply in_map_iff in Hw as (b & <- & _). cbn [w_phi]. now rewrite !phi_nil.
Qed.
Lemma gradient_flatline : forall v u wt nbrs start Fs p js, gradients (N:=RN) start v u wt 0 0 nbrs = Ok Fs -> nth_error nbrs p = Some js ->
  Forall (fun w => w_phi w = vzero) (own nbrs p wt) -> exists F, nth_error Fs p = Some F /\ eq3 (ent F) (ent start).
Proof.
  intros v u wt nbrs start Fs p js H Hn HZ. destruct (gradients_spec _ _ _ _ _ _ _ _ H) as [_ GS]. destruct (GS p js Hn) as (U & F & HU & HF & HS). cbn [Nat.add] in *. exists F. split; [auto|].
  unfold own in HZ. rewrite (nth_error_nth _ _ _ Hn) in HZ. clear -HS HZ. revert HS HZ. generalize (offset nbrs p). generalize start. induction js as [|j js IH]; intros acc k HS HZ; cbn [grad_sum] in HS.
  - injection HS as <-. now intros i c _ _.
  - apply bind_Ok in HS as (vj & _ & HS). apply bind_Ok in HS as (UP & HUP & HS). apply bind_Ok in HS as (w & Hw & HS). apply at_ub_Ok in Hw.
    assert (SK : skipn k wt = w :: skipn (1 + k) wt).
    { clear -Hw. revert k Hw. induction wt as [|y wt IH]; intros [|k] Hw; try discriminate; cbn in Hw |- *; [injection Hw as ->; reflexivity|]. now apply IH. }
    rewrite SK in HZ. cbn [length firstn] in HZ. inversion HZ as [|? ? Z1 Z2]; subst. apply IH in HS; auto. intros i c Hi Hc. rewrite (HS i c Hi Hc). rewrite Z1.
    clear -Hi Hc. destruct U as [a b d], UP as [a' b' d']. ij i c Hi Hc; cbn; to_R; change (T RN) with R; ring.
Qed.
End Om.

(** ** bond level gradient *)
Lemma bond_gradient_level : forall (a : ten) (xi d : vec), vdot xi xi <> 0 -> bond_level (ent a) xi d (ent (bond_gradient (N:=RN) a xi d)).
Proof.
  intros a [x y z] [d1 d2 d3] H. unfold vdot in H. cbn [vx vy vz] in H. to_R. change (T RN) with R in *. split.
  - intros i Hi. i3 i Hi; unfold image, sum3; cbn; to_R; change (T RN) with R; field; exact H.
  - intros [t1 t2 t3] Ht i Hi. unfold vdot in Ht. cbn [vx vy vz] in Ht. to_R. change (T RN) with R in *.
    i3 i Hi; unfold image, sum3; cbn; to_R; change (T RN) with R;
      apply Rminus_diag_uniq;
      match goal with |- context [(?dd - ?s) * x / ?l2] => transitivity ((dd - s) / l2 * (t1 * x + t2 * y + t3 * z)); [unfold Rdiv; ring|rewrite Ht; ring] end.
Qed.
Lemma bond_level_unique : forall (m : mat) (xi d : vec) (G G' : mat), vdot xi xi <> 0 -> bond_level m xi d G -> bond_level m xi d G' -> eq3 G G'.
Proof.
  intros m [x y z] d G G' H [A1 A2] [B1 B2]. unfold vdot in H. cbn [vx vy vz] in H. to_R. change (T RN) with R in *.
  assert (K : forall i, (i < 3)%nat -> forall t : vec, image G t i = image G' t i).
  { intros i Hi [t1 t2 t3]. set (k := (t1 * x + t2 * y + t3 * z) / (x * x + y * y + z * z)).
    set (s := v3 (N:=RN) (t1 - k * x) (t2 - k * y) (t3 - k * z)).
    assert (Hs : vdot s (v3 (N:=RN) x y z) = 0) by (unfold s, vdot; cbn; to_R; change (T RN) with R; unfold k; field; exact H).
    pose proof (eq_trans (A2 s Hs i Hi) (eq_sym (B2 s Hs i Hi))) as E1. clearbody k. pose proof (A1 i Hi) as E3. rewrite <- (B1 i Hi) in E3.
    unfold image, sum3, s in *. cbn [comp vx vy vz] in *. change (T RN) with R in *. apply (f_equal (Rmult k)) in E3. clear - E1 E3. lra. }
  intros i j Hi Hj. pose proof (K i Hi (v3 (N:=RN) (kron j 0) (kron j 1) (kron j 2))) as E. unfold image, sum3, comp, kron in E.
  destruct j as [|[|[|j]]]; [| | |exfalso; lia]; cbn in E; lra.
Qed.
Lemma mean_average : forall a b : ten, eq3 (ent (mean (N:=RN) a b)) (average (ent a) (ent b)).
Proof. intros a b i j Hi Hj. unfold average. ij i j Hi Hj; cbn; to_R; change (T RN) with R; field. Qed.
Lemma bond_level_ext : forall m m' xi d G, eq3 m m' -> bond_level m xi d G -> bond_level m' xi d G.
Proof.
  intros m m' xi d G E [A B]. split; auto. intros t Ht i Hi. rewrite (B t Ht i Hi). unfold image, sum3. rewrite !(E i) by lia. reflexivity.
Qed.

(** ** damage as reported *)
Lemma F2_nth : forall (P : R -> R -> Prop) (l l' : list R), length l = length l' -> (forall k, (k < length l)%nat -> P (nth k l 0) (nth k l' 0)) -> Forall2 P l l'.
Proof.
  intros P. induction l as [|a l IH]; intros [|b l'] L H; try discriminate; constructor.
  - apply (H 0%nat). cbn. lia.
  - apply IH; [now injection L|]. intros k Hk. apply (H (S k)). cbn. lia.
Qed.
Lemma F2_firstn : forall (P : R -> R -> Prop) n l l', Forall2 P l l' -> Forall2 P (firstn n l) (firstn n l').
Proof. intros P. induction n as [|n IH]; intros l l' H; cbn; [constructor|]. destruct H; constructor; auto. Qed.
Lemma F2_skipn : forall (P : R -> R -> Prop) n l l', Forall2 P l l' -> Forall2 P (skipn n l) (skipn n l').
Proof. intros P. induction n as [|n IH]; intros l l' H; cbn; auto. destruct H; auto. Qed.
Lemma sum01 : forall l l', Forall2 (fun a b => is01 a /\ is01 b /\ a <= b) l l' -> l' = l \/ sum_over (fun d => d) l + 1 <= sum_over (fun d => d) l'.
Proof.
  intros l l' H. induction H as [|a b l l' (A & B & C) H IH]; auto. rewrite !so_cons.
  assert (sum_over (fun d => d) l <= sum_over (fun d => d) l') by (destruct IH as [->|IH]; lra).
  destruct A as [A|A], B as [B|B]; subst a b; try lra; destruct IH as [IH|IH]; try subst l'; auto; right; lra.
Qed.
Lemma breaking_reported : forall nbrs es dN dmgN, length dmgN = num_bonds nbrs -> (forall k, is01 (nth k dmgN 0)) -> Forall (fun js => (Z.of_nat (length js) < 1000000000000000)%Z) nbrs ->
  (forall p, (p < length nbrs)%nat -> nth p dN 0 = mean_damage nbrs p dmgN) -> breaking nbrs dmgN es -> reported nbrs dN dmgN es.
Proof.
  intros nbrs. induction es as [|[[[d1 dm] u] vel] es IH]; intros dN dmgN L H01 HN HD HB; cbn [reported]; auto. destruct HB as (L1 & H1 & HD1 & HB). split.
  - intros p Hp. rewrite (HD p Hp), (HD1 p Hp).
    assert (F : Forall2 (fun a b => is01 a /\ is01 b /\ a <= b) dmgN dm) by (apply F2_nth; [auto|]; intros k _; destruct (H1 k); auto).
    apply (F2_skipn _ (offset nbrs p)) in F. apply (F2_firstn _ (length (nth p nbrs []))) in F. fold (own nbrs p dmgN) in F. fold (own nbrs p dm) in F.
    destruct (sum01 _ _ F) as [E|E]; [now left|right].
    destruct (nth_error nbrs p) as [js|] eqn:En; [|apply nth_error_None in En; lia].
    unfold mean_damage. rewrite (own_len _ dmgN nbrs p js En L), (own_len _ dm nbrs p js En) by congruence.
    assert (LT : INR (length js) < 1000000000000000).
    { rewrite Forall_forall in HN. specialize (HN js (nth_error_In _ _ En)). rewrite INR_IZR_INZ. now apply IZR_lt in HN. }
    assert (GT : 0 < INR (length js)).
    { apply lt_0_INR. destruct js as [|j js]; [|cbn; lia]. exfalso. assert (Z : own nbrs p dmgN = [] /\ own nbrs p dm = []) by (unfold own; rewrite (nth_error_nth _ _ _ En); auto). destruct Z as [Z1 Z2]. rewrite Z1, Z2 in E. unfold sum_over in E. cbn in E. lra. }
    set (s := sum_over _ (own nbrs p dmgN)) in *. set (s' := sum_over _ (own nbrs p dm)) in *. set (n := INR (length js)) in *.
    apply Rlt_le_trans with ((s + 1) / n).
    + replace ((s + 1) / n) with (s / n + 1 / n) by (field; lra). apply Rplus_lt_compat_l. unfold Rdiv. rewrite !Rmult_1_l. apply Rinv_lt_contravar; [|auto]. apply Rmult_lt_0_compat; lra.
    + unfold Rdiv. apply Rmult_le_compat_r; [left; now apply Rinv_0_lt_compat|auto].
  - apply IH; auto; [congruence|]. intros k. apply H1.
Qed.

(** ** no evaluation fails on data of the right length *)
Section Total.
Variable omega : R -> R -> R.
Lemma at_lt : forall A (l : list A) i, (i < length l)%nat -> exists a, at_ub l i = Ok a.
Proof. intros A l i H. unfold at_ub. destruct (nth_error l i) as [a|] eqn:E; [eauto|]. apply nth_error_None in E. lia. Qed.
Ltac at_l l i := let a := fresh "a" in let E := fresh "E" in destruct (at_lt _ l i) as [a E]; [try lia|rewrite E; cbn [bind]].
Lemma gather_total : forall x v dmg h X js k, Forall (fun j => (j < length x)%nat) js -> (length x <= length v)%nat -> (k + length js <= length dmg)%nat ->
  exists bs, gather (N:=RN) omega x v dmg h X k js = Ok bs.
Proof.
  intros x v dmg h X. induction js as [|j js IH]; intros k F Hv Hd; cbn [gather]; eauto. inversion F; subst. cbn [length] in Hd. at_l x j. at_l v j. at_l dmg k.
  destruct (IH (1 + k)%nat) as [r ->]; auto; [lia|]. cbn [bind]. eauto.
Qed.
Lemma weights_total : forall svd order x v hs dmg flags old nbrs p k code, Forall (Forall (fun j => (j < length x)%nat)) nbrs -> (length x <= length v)%nat ->
  (k + num_bonds nbrs <= length dmg)%nat -> (k + num_bonds nbrs <= length old)%nat -> (p + length nbrs <= length x)%nat -> (p + length nbrs <= length hs)%nat -> (p + length nbrs <= length flags)%nat ->
  exists wt fs, weights_from (N:=RN) omega svd order x v hs dmg p k nbrs flags old code = Ok (code, wt, fs).
Proof.
  intros svd order x v hs dmg flags old. induction nbrs as [|js rest IH]; intros p k code F Hv Hd Ho Hx Hh Hf; cbn [weights_from]; [do 2 eexists; reflexivity|].
  inversion F; subst. rewrite num_bonds_cons in *. cbn [length] in *. at_l flags p.
  assert (K : exists l f, (if ltb (n:=RN) a (lit 1 2) then let? (rc, l) := point_weights (N:=RN) omega svd order x v hs dmg p k js in Ok (if (0 <? rc)%Z then rc else code, l, ofZ 1)
     else let? l := slice old k (length js) in Ok (code, l, a)) = Ok (code, l, f)).
  { destruct (ltb (n:=RN) a (lit 1 2)).
    - assert (P : exists l, point_weights (N:=RN) omega svd order x v hs dmg p k js = Ok (0%Z, l)).
      { unfold point_weights. at_l hs p. at_l x p. destruct (gather_total x v dmg a0 a1 js k) as [bs ->]; auto; [lia|]. cbn [bind].
        match goal with |- context [invert_cond ?s ?t ?m] => pose proof (invert_cond_code s t m) as C; destruct (invert_cond s t m) as [rc Mi] end. cbn [fst] in C. subst rc. eauto. }
      destruct P as [l ->]. cbn [bind]. do 2 eexists. reflexivity.
    - unfold slice. rewrite (proj2 (Nat.leb_le _ _)) by (change (T RN) with R in *; lia). cbn [bind]. do 2 eexists. reflexivity. }
  destruct K as (l & f & ->). cbn [bind]. destruct (IH (1 + p)%nat (length js + k)%nat code) as (wt & fs & ->); auto; try (change (T RN) with R in *; lia). cbn [bind]. do 2 eexists. reflexivity.
Qed.
Lemma grad_sum_total : forall v u wt U js k acc, Forall (fun j => (j < length u)%nat) js -> (length u <= length v)%nat -> (k + length js <= length wt)%nat ->
  exists F, grad_sum (N:=RN) v u wt U k js acc = Ok F.
Proof.
  intros v u wt U. induction js as [|j js IH]; intros k acc F Hv Hw; cbn [grad_sum]; eauto. inversion F; subst. cbn [length] in Hw. at_l v j. at_l u j. at_l wt k. apply IH; auto. lia.
Qed.
Lemma gradients_total : forall start v u wt nbrs p k, Forall (Forall (fun j => (j < length u)%nat)) nbrs -> (length u <= length v)%nat -> (k + num_bonds nbrs <= length wt)%nat -> (p + length nbrs <= length u)%nat ->
  exists Fs, gradients (N:=RN) start v u wt p k nbrs = Ok Fs.
Proof.
  intros start v u wt. induction nbrs as [|js rest IH]; intros p k F Hv Hw Hu; cbn [gradients]; eauto. inversion F; subst. rewrite num_bonds_cons in *. cbn [length] in *. at_l u p.
  destruct (grad_sum_total v u wt a js k start) as [G ->]; auto; [lia|]. cbn [bind]. destruct (IH (1 + p)%nat (length js + k)%nat) as [r ->]; auto; try lia. cbn [bind]. eauto.
Qed.
Lemma volumes_total : forall v wt nbrs k, Forall (Forall (fun j => (j < length v)%nat)) nbrs -> (k + num_bonds nbrs <= length wt)%nat -> exists w0, weighted_volumes (N:=RN) v wt k nbrs = Ok w0.
Proof.
  intros v wt. induction nbrs as [|js rest IH]; intros k F Hw; cbn [weighted_volumes]; eauto. inversion F as [|? ? F1 F2]; subst. rewrite num_bonds_cons in *.
  assert (K : forall js k acc, Forall (fun j => (j < length v)%nat) js -> (k + length js <= length wt)%nat -> exists w, volume_sum (N:=RN) v wt k js acc = Ok w).
  { clear. induction js as [|j js IH]; intros k acc F Hw; cbn [volume_sum]; eauto. inversion F; subst. cbn [length] in Hw. at_l wt k. at_l v j. apply IH; auto. lia. }
  destruct (K js k (ofZ 0)) as [w ->]; auto; [lia|]. cbn [bind]. destruct (IH (length js + k)%nat) as [r ->]; auto; [lia|]. cbn [bind]. eauto.
Qed.
Lemma update_total : forall flags dN dNP1, (length flags <= length dN)%nat -> (length flags <= length dNP1)%nat -> exists fs, update_flags (N:=RN) dN dNP1 flags = Ok fs.
Proof.
  induction flags as [|f flags IH]; intros [|a dN] [|b dNP1] H1 H2; cbn [length] in *; try lia; cbn [update_flags]; eauto.
  destruct (IH dN dNP1) as [r ->]; try lia. cbn [bind]. eauto.
Qed.
Lemma F_weaken : forall n m nbrs, (n <= m)%nat -> Forall (Forall (fun j => (j < n)%nat)) nbrs -> Forall (Forall (fun j => (j < m)%nat)) nbrs.
Proof. intros n m nbrs H F. eapply Forall_impl; [|exact F]. intros js F'. eapply Forall_impl; [|exact F']. cbn. intros. lia. Qed.
Lemma initialize_total : forall svd order x v hs nbrs, bonds_fit (length x) nbrs -> (length x <= length v)%nat -> (length nbrs <= length hs)%nat ->
  exists s, ba_initialize (N:=RN) omega svd order x v hs nbrs = Ok s /\ length (s_wt s) = num_bonds nbrs /\ length (s_flags s) = length nbrs.
Proof.
  intros svd order x v hs nbrs [Hl HF] Hv Hh. unfold ba_initialize.
  assert (NB : length (concat nbrs) = num_bonds nbrs) by (clear; induction nbrs as [|js r IH]; auto; cbn [concat]; rewrite app_length, num_bonds_cons, IH; auto). rewrite NB.
  unfold gradient_weights. destruct (weights_total svd order x v hs (repeat 0 (num_bonds nbrs)) (repeat 0 (length nbrs)) (repeat (Bw (N:=RN) (ofZ 0) vzero) (num_bonds nbrs)) nbrs 0 0 0%Z) as (wt & fs & E);
    auto; rewrite ?repeat_length; try lia.
  change (ofZ (n:=RN) 0) with 0 in *. change (T RN) with R in *. rewrite E. cbn [bind negb Z.eqb].
  apply weights_from_spec in E as (_ & L & LF & _).
  destruct (volumes_total v wt nbrs 0) as [w0 ->]; [eapply F_weaken; [|exact HF]; auto|cbn; change (T RN) with R in *; lia|]. cbn [bind]. eexists. split; [reflexivity|]. auto.
Qed.
Lemma precompute_total : forall svd order x v hs nbrs dN dNP1 dmg u vel s, bonds_fit (length x) nbrs -> (length x <= length v)%nat -> (length nbrs <= length hs)%nat ->
  length u = length x -> length vel = length x -> (length nbrs <= length dN)%nat -> (length nbrs <= length dNP1)%nat -> (num_bonds nbrs <= length dmg)%nat ->
  length (s_wt s) = num_bonds nbrs -> length (s_flags s) = length nbrs ->
  exists s1 Fs Gs, ba_precompute (N:=RN) omega svd order x v hs nbrs dN dNP1 dmg u vel s = Ok (s1, Fs, Gs) /\ length (s_wt s1) = num_bonds nbrs /\ length (s_flags s1) = length nbrs /\ length Fs = length nbrs.
Proof.
  intros svd order x v hs nbrs dN dNP1 dmg u vel s [Hl HF] Hv Hh Hu Hvel HN HN1 Hd Hw Hf. unfold ba_precompute.
  destruct (update_total (s_flags s) dN dNP1) as [fl E]; try (change (T RN) with R in *; lia). rewrite E. cbn [bind]. apply update_flags_spec in E as [LF _].
  unfold gradient_weights. destruct (weights_total svd order x v hs dmg fl (s_wt s) nbrs 0 0 0%Z) as (wt & fs & E); auto; try (change (T RN) with R in *; lia). rewrite E. cbn [bind negb Z.eqb].
  apply weights_from_spec in E as (_ & L & LF' & _). unfold deformation_gradients, velocity_gradients.
  destruct (gradients_total mone v u wt nbrs 0 0) as [Fs E1]; try (rewrite Hu); auto; try (change (T RN) with R in *; cbn; lia).
  destruct (gradients_total mzero v vel wt nbrs 0 0) as [Gs E2]; try (rewrite Hvel); auto; try (change (T RN) with R in *; cbn; lia).
  rewrite E1, E2. cbn [bind]. do 3 eexists. split; [reflexivity|]. cbn [s_wt s_flags]. split; [auto|]. split; [auto|]. exact (proj1 (gradients_spec _ _ _ _ _ _ _ _ E1)).
Qed.
End Total.
