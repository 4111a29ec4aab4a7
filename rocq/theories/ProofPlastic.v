From Coq Require Import Reals Lra Lia Psatz.
From Verif Require Import Base Num ModelNeigh SpecDamage ModelForce SpecForce ModelPlastic SpecPlastic ProofData ProofDamage
  ProofForce ProofKernels ProofFrame ProofMaterial ProofCubic.
Local Open Scope R_scope.
Local Notation vec := (V3 RN).

Lemma nth_ext_err : forall A (a b : list A), (forall n, nth_error a n = nth_error b n) -> a = b.
Proof.
  induction a as [|x a IH]; intros [|y b] H; auto.
  - specialize (H 0%nat). discriminate. - specialize (H 0%nat). discriminate.
  - f_equal; [specialize (H 0%nat); simpl in H; congruence|]. apply IH. intros n. exact (H (S n)).
Qed.

Lemma Some_eq : forall A (a b : A), Some a = Some b -> b = a.
Proof. congruence. Qed.

(** ** norms *)
Lemma sq_norm_scale : forall v dmg c js k ts, sq_norm v dmg k js (map (Rmult c) ts) = c * c * sq_norm v dmg k js ts.
Proof.
  induction js as [|j js IH]; intros k [|t ts]; cbn [sq_norm map]; try ring. rewrite IH. unfold Rsqr. ring.
Qed.
Lemma nth_nonneg : forall v j, Forall (Rle 0) v -> 0 <= nth j v 0.
Proof.
  intros v j H. revert j. induction H; intros [|j]; simpl; auto; lra.
Qed.
Lemma sq_norm_nonneg : forall v dmg js k ts, Forall (Rle 0) v -> 0 <= sq_norm v dmg k js ts.
Proof.
  induction js as [|j js IH]; intros k [|t ts] H; cbn [sq_norm]; try lra.
  pose proof (IH (S k) ts H). pose proof (Rle_0_sqr ((1 - nth k dmg 0) * t)). pose proof (nth_nonneg v j H). nra.
Qed.

Lemma ed_dist : forall th (X XP Y YP : vec), ed_of th X XP Y YP = dist Y YP - dist X XP - th * dist X XP / 3.
Proof. intros. unfold ed_of. rewrite !vlen_dist. reflexivity. Qed.

Lemma norm_trial : forall x y v dmg edp al th p X Y, at_ub x p = Ok X -> at_ub y p = Ok Y -> forall js k acc r,
  td_norm2 (N:=RN) x y v dmg edp al th X Y k js acc = Ok r ->
  exists ts, trial_state x y edp al th p k js ts /\ r = acc + sq_norm v dmg k js ts.
Proof.
  intros x y v dmg edp al th p X Y EX EY. induction js as [|j js IH]; intros k acc r H; cbn [td_norm2] in H.
  - injection H as <-. exists []. split; [split; auto; intros [|]; discriminate|]. cbn [sq_norm]. lra.
  - split_bind H. apply IH in H as (ts & [L HT] & E4). 
    exists (al * (ed_of th X a0 Y a1 - a3) :: ts). split.
    + split; [simpl; congruence|]. intros [|n] j' t Hj Ht; cbn [nth_error] in Hj, Ht.
      * apply Some_eq in Hj, Ht. subst j' t. rewrite Nat.add_0_r. apply at_ub_Ok in EX, EY, E, E0, E1, E2, E3.
        exists X, a0, Y, a1, a3. rewrite ed_dist. auto 10.
      * rewrite Nat.add_succ_r. exact (HT n j' t Hj Ht).
    + rewrite E4. cbn [sq_norm]. rewrite (nth_at_ub _ _ _ _ 0 E2), (nth_at_ub _ _ _ _ 0 E). to_R. unfold Rsqr. change (1 + k)%nat with (S k). ring.
Qed.

(** ** the states of one point *)
Lemma trial_unique : forall x y edp al th p k j t t', trial_at x y edp al th p k j t -> trial_at x y edp al th p k j t' -> t = t'.
Proof.
  intros x y edp al th p k j t t' (X & XP & Y & YP & ep & A1 & A2 & A3 & A4 & A5 & ->) (X' & XP' & Y' & YP' & ep' & B1 & B2 & B3 & B4 & B5 & ->).
  congruence.
Qed.
Lemma plastic_states : forall rm K x y dmg edp d p k js ss ts,
  at_ub x p = Ok (pp_X d) -> at_ub y p = Ok (pp_Y d) -> trial_state x y edp (pp_alpha d) (pp_theta d) p k js ts ->
  length ss = length js ->
  (forall n j, nth_error js n = Some j -> exists fb s, plastic_bond (N:=RN) rm K x y dmg edp d p (k + n) j = Ok (fb, s) /\ nth_error ss n = Some s) ->
  forall n t, nth_error ts n = Some t -> exists ep, nth_error edp (k + n) = Some ep /\
    nth_error ss n = Some (if pp_elastic d then ep else ep + rm d t * pp_dlambda d, if pp_elastic d then t else rm d t).
Proof.
  intros rm K x y dmg edp d p k js ss ts EX EY [L HT] Ls H n t Ht.
  assert (n < length js)%nat by (rewrite <- L; apply nth_error_Some; congruence).
  destruct (nth_error js n) as [j|] eqn:Ej; [|apply nth_error_None in Ej; lia].
  destruct (H n j Ej) as (fb & s & H1 & H2). unfold plastic_bond in H1. split_bind H1. apply Ok_pair in H1 as [-> ->].
  rewrite H2. apply at_ub_Ok in E, E0, E1, E2, EX, EY. exists a2. split; [exact E2|]. f_equal.
  assert (TT : t = pp_alpha d * 1 * (ed_of (N:=RN) (pp_theta d) (pp_X d) a (pp_Y d) a0 - a2)).
  { eapply trial_unique; [exact (HT n j t Ej Ht)|]. exists (pp_X d), a, (pp_Y d), a0, a2.
    rewrite ed_dist. repeat (split; [assumption|]). to_R. ring. }
  to_R. rewrite <- TT. now destruct (pp_elastic d).
Qed.
Lemma states_map : forall rm K x y dmg edp d p k js ss ts,
  at_ub x p = Ok (pp_X d) -> at_ub y p = Ok (pp_Y d) -> trial_state x y edp (pp_alpha d) (pp_theta d) p k js ts ->
  length ss = length js ->
  (forall n j, nth_error js n = Some j -> exists fb s, plastic_bond (N:=RN) rm K x y dmg edp d p (k + n) j = Ok (fb, s) /\ nth_error ss n = Some s) ->
  map snd ss = map (fun t => if pp_elastic d then t else rm d t) ts.
Proof.
  intros rm K x y dmg edp d p k js ss ts EX EY HT Ls H. apply nth_ext_err. intros n. rewrite !nth_error_map.
  destruct (nth_error ts n) as [t|] eqn:Et.
  - destruct (plastic_states rm K x y dmg edp d p k js ss ts EX EY HT Ls H n t Et) as (ep & _ & ->).
    symmetry. etransitivity; [exact (f_equal (option_map (fun t => if pp_elastic d then t else rm d t)) Et)|]. reflexivity.
  - apply nth_error_None in Et. destruct HT as [L _]. assert (N : nth_error ss n = None) by (apply nth_error_None; lia). rewrite N.
    symmetry. assert (N' : nth_error ts n = None) by (apply nth_error_None; lia).
    etransitivity; [exact (f_equal (option_map (fun t => if pp_elastic d then t else rm d t)) N')|]. reflexivity.
Qed.

(** ** flattened outputs *)
Lemma flat_nth : forall A B (g : A -> list B) l p a n, nth_error l p = Some a -> (n < length (g a))%nat ->
  nth_error (flat_map g l) (fold_right Nat.add 0 (map (fun a => length (g a)) (firstn p l)) + n)%nat = nth_error (g a) n.
Proof.
  induction l as [|b l IH]; intros p a n H Hn; destruct p; simpl in H; try discriminate.
  - injection H as ->. simpl. now rewrite nth_error_app1 by lia.
  - cbn [firstn map fold_right flat_map]. rewrite nth_error_app2 by lia.
    replace (length (g b) + fold_right Nat.add 0 (map (fun a0 => length (g a0)) (firstn p l)) + n - length (g b))%nat
      with (fold_right Nat.add 0 (map (fun a0 => length (g a0)) (firstn p l)) + n)%nat by lia. eauto.
Qed.
Lemma out_offset : forall D S (nbrs : list (list nat)) (out : list (D * list S)), length out = length nbrs ->
  (forall p js, nth_error nbrs p = Some js -> exists o, nth_error out p = Some o /\ length (snd o) = length js) ->
  forall p, fold_right Nat.add 0%nat (map (fun o => length (snd o)) (firstn p out)) = offset nbrs p.
Proof.
  intros D S. induction nbrs as [|js nbrs IH]; intros [|o out] L H p; try discriminate.
  - destruct p; reflexivity.
  - destruct p; [reflexivity|]. cbn [firstn map fold_right]. unfold offset, num_bonds. cbn [firstn map fold_right].
    destruct (H 0%nat js eq_refl) as (o' & E & Lo). injection E as <-. rewrite Lo. f_equal. apply IH; [now injection L|].
    intros q js' Hq. exact (H (Datatypes.S q) js' Hq).
Qed.
Lemma new_edp_nth : forall (nbrs : list (list nat)) (out : list (@plastic_pre RN * list (T RN * T RN))) p js d ss n, length out = length nbrs ->
  (forall p js, nth_error nbrs p = Some js -> exists o, nth_error out p = Some o /\ length (snd o) = length js) ->
  nth_error nbrs p = Some js -> nth_error out p = Some (d, ss) -> (n < length js)%nat ->
  nth_error (new_edp (N:=RN) out) (offset nbrs p + n) = nth_error (map fst ss) n.
Proof.
  intros nbrs out p js d ss n L H Hp Ho Hn. destruct (H p js Hp) as (o & E & Lo). rewrite Ho in E. injection E as <-. simpl in Lo.
  unfold new_edp. rewrite <- (out_offset _ _ nbrs out L H p).
  pose proof (flat_nth _ _ (fun o : @plastic_pre RN * list (T RN * T RN) => map fst (snd o)) out p (d, ss) n Ho) as F.
  cbn beta in F. cbn [snd] in F. rewrite map_length in F. specialize (F (eq_ind_r (fun z => (n < z)%nat) Hn Lo)).
  etransitivity; [|exact F]. f_equal. f_equal. f_equal. apply map_ext. intros a. now rewrite map_length.
Qed.
Lemma new_edp_len : forall (nbrs : list (list nat)) (out : list (@plastic_pre RN * list (T RN * T RN))), length out = length nbrs ->
  (forall p js, nth_error nbrs p = Some js -> exists o, nth_error out p = Some o /\ length (snd o) = length js) ->
  length (new_edp (N:=RN) out) = num_bonds nbrs.
Proof.
  induction nbrs as [|js nbrs IH]; intros [|o out] L H; try discriminate; [reflexivity|].
  destruct (H 0%nat js eq_refl) as (o' & E & Lo). injection E as <-.
  unfold new_edp. cbn [flat_map]. rewrite app_length, map_length, Lo. unfold num_bonds. cbn [map fold_right]. f_equal.
  apply IH; [now injection L|]. intros q js' Hq. exact (H (S q) js' Hq).
Qed.

(** every bond number belongs to a point *)
Lemma bond_split : forall nbrs k, (k < num_bonds nbrs)%nat -> exists p js n, nth_error nbrs p = Some js /\ (n < length js)%nat /\ k = (offset nbrs p + n)%nat.
Proof.
  induction nbrs as [|js nbrs IH]; intros k H; [unfold num_bonds in H; simpl in H; lia|].
  destruct (Nat.lt_ge_cases k (length js)).
  - exists 0%nat, js, k. auto.
  - unfold num_bonds in H. cbn [map fold_right] in H. destruct (IH (k - length js)%nat) as (p & js' & n & A & B & C); [unfold num_bonds; lia|].
    exists (S p), js', n. split; auto. split; auto. unfold offset, num_bonds in *. cbn [firstn map fold_right]. lia.
Qed.

(** ** perfect plasticity *)
Lemma yield_value_R : forall sigma h, 0 < h -> yield_value (N:=RN) sigma h None = yield_of sigma h.
Proof. intros. unfold yield_value, yield_of. to_R. pose proof PI_RGT_0. field. split; lra. Qed.
Lemma yield_value_planar_R : forall sigma h th, 0 < h -> 0 < th -> yield_value (N:=RN) sigma h (Some th) = yield_of_planar sigma h th.
Proof. intros. unfold yield_value, yield_of_planar. to_R. pose proof PI_RGT_0. field. repeat split; lra. Qed.
Lemma yield_of_pos : forall sigma h, 0 < h -> sigma <> 0 -> 0 < yield_of sigma h.
Proof.
  intros. unfold yield_of. pose proof PI_RGT_0. apply Rmult_lt_0_compat; [assert (0 < Rsqr sigma) by (now apply Rlt_0_sqr); unfold Rsqr in *; lra|].
  apply Rinv_0_lt_compat. apply Rmult_lt_0_compat; [lra|now apply pow_lt].
Qed.


Lemma outs_ok : forall D S (Kn : kernel RN D S) nbrs f f' out, run_kernel Kn nbrs f = Ok (f', out) ->
  length out = length nbrs /\ forall p js, nth_error nbrs p = Some js -> exists o, nth_error out p = Some o /\ length (snd o) = length js.
Proof.
  intros D S Kn nbrs f f' out H. apply run_out in H as [L H]. split; auto. intros p js Hp.
  destruct (H p js Hp) as (d & ss & A & B & C & _). exists (d, ss). auto.
Qed.

(** ** one point, for any return mapping that scales the trial state *)
Section Point.
  Variables (rm : @plastic_pre RN -> R -> R) (K : R) (nbrs : list (list nat)) (x y : list vec) (v dmg edp : list R).
  Variables (P : nat -> nat -> list nat -> outcome (@plastic_pre RN)).
  Let Kn : kernel RN (@plastic_pre RN) (R * R) := Kernel (N:=RN) _ _ P (plastic_bond (N:=RN) rm K x y dmg edp) (cell_volumes (N:=RN) v).
  (** what the point data must satisfy *)
  Definition good_pre (H psi la : R) (p k : nat) (js : list nat) (d : @plastic_pre RN) : Prop :=
    at_ub x p = Ok (pp_X d) /\ at_ub y p = Ok (pp_Y d) /\
    exists ts, trial_state x y edp (pp_alpha d) (pp_theta d) p k js ts /\
      (pp_elastic d = true -> sq_norm v dmg k js ts / 2 <= psi + H * la /\ pp_lambda d = la) /\
      (pp_elastic d = false -> psi + H * la < sq_norm v dmg k js ts / 2 /\ la < pp_lambda d /\
         exists c, 0 <= c < 1 /\ (forall t, rm d t = c * t) /\ c * (1 + pp_alpha d * pp_dlambda d) = 1 /\
           c * c * sq_norm v dmg k js ts / 2 = psi + H * pp_lambda d).

  Lemma good_point : forall H psi la f f' out p js, run_kernel Kn nbrs f = Ok (f', out) -> nth_error nbrs p = Some js ->
    (forall d, P p (offset nbrs p) js = Ok d -> good_pre H psi la p (offset nbrs p) js d) ->
    exists trial (d : @plastic_pre RN) ss la', trial_state x y edp (pp_alpha d) (pp_theta d) p (offset nbrs p) js trial /\
      P p (offset nbrs p) js = Ok d /\
      nth_error out p = Some (d, ss) /\ nth_error (new_lambda out) p = Some la' /\
      yield_outcome H v dmg edp (offset nbrs p) js psi la trial (map snd ss) (new_edp (N:=RN) out) la'.
  Proof.
    intros H psi la f f' out p js Hrun Hp HP.
    destruct (outs_ok _ _ _ _ _ _ _ Hrun) as [Lo Ho]. apply run_out in Hrun as [_ HO].
    destruct (HO p js Hp) as (d & ss & Hout & Hpre & Lss & Hbond). 
    cbn [Kn pre bond] in Hpre, Hbond. destruct (HP d Hpre) as (EX & EY & ts & HT & G1 & G2).
    exists ts, d, ss, (pp_lambda d).
    split; [exact HT|]. split; [exact Hpre|]. split; [exact Hout|]. split; [unfold new_lambda; rewrite nth_error_map, Hout; reflexivity|].
    assert (Nedp : forall i, (i < length js)%nat -> nth_error (new_edp (N:=RN) out) (offset nbrs p + i) = nth_error (map fst ss) i).
    { intros i Hi. eapply new_edp_nth; eauto. }
    pose proof (states_map _ _ _ _ _ _ _ _ _ _ _ _ EX EY HT Lss Hbond) as SM.
    pose proof (plastic_states _ _ _ _ _ _ _ _ _ _ _ _ EX EY HT Lss Hbond) as PS.
    destruct (pp_elastic d) eqn:EE.
    - clear G2. destruct (G1 eq_refl) as [N1 N2]. rewrite map_id in SM.
      assert (SM' : map snd ss = ts) by exact SM.
      split; [rewrite map_length; exact Lss|]. rewrite SM', N2. split; [lra|]. split; [|intros; lra].
      intros _. split; [reflexivity|]. split; [reflexivity|]. intros i Hi. etransitivity; [exact (Nedp i Hi)|].
      destruct (nth_error ts i) as [t|] eqn:Et; [|apply nth_error_None in Et; destruct HT as [L _]; lia].
      destruct (PS i t Et) as (ep & P1 & P2). rewrite nth_error_map.
      etransitivity; [exact (f_equal (option_map fst) P2)|]. symmetry. exact P1.
    - clear G1. destruct (G2 eq_refl) as (N1 & N2 & c & C1 & C2 & C3 & C4).
      assert (SC : map snd ss = map (Rmult c) ts).
      { etransitivity; [exact SM|]. apply map_ext. exact C2. }
      assert (NE : sq_norm v dmg (offset nbrs p) js (map snd ss) / 2 = psi + H * pp_lambda d).
      { rewrite SC, sq_norm_scale. exact C4. }
      split; [rewrite map_length; exact Lss|]. split; [lra|]. split; [intros; lra|]. intros _.
      split; [exact NE|]. split; [exact N2|]. exists c. auto.
  Qed.

  (** the old state the next step starts from *)
  Definition bond_of (d : @plastic_pre RN) (p k j : nat) := plastic_bond (N:=RN) rm K x y dmg edp d p k j.
  Lemma new_trial : forall H psi la p k j d fb ep' td, good_pre H psi la p (offset nbrs p) (nth p nbrs []) d ->
    bond_of d p k j = Ok (fb, (ep', td)) -> @pp_alpha RN d * (ed_of (N:=RN) (pp_theta d) (pp_X d) (nth j x vzero) (pp_Y d) (nth j y vzero) - ep') = td.
  Proof.
    intros H psi la p k j d fb ep' td (EX & EY & ts & HT & G1 & G2) Hb. unfold bond_of, plastic_bond in Hb. split_bind Hb.
    apply Ok_pair in Hb as [_ Hb]. rewrite (nth_at_ub _ _ _ _ vzero E), (nth_at_ub _ _ _ _ vzero E0).
    pose proof (f_equal fst Hb) as H1. pose proof (f_equal snd Hb) as H2. cbn [fst snd] in H1, H2. clear Hb.
    destruct (pp_elastic d) eqn:EE.
    - subst ep' td. to_R. ring.
    - destruct (G2 eq_refl) as (_ & _ & c & _ & C2 & C3 & _). rewrite C2 in H1, H2. subst ep' td. to_R.
      set (z := ed_of (N:=RN) _ _ _ _ _ - a2) in *.
      replace (pp_alpha d * (ed_of (N:=RN) (pp_theta d) (pp_X d) a (pp_Y d) a0 - (a2 + c * (pp_alpha d * 1 * z) * pp_dlambda d)))
        with (pp_alpha d * z * (1 - c * pp_alpha d * pp_dlambda d)) by (unfold z; ring).
      replace (1 - c * pp_alpha d * pp_dlambda d) with c by lra. ring.
  Qed.
End Point.

(** the two kernels' point data *)
Lemma sq_nn : forall v dmg k js ts, Forall (Rle 0) v -> sqrt (sq_norm v dmg k js ts) * sqrt (sq_norm v dmg k js ts) = sq_norm v dmg k js ts.
Proof. intros. apply sqrt_sqrt. now apply sq_norm_nonneg. Qed.

Lemma ep_good : forall K MU psi x y v m theta dmg edp lam p k js d mp th la,
  Forall (Rle 0) v -> 0 < psi -> at_ub m p = Ok mp -> at_ub theta p = Ok th -> at_ub lam p = Ok la -> (js <> [] -> 0 < 15 * MU / mp) ->
  ep_pre (N:=RN) K MU psi x y v m theta dmg edp lam p k js = Ok d ->
  good_pre (ep_return (N:=RN)) x y v dmg edp 0 psi la p k js d /\ pp_alpha d = 15 * MU / mp /\ pp_theta d = th /\ pp_m d = mp.
Proof.
  intros K MU psi x y v m theta dmg edp lam p k js d mp th la Hv Hpsi Hm Hth Hla Hal Hpre.
  destruct (ep_pre_fields _ _ _ _ _ _ _ _ _ _ _ _ _ _ _ Hpre) as (EX & EY & _).
  unfold ep_pre in Hpre. split_bind Hpre. cbn [bind] in Hpre.
  assert (a1 = mp) by (pose proof (eq_trans (eq_sym E1) Hm) as W; now injection W).
  assert (a2 = th) by (pose proof (eq_trans (eq_sym E2) Hth) as W; now injection W).
  assert (a3 = la) by (pose proof (eq_trans (eq_sym E3) Hla) as W; now injection W). subst a1 a2 a3. clear E1 E2 E3.
  destruct (norm_trial _ _ _ _ _ _ _ p _ _ E E0 _ _ _ _ E4) as (ts & HT & En).
  to_R. replace (0 + sq_norm v dmg k js ts) with (sq_norm v dmg k js ts) in En by ring.
  assert (Hn0 : 0 <= a4) by (rewrite En; now apply sq_norm_nonneg).
  assert (Hsq : sqrt a4 * sqrt a4 = a4) by now apply sqrt_sqrt.
  rewrite Hsq in Hpre.
  assert (G : good_pre (ep_return (N:=RN)) x y v dmg edp 0 psi la p k js d /\ pp_alpha d = 15 * MU / mp /\ pp_theta d = th /\ pp_m d = mp); [|exact G].
  unfold good_pre. 
  destruct (Rltb 0 (a4 / 2 - psi)) eqn:EB.
  - apply Rltb_true in EB. assert (Hjs : js <> []) by (intros C; subst js; cbn [sq_norm] in En; lra). specialize (Hal Hjs).
    injection Hpre as <-. cbn [pp_X pp_Y pp_alpha pp_theta pp_elastic pp_lambda pp_dlambda pp_m] in *.
    split; [|auto]. split; [exact EX|]. split; [exact EY|]. exists ts. split; [exact HT|]. split; [discriminate|]. intros _.
    assert (Hs2 : 0 < sqrt (2 * psi)) by (apply sqrt_lt_R0; lra).
    assert (Hss2 : sqrt (2 * psi) * sqrt (2 * psi) = 2 * psi) by (apply sqrt_sqrt; lra).
    assert (Hgt : sqrt (2 * psi) < sqrt a4) by (apply sqrt_lt_1; lra).
    split; [rewrite <- En; lra|]. split.
    + assert (0 < (sqrt a4 / sqrt (2 * psi) - 1) / (15 * MU / mp)); [|lra].
      apply Rmult_lt_0_compat; [|now apply Rinv_0_lt_compat].
      assert (1 < sqrt a4 / sqrt (2 * psi)); [|lra]. apply Rmult_lt_reg_r with (sqrt (2 * psi)); auto.
      unfold Rdiv. rewrite Rmult_assoc, Rinv_l by lra. lra.
    + exists (sqrt (2 * psi) / sqrt a4). split; [split|split; [|split]].
      * apply Rmult_le_pos; [lra|left; apply Rinv_0_lt_compat; lra].
      * apply Rmult_lt_reg_r with (sqrt a4); [lra|]. unfold Rdiv. rewrite Rmult_assoc, Rinv_l by lra. lra.
      * intros t. unfold ep_return. cbn [pp_yield pp_norm]. to_R. unfold Rdiv. ring.
      * revert Hal. generalize (15 * MU / mp). intros al Hal.
        field. repeat split; lra.
      * rewrite <- En. replace (sqrt (2 * psi) / sqrt a4 * (sqrt (2 * psi) / sqrt a4) * a4) with ((sqrt (2 * psi) * sqrt (2 * psi)) * (a4 / (sqrt a4 * sqrt a4))) by (field; lra).
        rewrite Hss2, Hsq. rewrite Rmult_0_l. field. lra.
  - apply Rltb_false in EB. injection Hpre as <-. cbn [pp_X pp_Y pp_alpha pp_theta pp_elastic pp_lambda pp_dlambda pp_m] in *.
    split; [|auto]. split; [exact EX|]. split; [exact EY|]. exists ts. split; [exact HT|]. split; [|discriminate]. intros _.
    rewrite <- En. split; lra.
Qed.

Lemma hard_good : forall dmax K MU Hm yv x y v m theta dmg scf edp lam p k js d mp th la s,
  Forall (Rle 0) v -> 0 < yv -> 0 < Hm -> 0 < dmax -> at_ub m p = Ok mp -> at_ub theta p = Ok th -> at_ub lam p = Ok la -> at_ub scf p = Ok s ->
  0 <= la -> (js <> [] -> 0 < s * 15 * MU / mp) ->
  (forall ts, trial_state x y edp (s * 15 * MU / mp) th p k js ts -> sq_norm v dmg k js ts / (2 * Hm) < dmax) ->
  hard_pre (N:=RN) (update_R dmax) K MU Hm yv x y v m theta dmg scf edp lam p k js = Ok d ->
  good_pre (hard_return (N:=RN)) x y v dmg edp Hm (s * s * yv) la p k js d /\ pp_alpha d = s * 15 * MU / mp /\ pp_theta d = th /\ pp_m d = mp.
Proof.
  intros dmax K MU Hm yv x y v m theta dmg scf edp lam p k js d mp th la s Hv Hyv HHm Hd Hm0 Hth Hla Hs Hla0 Hal Hbig Hpre.
  destruct (hard_pre_fields _ _ _ _ _ _ _ _ _ _ _ _ _ _ _ _ _ _ Hpre) as (EX & EY & _).
  unfold hard_pre in Hpre. split_bind Hpre. cbn [bind] in Hpre.
  assert (a1 = mp) by (pose proof (eq_trans (eq_sym E1) Hm0) as W; now injection W).
  assert (a2 = th) by (pose proof (eq_trans (eq_sym E2) Hth) as W; now injection W).
  assert (a3 = la) by (pose proof (eq_trans (eq_sym E3) Hla) as W; now injection W).
  assert (a4 = s) by (pose proof (eq_trans (eq_sym E4) Hs) as W; now injection W). subst a1 a2 a3 a4. clear E1 E2 E3 E4.
  match goal with E : td_norm2 _ _ _ _ _ _ _ _ _ _ _ _ = Ok ?r |- _ => rename E into En0; rename r into n2 end.
  destruct (norm_trial _ _ _ _ _ _ _ p _ _ E E0 _ _ _ _ En0) as (ts & HT & En).
  to_R. replace (0 + sq_norm v dmg k js ts) with (sq_norm v dmg k js ts) in En by ring.
  specialize (Hbig ts HT). rewrite <- En in Hbig.
  assert (Hn0 : 0 <= n2) by (rewrite En; now apply sq_norm_nonneg).
  assert (Hsq : sqrt n2 * sqrt n2 = n2) by now apply sqrt_sqrt.
  rewrite Hsq in Hpre. cbv zeta in Hpre.
  assert (Hs0 : js <> [] -> s <> 0) by (intros Hj C; specialize (Hal Hj); subst s; unfold Rdiv in Hal; rewrite !Rmult_0_l in Hal; lra).
  set (psi := s * s * yv) in *.
  assert (Hpsi0 : 0 <= psi). { unfold psi. apply Rmult_le_pos; [apply Rle_0_sqr|lra]. }
  assert (Hpsi : js <> [] -> 0 < psi). { intros Hj. unfold psi. apply Rmult_lt_0_compat; auto. apply Rlt_0_sqr. auto. }
  assert (Hjs : 0 < n2 -> js <> []) by (intros Hp C; rewrite En, C in Hp; cbn [sq_norm] in Hp; lra).
  revert Hal HT Hpre. generalize (s * 15 * MU / mp). intros al Hal HT Hpre.
  assert (U : 0 < n2 -> let x0 := update_R dmax (sqrt n2) la psi al Hm in
     (psi + Hm * la < n2 / 2 /\ 0 < x0 /\ n2 / (2 * ((1 + al * x0) * (1 + al * x0))) = psi + Hm * (la + x0)) \/
     (n2 / 2 <= psi + Hm * la /\ x0 = 0)).
  { intros Hp. pose proof (update_cases dmax (sqrt n2) la psi al Hm (Hal (Hjs Hp)) HHm Hla0 Hpsi0 (sqrt_lt_R0 _ Hp) Hd) as U.
    cbv zeta in U. rewrite Hsq in U. exact (U Hbig). }
  unfold good_pre.
  match type of Hpre with context [Rltb ?e 0] => set (dl0 := e) in Hpre end.
  assert (DL : (psi + Hm * la < n2 / 2 /\ 0 < dl0 /\ n2 / (2 * ((1 + al * dl0) * (1 + al * dl0))) = psi + Hm * (la + dl0)) \/ (n2 / 2 <= psi + Hm * la /\ dl0 = 0)).
  { unfold dl0. destruct (Rltb 0 (n2 / 2 - psi)) eqn:EB; [apply Rltb_true in EB|apply Rltb_false in EB].
    - apply U. lra.
    - right. split; auto. assert (0 <= Hm * la) by (apply Rmult_le_pos; lra). lra. }
  clearbody dl0. clear U.
  assert (EB0 : Rltb dl0 0 = false) by (apply Rltb_false; destruct DL as [[_ [? _]]|[_ ?]]; lra).
  rewrite EB0 in Hpre.
  destruct DL as [(D1 & D2 & D3)|(D1 & D2)].
  - assert (EB : Rltb 0 dl0 = true) by (now apply Rltb_true). rewrite EB in Hpre. injection Hpre as <-.
    cbn [pp_X pp_Y pp_alpha pp_theta pp_elastic pp_lambda pp_dlambda pp_m] in *.
    split; [|auto]. split; [exact EX|]. split; [exact EY|]. exists ts. split; [exact HT|]. split; [discriminate|]. intros _.
    rewrite <- En. split; [exact D1|]. split; [lra|].
    assert (P1 : 0 < al * dl0).
    { apply Rmult_lt_0_compat; [|lra]. apply Hal, Hjs. assert (0 <= Hm * la) by (apply Rmult_le_pos; lra). lra. }
    exists (/ (1 + al * dl0)). split; [split|split; [|split]].
    + left. apply Rinv_0_lt_compat. lra.
    + rewrite <- Rinv_1. apply Rinv_lt_contravar; lra.
    + intros t. unfold hard_return. cbn [pp_alpha pp_dlambda]. to_R. unfold Rdiv. ring.
    + apply Rinv_l. lra.
    + rewrite <- D3. field. lra.
  - subst dl0. assert (EB : Rltb 0 0 = false) by (apply Rltb_false; lra). rewrite EB in Hpre. injection Hpre as <-.
    cbn [pp_X pp_Y pp_alpha pp_theta pp_elastic pp_lambda pp_dlambda pp_m] in *.
    split; [|auto]. split; [exact EX|]. split; [exact EY|]. exists ts. split; [exact HT|]. split; [|discriminate]. intros _.
    rewrite <- En. split; [exact D1|reflexivity].
Qed.

(** ** evaluating again from the state an evaluation left behind *)
Section Again.
  Variables (rm : @plastic_pre RN -> R -> R) (K : R) (nbrs : list (list nat)) (n : nat) (x y : list vec) (v dmg : list R).
  Variables (P : list R -> list R -> nat -> nat -> list nat -> outcome (@plastic_pre RN)).
  Let Kn edp lam : kernel RN (@plastic_pre RN) (R * R) := Kernel (N:=RN) _ _ (P edp lam) (plastic_bond (N:=RN) rm K x y dmg edp) (cell_volumes (N:=RN) v).
  Variables (H : R) (psi al th mm : nat -> R) (edp lam : list R).
  Hypothesis Hv : Forall (Rle 0) v.
  Hypothesis Hlam : length lam = length nbrs.
  Hypothesis good1 : forall p js d la, nth_error nbrs p = Some js -> nth_error lam p = Some la -> P edp lam p (offset nbrs p) js = Ok d ->
    good_pre rm x y v dmg edp H (psi p) la p (offset nbrs p) js d /\ pp_alpha d = al p /\ pp_theta d = th p /\ pp_m d = mm p.
  Hypothesis good2 : forall p js d la edp' lam', nth_error nbrs p = Some js -> nth_error lam' p = Some la -> all_le lam lam' ->
    (forall ts ts', trial_state x y edp (al p) (th p) p (offset nbrs p) js ts -> trial_state x y edp' (al p) (th p) p (offset nbrs p) js ts' ->
       sq_norm v dmg (offset nbrs p) js ts' <= sq_norm v dmg (offset nbrs p) js ts) ->
    P edp' lam' p (offset nbrs p) js = Ok d ->
    good_pre rm x y v dmg edp' H (psi p) la p (offset nbrs p) js d /\ pp_alpha d = al p /\ pp_theta d = th p /\ pp_m d = mm p.
  Hypothesis tot : forall edp' lam', length edp' = num_bonds nbrs -> length lam' = length nbrs -> total_on (Kn edp' lam') nbrs n.
  Variables (f f' : list vec) (out : list (@plastic_pre RN * list (R * R))).
  Hypothesis Hrun : run_kernel (Kn edp lam) nbrs f = Ok (f', out).
  Let edp' : list R := new_edp (N:=RN) out.
  Let lam' : list R := new_lambda (N:=RN) out.

  Lemma lens : length edp' = num_bonds nbrs /\ length lam' = length nbrs.
  Proof.
    destruct (outs_ok _ _ _ _ _ _ _ Hrun) as [L HO]. split; [exact (new_edp_len nbrs out L HO)|].
    unfold lam', new_lambda. now rewrite map_length.
  Qed.
  Lemma lam_nth : forall p js, nth_error nbrs p = Some js -> exists la, nth_error lam p = Some la.
  Proof.
    intros p js Hp. destruct (nth_error lam p) eqn:E; eauto. apply nth_error_None in E.
    assert (p < length nbrs)%nat by (apply nth_error_Some; congruence). lia.
  Qed.
  Lemma grow : all_le lam lam'.
  Proof.
    unfold all_le. apply (proj2 (iff_refl _)). destruct lens as [_ L].
    assert (G : forall p a b, nth_error lam p = Some a -> nth_error lam' p = Some b -> a <= b).
    { intros p a b Ha Hb.
      assert (p < length nbrs)%nat by (rewrite <- Hlam; apply nth_error_Some; congruence).
      destruct (nth_error nbrs p) as [js|] eqn:Hp; [|apply nth_error_None in Hp; lia].
      destruct (good_point rm K nbrs x y v dmg edp (P edp lam) H (psi p) a f f' out p js Hrun Hp) as (tr & d & ss & la' & T1 & T2 & T3 & T4 & T5).
      { intros d Hd. exact (proj1 (good1 p js d a Hp Ha Hd)). }
      assert (la' = b) by (pose proof (eq_trans (eq_sym T4) Hb) as W; now injection W). subst la'.
      destruct T5 as (_ & _ & Y1 & Y2). destruct (Rle_lt_dec (sq_norm v dmg (offset nbrs p) js tr / 2) (psi p + H * a)) as [C|C].
      - destruct (Y1 C) as (_ & -> & _). lra. - destruct (Y2 C) as (_ & Q & _). lra. }
    assert (L' : length lam = length lam') by (rewrite Hlam; symmetry; exact L). clear - L' G.
    revert L' G. generalize lam'. intros b. revert b. induction lam as [|u l IH]; intros [|w b] L G; try discriminate; constructor.
    - exact (G 0%nat u w eq_refl eq_refl).
    - apply IH; [now injection L|]. intros p c d Hc Hd. exact (G (S p) c d Hc Hd).
  Qed.

  (** the new trial state is the returned force state *)
  Lemma next_bond : forall p js d ss i j, nth_error nbrs p = Some js -> nth_error out p = Some (d, ss) -> P edp lam p (offset nbrs p) js = Ok d ->
    nth_error js i = Some j -> exists fb ep1 td, plastic_bond (N:=RN) rm K x y dmg edp d p (offset nbrs p + i) j = Ok (fb, (ep1, td)) /\
      nth_error ss i = Some (ep1, td) /\ nth_error edp' (offset nbrs p + i) = Some ep1 /\
      trial_at x y edp' (al p) (th p) p (offset nbrs p + i) j td.
  Proof.
    intros p js d ss i j Hp Hout Hd Hj. destruct (outs_ok _ _ _ _ _ _ _ Hrun) as [L HO].
    pose proof (run_out _ _ _ _ _ Hrun) as [_ HR]. destruct (HR p js Hp) as (d' & ss' & A1 & A2 & A3 & A4).
    rewrite Hout in A1. injection A1 as <- <-. destruct (A4 i j Hj) as (fb & [ep1 td] & B1 & B2). cbn [bond Kn] in B1.
    exists fb, ep1, td. split; [exact B1|]. split; [exact B2|].
    assert (i < length js)%nat by (apply nth_error_Some; congruence).
    assert (Eep : nth_error edp' (offset nbrs p + i) = Some ep1).
    { unfold edp'. etransitivity; [eapply (new_edp_nth nbrs out p js d ss i L HO Hp Hout); auto|]. rewrite nth_error_map.
      etransitivity; [exact (f_equal (option_map fst) B2)|]. reflexivity. }
    split; [exact Eep|].
    destruct (lam_nth p js Hp) as [la Hla]. destruct (good1 p js d la Hp Hla Hd) as (G & Gal & Gth & _).
    pose proof (nth_error_nth nbrs p [] Hp) as Hjs.
    pose proof (new_trial rm K nbrs x y v dmg edp H (psi p) la p (offset nbrs p + i) j d fb ep1 td) as NT. rewrite Hjs in NT.
    specialize (NT G B1). destruct G as (GX & GY & _). apply at_ub_Ok in GX, GY.
    unfold plastic_bond in B1. split_bind B1. apply at_ub_Ok in E, E0.
    exists (pp_X d), a, (pp_Y d), a0, ep1. repeat (split; [assumption|]).
    rewrite <- NT, (nth_error_nth x j _ E), (nth_error_nth y j _ E0), ed_dist, Gal, Gth. reflexivity.
  Qed.
  Lemma next_trial : forall p js d ss ts, nth_error nbrs p = Some js -> nth_error out p = Some (d, ss) -> P edp lam p (offset nbrs p) js = Ok d ->
    trial_state x y edp' (al p) (th p) p (offset nbrs p) js ts -> ts = map snd ss.
  Proof.
    intros p js d ss ts Hp Hout Hd [Lt HT]. destruct (outs_ok _ _ _ _ _ _ _ Hrun) as [L HO].
    destruct (HO p js Hp) as (o & O1 & O2). rewrite Hout in O1. injection O1 as <-. cbn [snd] in O2.
    apply nth_ext_err. intros i. rewrite nth_error_map. destruct (nth_error js i) as [j|] eqn:Ej.
    - destruct (next_bond p js d ss i j Hp Hout Hd Ej) as (fb & ep1 & td & B1 & B2 & B3 & B4).
      assert (i < length ts)%nat by (rewrite Lt; apply nth_error_Some; congruence).
      destruct (nth_error ts i) as [t|] eqn:Et; [|apply nth_error_None in Et; lia].
      rewrite B2. cbn [option_map snd]. f_equal. eapply trial_unique; eauto.
    - apply nth_error_None in Ej. assert (E1 : nth_error ts i = None) by (apply nth_error_None; lia).
      assert (E2 : nth_error ss i = None) by (apply nth_error_None; lia). now rewrite E1, E2.
  Qed.

  Lemma again_pre : forall p js d1 d2, nth_error nbrs p = Some js -> P edp lam p (offset nbrs p) js = Ok d1 -> P edp' lam' p (offset nbrs p) js = Ok d2 ->
    pp_X d1 = pp_X d2 /\ pp_Y d1 = pp_Y d2 /\ pp_alpha d1 = pp_alpha d2 /\ pp_theta d1 = pp_theta d2 /\ pp_m d1 = pp_m d2 /\
    pp_elastic d2 = true /\ pp_lambda d2 = pp_lambda d1.
  Proof.
    intros p js d1 d2 Hp H1 H2. destruct (lam_nth p js Hp) as [la Hla].
    destruct (good1 p js d1 la Hp Hla H1) as (G1 & A1 & A2 & A3).
    destruct (good_point rm K nbrs x y v dmg edp (P edp lam) H (psi p) la f f' out p js Hrun Hp) as (tr & d & ss & la' & T1 & T2 & T3 & T4 & T5).
    { intros d Hd. exact (proj1 (good1 p js d la Hp Hla Hd)). }
    rewrite H1 in T2. injection T2 as <-.
    assert (ELA : la' = pp_lambda d1). { unfold new_lambda in T4. rewrite nth_error_map, T3 in T4. cbn [option_map fst] in T4. now injection T4. }
    rewrite A1, A2 in T1.
    assert (SQ : sq_norm v dmg (offset nbrs p) js (map snd ss) <= sq_norm v dmg (offset nbrs p) js tr).
    { destruct T5 as (_ & _ & Y1 & Y2). destruct (Rle_lt_dec (sq_norm v dmg (offset nbrs p) js tr / 2) (psi p + H * la)) as [C|C].
      - destruct (Y1 C) as (W & _ & _). rewrite W. lra.
      - destruct (Y2 C) as (_ & _ & c & C1 & W). rewrite W, sq_norm_scale. pose proof (sq_norm_nonneg v dmg js (offset nbrs p) tr Hv). 
        assert (c * c <= 1) by nra. nra. }
    destruct (good2 p js d2 la' edp' lam' Hp T4 grow) as (G2 & B1 & B2 & B3).
    { intros ts ts' HS HS'. rewrite (next_trial p js d1 ss ts' Hp T3 H1 HS').
      assert (W : ts = tr); [|now rewrite W].
      apply nth_ext_err. intros i. destruct HS as [L1 S1], T1 as [L2 S2]. destruct (nth_error js i) as [j|] eqn:Ej.
      - assert (i < length js)%nat by (apply nth_error_Some; congruence).
        destruct (nth_error ts i) eqn:F1; [|apply nth_error_None in F1; lia]. destruct (nth_error tr i) eqn:F2; [|apply nth_error_None in F2; lia].
        f_equal. eapply trial_unique; eauto.
      - apply nth_error_None in Ej. assert (F1 : nth_error ts i = None) by (apply nth_error_None; lia). rewrite F1. symmetry. apply nth_error_None. lia. }
    { exact H2. }
    destruct G1 as (GX & GY & _). destruct G2 as (GX' & GY' & ts' & HT' & E1 & E2).
    rewrite GX in GX'. rewrite GY in GY'. injection GX' as GX'. injection GY' as GY'.
    rewrite B1, B2 in HT'. pose proof (next_trial p js d1 ss ts' Hp T3 H1 HT') as W. subst ts'.
    destruct T5 as (_ & T5 & _).
    assert (EL : pp_elastic d2 = true).
    { destruct (pp_elastic d2); auto. exfalso. destruct (E2 eq_refl) as (Q & _). lra. }
    destruct (E1 EL) as [_ EQ]. rewrite A1, A2, A3, B1, B2, B3. repeat (split; [now auto|]). now rewrite EQ.
  Qed.

  Lemma again : length f = n -> exists out2, run_kernel (Kn edp' lam') nbrs f = Ok (f', out2) /\
    new_edp (N:=RN) out2 = edp' /\ new_lambda (N:=RN) out2 = lam'.
  Proof.
    intros Hf. destruct lens as [L1 L2].
    assert (HM : matching (Kn edp lam) (Kn edp' lam') (fun a => a)
       (fun p d1 d2 => exists js, nth_error nbrs p = Some js /\ P edp lam p (offset nbrs p) js = Ok d1 /\ P edp' lam' p (offset nbrs p) js = Ok d2)
       (fun _ s1 s2 => s1 = s2) nbrs).
    { split; [|split].
      - intros p js d1 Hp Hd. cbn [pre Kn] in Hd. destruct (proj1 (tot edp' lam' L1 L2) p js Hp) as [d2 Hd2]. cbn [pre Kn] in Hd2.
        exists d2. split; [exact Hd2|]. eauto.
      - intros p k j d1 d2 fb s (js0 & i & Hp0 & Hi & ->) (js & Hp & H1 & H2) Hb. rewrite Hp in Hp0. injection Hp0 as <-. cbn [bond Kn] in *.
        destruct (outs_ok _ _ _ _ _ _ _ Hrun) as [_ HO]. pose proof (run_out _ _ _ _ _ Hrun) as [_ HR].
        destruct (HR p js Hp) as (d' & ss & A1 & A2 & A3 & A4). cbn [pre Kn] in A2. rewrite H1 in A2. injection A2 as <-.
        destruct (next_bond p js d1 ss i j Hp A1 H1 Hi) as (fb' & ep1 & td & B1 & B2 & B3 & B4).
        rewrite Hb in B1. apply Ok_pair in B1 as [-> <-].
        destruct (again_pre p js d1 d2 Hp H1 H2) as (Q1 & Q2 & Q3 & Q4 & Q5 & Q6 & Q7).
        exists (ep1, td). split; [|reflexivity].
        destruct (lam_nth p js Hp) as [la Hla]. destruct (good1 p js d1 la Hp Hla H1) as (G & Gal & Gth & _). destruct G as (GX & GY & _).
        destruct B4 as (X & XP & Y & YP & ep & C1 & C2 & C3 & C4 & C5 & C6).
        unfold plastic_bond in Hb |- *. split_bind Hb. apply Ok_pair in Hb as [Hfb Htd].
        rewrite E, E0. cbn [bind]. rewrite E1. cbn [bind]. 
        match goal with |- bind _ ?g = _ => etransitivity; [exact (f_equal (fun z => bind z g) (at_Ok _ _ _ _ B3))|] end. cbn [bind].
        rewrite Q6, <- Q1, <- Q2, <- Q3, <- Q4, <- Q5.
        apply at_ub_Ok in E, E0, GX, GY.
        assert (X = pp_X d1) by congruence. assert (Y = pp_Y d1) by congruence. assert (XP = a) by congruence. assert (YP = a0) by congruence.
        assert (ep = ep1) by congruence. subst X Y XP YP ep.
        assert (TD : (pp_alpha d1 * 1 * (ed_of (N:=RN) (pp_theta d1) (pp_X d1) a (pp_Y d1) a0 - ep1))%num = td).
        { rewrite C6, ed_dist, Gal, Gth. to_R. ring. }
        cbv iota. match goal with |- Ok (_, (_, ?w)) = _ => replace w with td by (symmetry; exact TD) end. rewrite Hfb.
        pose proof (f_equal snd Htd) as Htd2. cbn [snd] in Htd2. rewrite <- Htd2. reflexivity.
      - intros p k j r _ Hr. exact Hr. }
    assert (LL : linear (N:=RN) (fun a => a)) by (split; [|split]; auto).
    destruct (run_sim (Kn edp lam) (Kn edp' lam') (fun a => a) _ _ LL nbrs HM f f' out Hrun) as (out2 & R1 & R2).
    rewrite !map_id in R1. exists out2. split; [exact R1|]. split.
    - unfold edp'. symmetry. apply edp_states. eapply same_out_states; [|exact R2]. auto.
    - unfold lam', new_lambda. symmetry.
      refine (same_out_pre _ _ _ (@pp_lambda RN) _ _ _ out out2 0%nat 0%nat R2).
      intros p d1 d2 (js & Hp & H1 & H2). symmetry. apply (again_pre p js d1 d2 Hp H1 H2).
  Qed.
End Again.
