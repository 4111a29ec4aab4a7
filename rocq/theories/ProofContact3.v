(** * Contact between coincident points, in binary64 *)
From Coq Require Import ZArith SpecFloat.
From Verif Require Import Base Num ModelNeigh ModelForce ModelContact SpecContact ProofData ProofForce.
Local Notation fvec := (V3 FN).

Lemma sub_self (x : spec_float) : finite_number x = true -> SFsub fprec femax x x = S754_zero false.
Proof.
  destruct x as [s|s| |s m e]; intros H; try discriminate.
  - destruct s; reflexivity.
  - unfold SFsub. rewrite Z.min_id, Z.sub_diag. reflexivity.
Qed.
Lemma vsub_self (a : fvec) : finite_vector a -> vsub a a = v3 (N:=FN) (S754_zero false) (S754_zero false) (S754_zero false).
Proof. destruct a as [x y z]. intros (A & B & C). unfold vsub. cbn [vx vy vz sub FN] in *. now rewrite !sub_self. Qed.

Definition zero3 : fvec := v3 (N:=FN) (S754_zero false) (S754_zero false) (S754_zero false).
Lemma zero_dot : vdot zero3 zero3 = S754_zero false.
Proof. reflexivity. Qed.
Lemma zero_len : vlen zero3 = S754_zero false.
Proof. reflexivity. Qed.
Lemma mul_zero_div (t : spec_float) : SFdiv fprec femax (SFmul fprec femax t (S754_zero false)) (S754_zero false) = S754_nan.
Proof. destruct t as [[]|[]| |[] m e]; reflexivity. Qed.
Lemma along_zero (t : spec_float) : along (N:=FN) t zero3 (S754_zero false) = nan_vector.
Proof. unfold along, vscale, vdivr, zero3. cbn [vx vy vz mul div FN]. now rewrite !mul_zero_div. Qed.

Lemma nan_add_r (a : fvec) : vadd a nan_vector = nan_vector.
Proof. destruct a as [[] [] []]; reflexivity. Qed.
Lemma nan_add_l (a : fvec) : vadd nan_vector a = nan_vector.
Proof. destruct a as [[] [] []]; reflexivity. Qed.
Lemma nan_sub_r (a : fvec) : vsub a nan_vector = nan_vector.
Proof. destruct a as [[] [] []]; reflexivity. Qed.
Lemma nan_sub_l (a : fvec) : vsub nan_vector a = nan_vector.
Proof. destruct a as [[] [] []]; reflexivity. Qed.

Definition nan_at (i : nat) (f : list fvec) : Prop := nth_error f i = Some nan_vector.

Lemma upd_error_eq A : forall (l : list A) i a l' k, upd l i a = Some l' -> nth_error l' k = if Nat.eqb i k then Some a else nth_error l k.
Proof.
  induction l as [|b l IH]; intros i a l' k U; [discriminate|]. destruct i as [|i]; cbn [upd] in U.
  - injection U as <-. destruct k; reflexivity.
  - destruct (upd l i a) as [m|] eqn:E; [|discriminate]. injection U as <-. destruct k as [|k]; [reflexivity|]. cbn. eauto.
Qed.
Lemma add_at_error (f f' : list fvec) i v k : add_at f i v = Ok f' ->
  exists a, nth_error f i = Some a /\ nth_error f' k = if Nat.eqb i k then Some (vadd a v) else nth_error f k.
Proof.
  intros H. unfold add_at in H. apply bind_Ok in H as [a [H1 H2]]. apply at_ub_Ok in H1. unfold upd_ub in H2.
  destruct (upd f i (vadd a v)) eqn:E; [|discriminate]. injection H2 as <-. exists a. split; [exact H1|]. apply (upd_error_eq _ _ _ _ _ k E).
Qed.
Lemma sub_at_error (f f' : list fvec) i v k : sub_at f i v = Ok f' ->
  exists a, nth_error f i = Some a /\ nth_error f' k = if Nat.eqb i k then Some (vsub a v) else nth_error f k.
Proof.
  intros H. unfold sub_at in H. apply bind_Ok in H as [a [H1 H2]]. apply at_ub_Ok in H1. unfold upd_ub in H2.
  destruct (upd f i (vsub a v)) eqn:E; [|discriminate]. injection H2 as <-. exists a. split; [exact H1|]. apply (upd_error_eq _ _ _ _ _ k E).
Qed.
Lemma add_keeps f f' i v k : add_at f i v = Ok f' -> nan_at k f -> nan_at k f'.
Proof.
  intros H K. destruct (add_at_error _ _ _ _ k H) as (a & A & B). unfold nan_at in *. rewrite B. destruct (Nat.eqb_spec i k) as [->|]; [|exact K].
  rewrite K in A. injection A as <-. now rewrite nan_add_l.
Qed.
Lemma sub_keeps f f' i v k : sub_at f i v = Ok f' -> nan_at k f -> nan_at k f'.
Proof.
  intros H K. destruct (sub_at_error _ _ _ _ k H) as (a & A & B). unfold nan_at in *. rewrite B. destruct (Nat.eqb_spec i k) as [->|]; [|exact K].
  rewrite K in A. injection A as <-. now rewrite nan_sub_l.
Qed.
Lemma add_nan f f' i : add_at f i nan_vector = Ok f' -> nan_at i f'.
Proof. intros H. destruct (add_at_error _ _ _ _ i H) as (a & A & B). unfold nan_at. rewrite B, Nat.eqb_refl. now rewrite nan_add_r. Qed.
Lemma sub_nan f f' i : sub_at f i nan_vector = Ok f' -> nan_at i f'.
Proof. intros H. destruct (sub_at_error _ _ _ _ i H) as (a & A & B). unfold nan_at. rewrite B, Nat.eqb_refl. now rewrite nan_sub_r. Qed.

Section Walk.
  Context (c : contact_model FN) (y vel : list fvec) (vols : list FN).
  Lemma pair_keeps X V vol p j f f' k : contact_pair c y vel vols X V vol p j f = Ok f' -> nan_at k f -> nan_at k f'.
  Proof.
    unfold contact_pair. intros H K. apply bind_Ok in H as [Y [_ H]]. destruct (ltb _ _); [|injection H as <-; exact K].
    apply bind_Ok in H as [nv [_ H]]. destruct (negb _).
    - apply bind_Ok in H as [W [_ H]]. apply bind_Ok in H as [f1 [H1 H]]. eapply add_keeps; [exact H|]. eapply add_keeps; [exact H1|exact K].
    - apply bind_Ok in H as [f1 [H1 H]]. eapply add_keeps; [exact H|]. eapply sub_keeps; [exact H1|exact K].
  Qed.
  Lemma pair_nan X V vol p j f f' : finite_vector X -> nth_error y j = Some X ->
    SFltb (S754_zero false) (SFmul fprec femax (c_radius c) (c_radius c)) = true ->
    contact_pair c y vel vols X V vol p j f = Ok f' -> nan_at p f'.
  Proof.
    unfold contact_pair. intros F E R H. unfold at_ub in H. rewrite E in H. cbn [bind] in H. rewrite (vsub_self X F) in H. fold zero3 in H.
    rewrite zero_dot, zero_len in H. change (ltb (n:=FN)) with SFltb in H. change (mul (n:=FN)) with (SFmul fprec femax) in H. rewrite R in H.
    apply bind_Ok in H as [nv [_ H]]. rewrite !along_zero in H. destruct (negb _).
    - apply bind_Ok in H as [W [_ H]]. apply bind_Ok in H as [f1 [H1 H]]. eapply add_keeps; [exact H|].
      change (vopp nan_vector) with nan_vector in H1. rewrite nan_add_l in H1. eapply add_nan. exact H1.
    - apply bind_Ok in H as [f1 [H1 H]]. eapply add_keeps; [exact H|]. eapply sub_nan. exact H1.
  Qed.
  Lemma neighbors_keep X V vol p k : forall js f f', contact_neighbors c y vel vols X V vol p js f = Ok f' -> nan_at k f -> nan_at k f'.
  Proof.
    unfold contact_neighbors. induction js as [|j js IH]; intros f f' H K; cbn [foldM] in H; [injection H as <-; exact K|].
    apply bind_Ok in H as [f1 [H1 H]]. destruct (Z.ltb j 0); [discriminate|]. eapply IH; [exact H|]. eapply pair_keeps; [exact H1|exact K].
  Qed.
  Lemma neighbors_nan X V vol p j : finite_vector X -> nth_error y j = Some X ->
    SFltb (S754_zero false) (SFmul fprec femax (c_radius c) (c_radius c)) = true ->
    forall js f f', In j js -> contact_neighbors c y vel vols X V vol p (map Z.of_nat js) f = Ok f' -> nan_at p f'.
  Proof.
    intros F E R. induction js as [|i js IH]; intros f f' I H; [contradiction|]. cbn [map] in H. unfold contact_neighbors in H. cbn [foldM] in H.
    apply bind_Ok in H as [f1 [H1 H]]. fold (contact_neighbors c y vel vols X V vol p (map Z.of_nat js) f1) in H. destruct I as [->|I]; [|eauto].
    replace (Z.ltb (Z.of_nat j) 0) with false in H1 by (symmetry; apply Z.ltb_ge; lia). rewrite Nat2Z.id in H1.
    eapply neighbors_keep; [exact H|]. eapply pair_nan; eauto.
  Qed.
  Lemma walk_keeps k : forall owned flat f f', contact_walk c y vel vols owned flat f = Ok f' -> nan_at k f -> nan_at k f'.
  Proof.
    induction owned as [|p owned IH]; intros flat f f' H K; cbn [contact_walk] in H; [injection H as <-; exact K|].
    destruct flat as [|n tl]; [discriminate|]. destruct (Z.ltb 0 n); [|eauto]. destruct (Nat.ltb _ _); [discriminate|].
    apply bind_Ok in H as [X [_ H]]. apply bind_Ok in H as [V [_ H]]. apply bind_Ok in H as [vol [_ H]]. apply bind_Ok in H as [f1 [H1 H]].
    eapply IH; [exact H|]. eapply neighbors_keep; [exact H1|exact K].
  Qed.
  Lemma walk_nan p j X : finite_vector X -> nth_error y p = Some X -> nth_error y j = Some X ->
    SFltb (S754_zero false) (SFmul fprec femax (c_radius c) (c_radius c)) = true ->
    forall nbrs owned f f', length owned = length nbrs -> In (p, j) (bonds_of owned nbrs) ->
    contact_walk c y vel vols owned (contact_list nbrs) f = Ok f' -> nan_at p f'.
  Proof.
    intros F Ep Ej R. induction nbrs as [|js nbrs IH]; intros owned f f' Lo I H; [destruct owned; [contradiction|discriminate]|].
    destruct owned as [|q owned]; [discriminate|]. cbn [length] in Lo. injection Lo as Lo.
    unfold bonds_of in I. cbn [combine flat_map fst snd] in I. fold (bonds_of owned nbrs) in I.
    unfold contact_list in H. cbn [flat_map contact_walk app] in H. fold (contact_list nbrs) in H. destruct js as [|i js].
    { cbn in H, I. eauto. }
    replace (Z.ltb 0 (Z.of_nat (length (i :: js)))) with true in H by (symmetry; apply Z.ltb_lt; cbn [length]; lia).
    rewrite Nat2Z.id, app_length, map_length in H. replace (Nat.ltb _ _) with false in H by (symmetry; apply Nat.ltb_ge; lia).
    apply bind_Ok in H as [Xq [HX H]]. apply bind_Ok in H as [V [_ H]]. apply bind_Ok in H as [vol [_ H]]. apply bind_Ok in H as [f1 [H1 H]].
    replace (firstn (length (i :: js)) (map Z.of_nat (i :: js) ++ contact_list nbrs)) with (map Z.of_nat (i :: js)) in H1.
    2: { rewrite firstn_app, map_length, Nat.sub_diag, firstn_O, app_nil_r. symmetry. apply firstn_all2. now rewrite map_length. }
    replace (skipn (length (i :: js)) (map Z.of_nat (i :: js) ++ contact_list nbrs)) with (contact_list nbrs) in H.
    2: { rewrite skipn_app, map_length, Nat.sub_diag, skipn_O. rewrite skipn_all2 by now rewrite map_length. reflexivity. }
    apply in_app_or in I as [I|I]; [|eauto]. apply in_map_iff in I as (j' & E & I). injection E as -> ->.
    apply at_ub_Ok in HX. rewrite Ep in HX. injection HX as <-. eapply walk_keeps; [exact H|]. eapply neighbors_nan; eauto.
  Qed.
End Walk.
