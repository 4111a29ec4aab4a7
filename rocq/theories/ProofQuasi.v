(** * Proofs for load stepping *)
From Coq Require Import Reals Lra.
From Verif Require Import Base Num ModelScalar ModelQuasi SpecQuasi.
Local Open Scope R_scope.

Lemma acceptable_true (r tol : R) : acceptable (N:=RN) r tol = true <-> (r <= tol \/ r < 100 * tol).
Proof.
  unfold acceptable. change (negb (Rltb tol r) || Rltb r (100 * tol) = true <-> (r <= tol \/ r < 100 * tol)).
  rewrite orb_true_iff, negb_true_iff, Rltb_true, Rltb_false. reflexivity.
Qed.

Lemma increasing_head a b l : increasing (a :: b :: l) <-> a < b /\ increasing (b :: l).
Proof. reflexivity. Qed.
Lemma increasing_tail a l : increasing (a :: l) -> increasing l.
Proof. destruct l; [easy|]. now intros (_ & H). Qed.
Lemma last_cons {A} (b : A) l a : last (b :: l) a = last l b.
Proof. revert a b; induction l as [|c l IH]; intros a b; [reflexivity|]. change (last (b :: c :: l) a) with (last (c :: l) a). now rewrite !IH. Qed.
Lemma increasing_last l : forall a, increasing (a :: l) -> a <= last l a.
Proof.
  induction l as [|b l IH]; intros a H; [cbn; lra|]. destruct H as (H1 & H2). apply IH in H2.
  rewrite last_cons. lra.
Qed.

(** Every element with a successor is below [f]. *)
Fixpoint starts_before (f : R) (l : list R) : Prop :=
  match l with
  | a :: ((b :: _) as r) => a < f /\ starts_before f r
  | _ => True
  end.

(** ** The remaining steps made again with the last size *)
Lemma again_mono (c d f : RN) n m : forall x i l, same_step_again n c d f x i = Some l -> (n <= m)%nat -> same_step_again m c d f x i = Some l.
Proof.
  revert m. induction n as [|n IH]; intros m x i l H L; [discriminate|]. destruct m as [|m]; [lia|]. cbn [same_step_again] in *.
  destruct (ltb x f); [|exact H]. cbv zeta in *.
  destruct (same_step_again n c d f _ (S i)) as [l'|] eqn:E; [|discriminate]. rewrite (IH m _ _ _ E) by lia. exact H.
Qed.
Lemma again_spec (c d f : R) n : 0 < d -> forall (x : R) i l, same_step_again (N:=RN) n c d f x i = Some l -> x = c + INR i * d ->
  increasing (x :: l) /\ f <= last l x /\ starts_before f (x :: l).
Proof.
  intros Hd. induction n as [|n IH]; intros x i l H E; [discriminate|]. cbn [same_step_again] in H.
  destruct (ltb (n:=RN) x f) eqn:B.
  - change (Rltb x f = true) in B. apply Rltb_true in B. cbv zeta in H.
    match type of H with (match ?e with _ => _ end) = _ => destruct e as [l'|] eqn:E'; [|discriminate] end. injection H as <-.
    match type of E' with same_step_again _ _ _ _ ?e _ = _ => set (t := e) in * end.
    assert (Et : t = c + INR (S i) * d :> R) by (unfold t; to_R; rewrite INR_IZR_INZ; reflexivity).
    destruct (IH t (S i) l' E' Et) as (I1 & I2 & I3).
    assert (x < t) by (rewrite Et, E, S_INR; lra).
    split; [split; assumption|]. split; [rewrite last_cons; exact I2|]. split; [exact B|exact I3].
  - injection H as <-. change (Rltb x f = false) in B. apply Rltb_false in B. cbn. repeat split; auto; lra.
Qed.
Lemma again_stops (c d f : R) : 0 < d -> forall i, exists n l, same_step_again (N:=RN) n c d f (c + INR i * d) i = Some l.
Proof.
  intros Hd.
  assert (K : forall k i, f <= c + INR (i + k) * d -> exists n l, same_step_again (N:=RN) n c d f (c + INR i * d) i = Some l).
  { induction k as [|k IH]; intros i H.
    - exists 1%nat, []. cbn [same_step_again]. rewrite Nat.add_0_r in H. destruct (ltb (n:=RN) _ f) eqn:B; [|reflexivity].
      match type of B with ltb ?a ?b = true => change (Rltb a b = true) in B end. apply Rltb_true in B. lra.
    - destruct (IH (S i)) as (n & l & E); [now replace (S i + k)%nat with (i + S k)%nat by lia|].
      destruct (ltb (n:=RN) (c + INR i * d) f) eqn:B.
      + exists (S n), ((c + INR (S i) * d) :: l). cbn [same_step_again]. rewrite B. cbv zeta.
        match goal with |- match same_step_again _ _ _ _ ?e _ with _ => _ end = _ => assert (Q : e = (c + INR (S i) * d : T RN)) by (rewrite INR_IZR_INZ; reflexivity) end.
        rewrite Q, E. reflexivity.
      + exists 1%nat, []. cbn [same_step_again]. now rewrite B. }
  intros i. destruct (archimed ((f - c) / d)) as (A & _).
  set (z := up ((f - c) / d)) in *.
  apply (K (Z.to_nat z) i).
  assert (f - c <= IZR z * d) by (replace (f - c) with ((f - c) / d * d) by (field; lra); apply Rmult_le_compat_r; lra).
  assert (IZR z <= INR (i + Z.to_nat z)).
  { rewrite INR_IZR_INZ. apply IZR_le. lia. }
  assert (IZR z * d <= INR (i + Z.to_nat z) * d) by (apply Rmult_le_compat_r; lra). lra.
Qed.

Lemma covers_app l1 : forall t0 t1 (a : load_step RN), covers t0 l1 t1 -> ls_from a = t1 -> t1 < ls_to a -> covers t0 (l1 ++ [a]) (ls_to a).
Proof.
  induction l1 as [|b l1 IH]; intros t0 t1 a H E L; cbn [covers app] in *.
  - subst. auto.
  - destruct H as (H1 & H2 & H3). repeat split; auto. eapply IH; eauto.
Qed.

Section Loop.
  Variable solve : nat -> RN * RN.
  Variable ad : option adaptive.
  Variable final : R.
  Notation loop := (qs_loop (N:=RN) solve ad final).

  Definition base (s : qstate RN) : R := match ad with Some _ => if q_failed s then q_prev s else q_cur s | None => q_cur s end.

  (** One attempt, as a relation *)
  Definition accept_next (s : qstate RN) (t : R) (todo : list R) : qstate RN :=
    Build_qstate (N:=RN) todo (base s) t false 0 (q_total s) false (S (q_attempt s)) (q_done s ++ [ Build_load_step (N:=RN) (q_attempt s) (base s) t ]).
  Definition halve_next (s : qstate RN) (t : R) (rest : list R) : qstate RN :=
    Build_qstate (N:=RN) (base s + (t - base s) / 2 :: t :: rest) (base s) t true (q_here s + 1)%Z (q_total s + 1)%Z true (S (q_attempt s)) (q_done s).
  Definition next_todo (fuel : nat) (s : qstate RN) (t : R) (rest : list R) : option (list R) :=
    match ad with
    | Some a => if reduce_all a && q_conv s then same_step_again (N:=RN) fuel t (t - base s) final t 0 else Some rest
    | None => Some rest
    end.

  Lemma loop_unfold f s : loop (S f) s =
    match q_todo s with
    | [] => Some (Finished, q_attempt s, q_done s)
    | t :: rest =>
        if acceptable (fst (solve (q_attempt s))) (snd (solve (q_attempt s))) then
          match next_todo (S f) s t rest with None => None | Some todo => loop f (accept_next s t todo) end
        else match ad with
             | None => Some (Aborted, S (q_attempt s), q_done s)
             | Some a => if (max_total a <? q_total s + 1)%Z || (max_in_step a <? q_here s + 1)%Z
                         then Some (if switch_to_explicit a then Switched (N:=RN) (base s) else Aborted, S (q_attempt s), q_done s)
                         else loop f (halve_next s t rest)
             end
    end.
  Proof.
    unfold next_todo, halve_next, accept_next, base. cbn [qs_loop]. destruct (q_todo s) as [|t rest]; [reflexivity|].
    destruct (solve (q_attempt s)) as [r tol]. cbn [fst snd]. reflexivity.
  Qed.

  Lemma loop_mono n : forall m s r, loop n s = Some r -> (n <= m)%nat -> loop m s = Some r.
  Proof.
    induction n as [|n IH]; intros m s r H L; [discriminate|]. destruct m as [|m]; [lia|]. rewrite loop_unfold in *.
    destruct (q_todo s) as [|t rest]; [exact H|]. destruct (acceptable _ _).
    - destruct (next_todo (S n) s t rest) as [todo|] eqn:E; [|discriminate].
      assert (E' : next_todo (S m) s t rest = Some todo).
      { unfold next_todo in *. destruct ad as [a|]; [|exact E]. destruct (reduce_all a && q_conv s); [|exact E]. apply (again_mono _ _ _ (S n)); [exact E|lia]. }
      rewrite E'. apply IH; [exact H|lia].
    - destruct ad as [a|]; [|exact H]. destruct (_ || _)%bool; [exact H|]. apply IH; [exact H|lia].
  Qed.

  (** What every mode keeps. *)
  Definition inv (t0 : R) (s : qstate RN) : Prop :=
    increasing (base s :: q_todo s) /\ covers t0 (q_done s) (base s) /\
    Forall (fun a => solved solve (ls_attempt a)) (q_done s) /\
    (ad = None -> q_failed s = false).

  Lemma next_increasing fuel s t rest todo : next_todo fuel s t rest = Some todo -> increasing (base s :: t :: rest) -> increasing (t :: todo).
  Proof.
    intros H (I1 & I2). unfold next_todo in H. destruct ad as [a|]; [|injection H as <-; exact I2].
    destruct (reduce_all a && q_conv s); [|injection H as <-; exact I2].
    apply (again_spec t (t - base s) final fuel ltac:(lra) t 0 todo H). cbn. ring.
  Qed.
  Lemma inv_accept t0 fuel s t rest todo : inv t0 s -> q_todo s = t :: rest -> acceptable (fst (solve (q_attempt s))) (snd (solve (q_attempt s))) = true ->
    next_todo fuel s t rest = Some todo -> inv t0 (accept_next s t todo) /\ base (accept_next s t todo) = t.
  Proof.
    intros (I1 & I2 & I3 & I4) Et A E. rewrite Et in I1.
    assert (B : base (accept_next s t todo) = t) by (unfold base, accept_next; cbn [q_failed q_cur]; destruct ad; reflexivity).
    split; [|exact B]. unfold inv. rewrite B. cbn [q_todo q_done q_failed accept_next].
    split; [exact (next_increasing fuel s t rest todo E I1)|]. split.
    - apply (covers_app (q_done s) t0 (base s) (Build_load_step (N:=RN) (q_attempt s) (base s) t) I2 eq_refl). exact (proj1 I1).
    - split; [|reflexivity]. apply Forall_app. split; [exact I3|]. constructor; [|constructor]. cbn [ls_attempt]. now apply acceptable_true in A.
  Qed.
  Lemma inv_halve t0 a s t rest : ad = Some a -> inv t0 s -> q_todo s = t :: rest -> inv t0 (halve_next s t rest) /\ base (halve_next s t rest) = base s.
  Proof.
    intros Ea (I1 & I2 & I3 & I4) Et. rewrite Et in I1.
    assert (B : base (halve_next s t rest) = base s) by (unfold base at 1; rewrite Ea; reflexivity).
    split; [|exact B]. unfold inv. rewrite B. cbn [q_todo q_done q_failed halve_next].
    split; [|split; [exact I2|split; [exact I3|now rewrite Ea]]].
    destruct I1 as (L & I1). split; [lra|]. split; [lra|exact I1].
  Qed.

  (** Something that holds at the start and is kept by attempts holds at the end. *)
  Lemma loop_ind t0 (P : qstate RN -> Prop) (Q : ending RN * nat * list (load_step RN) -> Prop) :
    (forall s fuel t rest todo, inv t0 s -> P s -> q_todo s = t :: rest -> acceptable (fst (solve (q_attempt s))) (snd (solve (q_attempt s))) = true ->
       next_todo fuel s t rest = Some todo -> P (accept_next s t todo)) ->
    (forall s t rest a, inv t0 s -> P s -> q_todo s = t :: rest -> acceptable (fst (solve (q_attempt s))) (snd (solve (q_attempt s))) = false -> ad = Some a ->
       (q_total s + 1 <= max_total a)%Z -> (q_here s + 1 <= max_in_step a)%Z -> P (halve_next s t rest)) ->
    (forall s, inv t0 s -> P s -> q_todo s = [] -> Q (Finished, q_attempt s, q_done s)) ->
    (forall s t rest, inv t0 s -> P s -> q_todo s = t :: rest -> acceptable (fst (solve (q_attempt s))) (snd (solve (q_attempt s))) = false -> ad = None -> Q (Aborted, S (q_attempt s), q_done s)) ->
    (forall s t rest a, inv t0 s -> P s -> q_todo s = t :: rest -> acceptable (fst (solve (q_attempt s))) (snd (solve (q_attempt s))) = false -> ad = Some a ->
       (max_total a < q_total s + 1 \/ max_in_step a < q_here s + 1)%Z ->
       Q (if switch_to_explicit a then Switched (N:=RN) (base s) else Aborted, S (q_attempt s), q_done s)) ->
    forall n s r, inv t0 s -> P s -> loop n s = Some r -> Q r.
  Proof.
    intros P1 P2 Q1 Q2 Q3. induction n as [|n IH]; intros s r I Ps H; [discriminate|]. rewrite loop_unfold in H.
    destruct (q_todo s) as [|t rest] eqn:Et; [injection H as <-; now apply Q1|].
    destruct (acceptable _ _) eqn:A.
    - destruct (next_todo (S n) s t rest) as [todo|] eqn:E; [|discriminate].
      apply (IH (accept_next s t todo) r); [exact (proj1 (inv_accept t0 _ s t rest todo I Et A E))|exact (P1 s _ t rest todo I Ps Et A E)|exact H].
    - destruct ad as [a|] eqn:Ea; [|injection H as <-; now apply (Q2 s t rest)].
      destruct ((max_total a <? q_total s + 1)%Z || (max_in_step a <? q_here s + 1)%Z)%bool eqn:B.
      + injection H as <-. apply (Q3 s t rest a); auto. apply orb_true_iff in B. rewrite !Z.ltb_lt in B. exact B.
      + apply orb_false_iff in B. rewrite !Z.ltb_ge in B. destruct B.
        rewrite <- Ea in *. apply (IH (halve_next s t rest) r); [exact (proj1 (inv_halve t0 a s t rest Ea I Et))|now apply (P2 s t rest a)|exact H].
  Qed.

  (** ** Runs stop *)
  Lemma loop_stops t0 : forall k c l s, (k = match ad with Some a => Z.to_nat (max_total a - q_total s) | None => O end)%nat -> c = q_conv s -> length (q_todo s) = l -> inv t0 s ->
    exists n r, loop n s = Some r.
  Proof.
    induction k as [k IHk] using lt_wf_ind.
    assert (Main : forall l s, (k = match ad with Some a => Z.to_nat (max_total a - q_total s) | None => O end)%nat -> (q_conv s = true -> forall s', q_conv s' = false -> q_total s' = q_total s -> inv t0 s' -> exists n r, loop n s' = Some r) ->
      length (q_todo s) = l -> inv t0 s -> exists n r, loop n s = Some r).
    { induction l as [l IHl] using lt_wf_ind. intros s Hk Hc Hl I.
      destruct (q_todo s) as [|t rest] eqn:Et.
      { exists 1%nat. eexists. rewrite loop_unfold, Et. reflexivity. }
      destruct (acceptable (fst (solve (q_attempt s))) (snd (solve (q_attempt s)))) eqn:A.
      - assert (N : exists n todo, next_todo (S n) s t rest = Some todo /\ (q_conv s = false -> todo = rest)).
        { unfold next_todo. destruct ad as [a|]; [|exists O, rest; auto]. destruct (reduce_all a && q_conv s) eqn:R; [|exists O, rest; auto].
          destruct I as (I1 & _). rewrite Et in I1. destruct (again_stops t (t - base s) final ltac:(destruct I1; lra) 0) as (n & todo & E).
          assert (Q : t + INR 0 * (t - base s) = t) by (cbn; ring). rewrite Q in E.
          exists n, todo. split; [apply (again_mono _ _ _ n); [exact E|lia]|]. intros Z. rewrite Z, andb_false_r in R. discriminate. }
        destruct N as (n & todo & E & Ec).
        destruct (inv_accept t0 _ s t rest todo I Et A E) as (I' & _).
        assert (T : exists n r, loop n (accept_next s t todo) = Some r).
        { destruct (q_conv s) eqn:C.
          - apply (Hc eq_refl); [reflexivity|reflexivity|exact I'].
          - apply (IHl (length rest)); [subst l; cbn; lia|exact Hk|discriminate|cbn; now rewrite (Ec eq_refl)|exact I']. }
        destruct T as (n' & r & H). exists (S (n + n')), r. rewrite loop_unfold, Et, A.
        assert (E' : next_todo (S (n + n')) s t rest = Some todo).
        { unfold next_todo in *. destruct ad as [a|]; [|exact E]. destruct (reduce_all a && q_conv s); [|exact E]. apply (again_mono _ _ _ (S n)); [exact E|lia]. }
        rewrite E'. apply (loop_mono n'); [exact H|lia].
      - assert (Da : (exists a, ad = Some a) \/ ad = None) by (destruct ad; eauto). destruct Da as [(a & Ea)|Ea].
        + destruct ((max_total a <? q_total s + 1)%Z || (max_in_step a <? q_here s + 1)%Z)%bool eqn:B.
          * exists 1%nat. eexists. rewrite loop_unfold, Et, A. rewrite Ea at 1. rewrite B. reflexivity.
          * pose proof B as B'. apply orb_false_iff in B'. rewrite !Z.ltb_ge in B'. destruct B' as (B1 & _).
            destruct (inv_halve t0 a s t rest Ea I Et) as (I' & _).
            destruct (IHk (Z.to_nat (max_total a - (q_total s + 1))) ltac:(rewrite Hk, Ea; lia) true (length (q_todo (halve_next s t rest))) (halve_next s t rest)) as (n & r & H); auto.
            { rewrite Ea. reflexivity. }
            exists (S n), r. rewrite loop_unfold, Et, A. rewrite Ea at 1. rewrite B. exact H.
        + exists 1%nat. eexists. rewrite loop_unfold, Et, A. rewrite Ea at 1. reflexivity. }
    intros c l s Hk Ec Hl I. apply (Main l s Hk); auto. intros C s' C' T' I'. apply (Main (length (q_todo s')) s'); auto.
    - destruct ad; [rewrite T'|]; exact Hk.
    - rewrite C'. discriminate.
  Qed.
End Loop.
