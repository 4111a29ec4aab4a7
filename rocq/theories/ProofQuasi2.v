(** * Proofs for load stepping: schedules *)
From Coq Require Import Reals Lra.
From Verif Require Import Base Num ModelScalar ModelQuasi SpecQuasi ProofQuasi.
Local Open Scope R_scope.

Definition dyadic (a b t : R) : Prop := exists m k : nat, (m <= 2 ^ k)%nat /\ t = a + (b - a) * (INR m / 2 ^ k).
Lemma dyadic_left a b : dyadic a b a.
Proof. exists O, O. split; [cbn; lia|]. cbn. field. Qed.
Lemma dyadic_right a b : dyadic a b b.
Proof. exists 1%nat, O. split; [cbn; lia|]. cbn. field. Qed.
Lemma INR_pow2 k : INR (2 ^ k) = 2 ^ k.
Proof. rewrite pow_INR. reflexivity. Qed.
Lemma dyadic_mid a b s t : dyadic a b s -> dyadic a b t -> dyadic a b (s + (t - s) / 2).
Proof.
  intros (m1 & k1 & L1 & ->) (m2 & k2 & L2 & ->). exists (m1 * 2 ^ k2 + m2 * 2 ^ k1)%nat, (S (k1 + k2)). split.
  - rewrite Nat.pow_succ_r', Nat.pow_add_r. nia.
  - rewrite plus_INR, !mult_INR, !INR_pow2. cbn [pow]. rewrite pow_add. field. split; apply pow_nonzero; lra.
Qed.
Lemma subdivides_dyadic steps i a b t : nth_error steps i = Some a -> nth_error steps (S i) = Some b -> dyadic a b t -> subdivides steps t.
Proof. intros H1 H2 (m & k & L & E). exists i, a, b, m, k. auto. Qed.

Lemma skipn_nth {A} (l : list A) i b : nth_error l i = Some b -> skipn i l = b :: skipn (S i) l.
Proof. revert i; induction l as [|c l IH]; intros [|i] H; try discriminate; [injection H as ->; reflexivity|]. cbn [nth_error skipn] in *. rewrite (IH i H). reflexivity. Qed.
Lemma last_nth {A} (l : list A) i b d : nth_error l i = Some b -> skipn (S i) l = [] -> last l d = b.
Proof.
  revert i; induction l as [|c l IH]; intros [|i] H E; try discriminate.
  - injection H as ->. cbn in E. subst. reflexivity.
  - cbn in H. assert (l <> []) by (intros ->; destruct i; discriminate). destruct l; [easy|]. change (last (c :: a :: l) d) with (last (a :: l) d). now apply (IH i).
Qed.

Section Sched.
  Variable solve : nat -> RN * RN.
  Variable ad : option adaptive.
  Variables (t0 : R) (todo0 : list R).
  Notation steps := (t0 :: todo0).
  Notation final := (last todo0 t0).
  Hypothesis mode : forall a, ad = Some a -> reduce_all a = false.

  Definition visited (s : list (load_step RN)) (t : R) : Prop := t = t0 \/ exists a, In a s /\ ls_to a = t.
  Definition sched (s : qstate RN) : Prop :=
    Forall (fun a : load_step RN => subdivides steps (ls_to a)) (q_done s) /\
    exists i a b mids, nth_error steps i = Some a /\
      (nth_error steps (S i) = Some b \/ (q_todo s = [] /\ mids = [] /\ skipn (S i) steps = [] /\ base ad s = a)) /\
      q_todo s = mids ++ skipn (S i) steps /\ (dyadic a b (base ad s) /\ Forall (dyadic a b) mids) /\
      (forall j t, (j <= i)%nat -> nth_error steps j = Some t -> visited (q_done s) t).

  Lemma visited_app l x t : visited l t -> visited (l ++ [x]) t.
  Proof. intros [H|(a & H & E)]; [now left|]. right. exists a. split; [apply in_or_app; now left|exact E]. Qed.

  Lemma sched_accept fuel s t rest todo : inv solve ad t0 s -> sched s -> q_todo s = t :: rest ->
    acceptable (fst (solve (q_attempt s))) (snd (solve (q_attempt s))) = true -> next_todo ad final fuel s t rest = Some todo -> sched (accept_next ad s t todo).
  Proof.
    intros I (D & i & a & b & mids & Ha & Hb & Et' & (Db & Dm) & V) Et A E.
    destruct (inv_accept solve ad final t0 fuel s t rest todo I Et A E) as (_ & B).
    assert (E' : todo = rest).
    { unfold next_todo in E. destruct ad as [x|] eqn:Ex; [|congruence]. rewrite (mode x eq_refl) in E. cbn in E. congruence. }
    subst todo. destruct Hb as [Hb|(Hb & _)]; [|congruence].
    assert (Dt : dyadic a b t).
    { rewrite Et in Et'. destruct mids as [|m mids]; cbn [app] in Et'.
      - rewrite (skipn_nth _ _ _ Hb) in Et'. injection Et' as -> _. apply dyadic_right.
      - injection Et' as -> _. now inversion Dm. }
    split.
    { cbn [accept_next q_done]. apply Forall_app. split; [exact D|]. constructor; [|constructor]. cbn [ls_to]. exact (subdivides_dyadic steps i a b t Ha Hb Dt). }
    cbn [accept_next q_done q_todo]. rewrite Et in Et'. destruct mids as [|m mids]; cbn [app] in Et'.
    - rewrite (skipn_nth _ _ _ Hb) in Et'. injection Et' as -> ->.
      assert (V' : forall j t, (j <= S i)%nat -> nth_error steps j = Some t -> visited (q_done s ++ [ Build_load_step (N:=RN) (q_attempt s) (base ad s) b ]) t).
      { intros j t Lj Hj. destruct (le_lt_eq_dec j (S i) Lj) as [Lj'| ->].
        - apply visited_app. apply (V j); [lia|exact Hj].
        - right. eexists. split; [apply in_or_app; right; now left|]. cbn [ls_to]. congruence. }
      destruct (nth_error steps (S (S i))) as [c|] eqn:Hc.
      + exists (S i), b, c, []. split; [exact Hb|]. split; [now left|]. split; [reflexivity|]. split; [|exact V'].
        split; [|constructor]. replace (base ad _) with b. apply dyadic_left.
      + assert (Sk : skipn (S (S i)) steps = []) by (apply skipn_all2; now apply nth_error_None).
        exists (S i), b, b, []. split; [exact Hb|]. split.
        * right. split; [exact Sk|]. split; [reflexivity|]. split; [exact Sk|]. exact B.
        * split; [reflexivity|]. split; [|exact V']. split; [|constructor]. replace (base ad _) with b. apply dyadic_left.
    - injection Et' as -> ->. exists i, a, b, mids. split; [exact Ha|]. split; [now left|]. split; [reflexivity|]. split.
      + split; [|now inversion Dm]. replace (base ad _) with m. exact Dt.
      + intros j t Lj Hj. apply visited_app. now apply (V j).
  Qed.
  Lemma sched_halve s t rest a : inv solve ad t0 s -> sched s -> q_todo s = t :: rest -> ad = Some a -> sched (halve_next ad s t rest).
  Proof.
    intros I (D & i & a' & b & mids & Ha & Hb & Et' & (Db & Dm) & V) Et Ea.
    destruct (inv_halve solve ad t0 a s t rest Ea I Et) as (_ & B). split; [exact D|].
    destruct Hb as [Hb|(Hb & _)]; [|congruence].
    assert (Dt : dyadic a' b t).
    { rewrite Et in Et'. destruct mids as [|m mids]; cbn [app] in Et'.
      - rewrite (skipn_nth _ _ _ Hb) in Et'. injection Et' as -> _. apply dyadic_right.
      - injection Et' as -> _. now inversion Dm. }
    exists i, a', b, ((base ad s + (t - base ad s) / 2) :: mids). split; [exact Ha|]. split; [now left|].
    cbn [halve_next q_todo q_done]. split; [cbn [app]; now rewrite <- Et', Et|]. split; [|exact V].
    split; [replace (base ad _) with (base ad s); exact Db|]. constructor; [|exact Dm]. now apply dyadic_mid.
  Qed.
  Lemma sched_end s : inv solve ad t0 s -> sched s -> q_todo s = [] -> base ad s = final /\ forall t, In t steps -> visited (q_done s) t.
  Proof.
    intros I (D & i & a & b & mids & Ha & Hb & Et' & (Db & Dm) & V) Et.
    destruct Hb as [Hb|(_ & _ & Sk & B)].
    - rewrite Et, (skipn_nth _ _ _ Hb) in Et'. destruct mids; discriminate.
    - split.
      + rewrite B. rewrite <- (last_cons t0 todo0 t0). symmetry. exact (last_nth steps i a t0 Ha Sk).
      + intros t Ht. apply In_nth_error in Ht. destruct Ht as (j & Hj). apply (V j); [|exact Hj].
        assert (j < length steps)%nat by (apply nth_error_Some; congruence). apply (f_equal (@length R)) in Sk. rewrite skipn_length in Sk. cbn [length] in Sk, H. lia.
  Qed.
End Sched.

Section Reduce.
  Variable solve : nat -> RN * RN.
  Variable ad : adaptive.
  Hypothesis mode : reduce_all ad = true.
  Variables (t0 final : R).
  Notation base := (base (Some ad)).
  Definition ahead (s : qstate RN) : Prop :=
    final <= last (q_todo s) (base s) /\
    (if q_conv s then base s < final /\ q_todo s <> [] else starts_before final (base s :: q_todo s)) /\
    Forall (fun a : load_step RN => ls_from a < final) (q_done s).
  Lemma ahead_base s t rest : ahead s -> q_todo s = t :: rest -> base s < final.
  Proof. intros (_ & H & _) Et. destruct (q_conv s); [apply H|]. rewrite Et in H. apply H. Qed.
  Lemma ahead_accept fuel s t rest todo : inv solve (Some ad) t0 s -> ahead s -> q_todo s = t :: rest ->
    acceptable (fst (solve (q_attempt s))) (snd (solve (q_attempt s))) = true -> next_todo (Some ad) final fuel s t rest = Some todo -> ahead (accept_next (Some ad) s t todo).
  Proof.
    intros I Ah Et A E. pose proof (ahead_base s t rest Ah Et) as Hb. destruct Ah as (H1 & H2 & H3).
    destruct (inv_accept solve (Some ad) final t0 fuel s t rest todo I Et A E) as (_ & B). unfold ahead. rewrite B.
    cbn [accept_next q_todo q_done q_conv]. rewrite Et in H1, H2.
    assert (K : final <= last todo t /\ starts_before final (t :: todo)).
    { unfold next_todo in E. destruct I as (I1 & _). rewrite Et in I1. destruct I1 as (I1 & _). rewrite mode in E. cbn [andb] in E.
      destruct (q_conv s).
      - assert (Q : t = t + INR 0 * (t - base s)) by (change (t = t + 0 * (t - base s) :> R); symmetry; ring).
        destruct (again_spec t (t - base s) final fuel ltac:(lra) t 0 todo E Q) as (_ & R1 & R2). auto.
      - injection E as <-. split; [rewrite last_cons in H1; exact H1|apply H2]. }
    destruct K as (K1 & K2). split; [exact K1|]. split; [exact K2|]. apply Forall_app. split; [exact H3|]. constructor; [exact Hb|constructor].
  Qed.
  Lemma ahead_halve s t rest : inv solve (Some ad) t0 s -> ahead s -> q_todo s = t :: rest -> ahead (halve_next (Some ad) s t rest).
  Proof.
    intros I Ah Et. pose proof (ahead_base s t rest Ah Et) as Hb. destruct Ah as (H1 & H2 & H3).
    destruct (inv_halve solve (Some ad) t0 ad s t rest eq_refl I Et) as (_ & B). unfold ahead. rewrite B. cbn [halve_next q_todo q_done q_conv].
    split; [|split; [split; [exact Hb|discriminate]|exact H3]]. rewrite Et in H1. rewrite last_cons in *. rewrite last_cons. exact H1.
  Qed.
End Reduce.

Lemma increasing_before l : forall a f, increasing (a :: l) -> last l a <= f -> starts_before f (a :: l).
Proof.
  induction l as [|b l IH]; intros a f H L; [exact I|]. destruct H as (H1 & H2). rewrite last_cons in L.
  pose proof (increasing_last l b H2). split; [lra|]. apply IH; assumption.
Qed.

(** ** Attempts *)
Section Count.
  Variable solve : nat -> RN * RN.
  Variable ad : option adaptive.
  Variable t0 : R.
  Definition counted (s : qstate RN) : Prop := Z.of_nat (q_attempt s) = (Z.of_nat (length (q_done s)) + q_total s)%Z /\ (0 <= q_total s)%Z /\
    (q_total s <= match ad with Some a => Z.max 0 (max_total a) | None => 0 end)%Z.
  Lemma counted_accept s t todo : counted s -> counted (accept_next ad s t todo).
  Proof. intros (H1 & H2 & H3). unfold counted. cbn [accept_next q_attempt q_done q_total]. rewrite app_length. cbn [length]. split; [lia|]. split; assumption. Qed.
  Lemma counted_halve s t rest a : counted s -> ad = Some a -> (q_total s + 1 <= max_total a)%Z -> counted (halve_next ad s t rest).
  Proof. intros (H1 & H2 & H3) E L. unfold counted. rewrite E in *. cbn [halve_next q_attempt q_done q_total]. split; [lia|]. split; lia. Qed.
End Count.

(** ** Without failures *)
Lemma all_solved solve ad final (H : forall k, solved solve k) todo : forall t0 n acc,
  qs_loop (N:=RN) solve ad final (S (length todo)) (Build_qstate (N:=RN) todo t0 t0 false 0 0 false n acc) = Some (Finished, (n + length todo)%nat, acc ++ as_scheduled n t0 todo).
Proof.
  assert (G : forall todo m (p c : R) n acc, (length todo < m)%nat -> qs_loop (N:=RN) solve ad final m (Build_qstate (N:=RN) todo p c false 0 0 false n acc) = Some (Finished, (n + length todo)%nat, acc ++ as_scheduled n c todo)).
  { induction todo0 as [|t todo0 IH]; intros [|m] p c n acc L; try (cbn in L; lia); rewrite loop_unfold; cbn [q_todo].
    - cbn [as_scheduled q_attempt q_done length]. rewrite app_nil_r, Nat.add_0_r. reflexivity.
    - cbn [q_attempt q_done]. rewrite (proj2 (acceptable_true _ _) (H n)).
      assert (E : next_todo ad final (S m) (Build_qstate (N:=RN) (t :: todo0) p c false 0 0 false n acc) t todo0 = Some todo0).
      { unfold next_todo. destruct ad as [a|]; [|reflexivity]. cbn [q_conv]. rewrite andb_false_r. reflexivity. }
      rewrite E. unfold accept_next. cbn [q_total q_attempt q_done]. rewrite IH by (apply Nat.succ_lt_mono; exact L).
      replace (base ad _) with c by (unfold base; destruct ad; reflexivity).
      cbn [as_scheduled length]. rewrite <- app_assoc. cbn [app]. replace (S n + length todo0)%nat with (n + S (length todo0))%nat by lia. reflexivity. }
  intros. apply G. lia.
Qed.
