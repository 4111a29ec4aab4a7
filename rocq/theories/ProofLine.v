(** * Lemmas on the line search *)
From Coq Require Import Reals SpecFloat.
From Verif Require Import Base Num ModelScalar ModelExplicit ModelLine SpecLine ProofExplicit.

Lemma map2_combine {A B C} (f : A -> B -> C) l : forall m r, map2_ub f l m = Ok r -> r = map (fun p => f (fst p) (snd p)) (combine l m).
Proof.
  induction l as [|a l IH]; intros [|b m] r H; cbn [map2_ub] in H; try discriminate; [now injection H as <-|].
  destruct (map2_ub f l m) eqn:E; try discriminate. injection H as <-. cbn. f_equal. now apply IH.
Qed.

Section Line.
  Context {N : Num}.
  Local Open Scope num_scope.
  Variables (finite : N -> bool) (evaluate : nat -> list N -> list N -> outcome (N * list N)) (origin lhs : list N) (dt : N).

  Lemma try_one_inv k a delta r : try_one evaluate origin lhs dt k a delta = Ok r ->
    tr_delta (snd r) = delta /\ exists vec, evaluate k (position_at origin lhs delta a) (velocity_at lhs delta dt a) = Ok (fst r, vec).
  Proof.
    unfold try_one, moved. intros H. destruct (map2_ub _ delta lhs) as [d| |] eqn:Ed; try discriminate.
    cbn [bind] in H. destruct (map2_ub add origin d) as [y| |] eqn:Ey; try discriminate. cbn [bind tr_y tr_v] in H.
    apply map2_combine in Ed. apply map2_combine in Ey. subst d. subst y.
    unfold position_at, velocity_at, increment_at.
    match type of H with bind ?e _ = _ => destruct e as [[n vec]| |] eqn:Ev; try discriminate end.
    injection H as <-. cbn. split; [reflexivity|]. exists vec. reflexivity.
  Qed.

  Hypothesis Ord : totally_ordered finite.
  Variable bound : N.
  Hypothesis Fb : finite bound = true.

  Lemma best_finite l a r : best_below finite bound l a r -> finite r = true.
  Proof. intros [((_ & F & _) & _)|(_ & -> & _)]; assumption. Qed.

  Lemma best_start : best_below finite bound [] 1 bound.
  Proof. right. repeat split; try reflexivity. intros a' r' []. Qed.

  Lemma best_step l a r b n : best_below finite bound l a r ->
    let best := if finite n && (n <? r) then (b, n) else (a, r) in best_below finite bound (l ++ [(b, n)]) (fst best) (snd best).
  Proof.
    intros H. pose proof (best_finite _ _ _ H) as Fr. destruct Ord as (As & Tr). destruct (finite n) eqn:Fn; cbn [andb].
    - destruct (n <? r) eqn:L; cbn [fst snd].
      + assert (Gr : ltb r n = false) by now apply As.
        left. split.
        * split; [apply in_or_app; right; now left|]. split; [exact Fn|]. intros a' r' I F'. apply in_app_or in I. destruct I as [I|[E|[]]].
          -- apply (Tr r' r n); auto. destruct H as [((_ & _ & M) & _)|(_ & -> & M)]; eapply M; eauto.
          -- injection E as -> ->. destruct (ltb r' r') eqn:Z; [|reflexivity]. rewrite (As r' r' F' F' Z) in Z. discriminate.
        * destruct H as [(_ & Lb)|(_ & -> & _)]; [|exact L]. destruct (ltb n bound) eqn:Z; [reflexivity|].
          assert (Q : ltb bound r = false) by now apply As. rewrite (Tr n bound r Fn Fb Fr Z Q) in L. discriminate.
      + destruct H as [((I1 & _ & M) & Lb)|(-> & -> & M)]; [left|right].
        * split; [|exact Lb]. split; [apply in_or_app; now left|]. split; [exact Fr|]. intros a' r' I F'. apply in_app_or in I. destruct I as [I|[E|[]]]; [eapply M; eauto|].
          injection E as -> ->. exact L.
        * repeat split; try reflexivity. intros a' r' I F'. apply in_app_or in I. destruct I as [I|[E|[]]]; [eapply M; eauto|]. injection E as -> ->. exact L.
    - cbn [fst snd]. destruct H as [((I1 & _ & M) & Lb)|(-> & -> & M)]; [left|right].
      + split; [|exact Lb]. split; [apply in_or_app; now left|]. split; [exact Fr|]. intros a' r' I F'. apply in_app_or in I. destruct I as [I|[E|[]]]; [eapply M; eauto|].
        injection E as -> ->. congruence.
      + repeat split; try reflexivity. intros a' r' I F'. apply in_app_or in I. destruct I as [I|[E|[]]]; [eapply M; eauto|]. injection E as -> ->. congruence.
  Qed.

  (** The tries made by a loop. *)
  Lemma first_spec delta : forall cs k best s best' s' l, tr_delta s = delta ->
    first_loop finite evaluate origin lhs dt false k cs best s = Ok (best', s') -> best_below finite bound l (fst best) (snd best) ->
    tr_delta s' = delta /\ exists l', trials evaluate origin lhs delta dt k cs l' /\ best_below finite bound (l ++ l') (fst best') (snd best').
  Proof.
    induction cs as [|c cs IH]; intros k best s best' s' l Hd H B; cbn [first_loop] in H.
    - injection H as <- <-. split; [exact Hd|]. exists []. rewrite app_nil_r. split; [|exact B]. split; [reflexivity|]. intros [|i] a r E; discriminate.
    - destruct (try_one _ _ _ _ _ _ _) as [[n s1]| |] eqn:E1; try discriminate. cbn [bind fst snd] in H.
      destruct (try_one_inv _ _ _ _ E1) as (D1 & vec & Ev). cbn [fst snd] in D1, Ev. rewrite Hd in D1, Ev.
      assert (B' := best_step l (fst best) (snd best) c n B).
      assert (Eb : (if finite n && (n <? snd best) then (c, n) else best) = (if finite n && (n <? snd best) then (c, n) else (fst best, snd best)))
        by (destruct (finite n && (n <? snd best))%bool; [reflexivity|now destruct best]).
      rewrite <- Eb in B'. destruct (IH (S k) _ s1 best' s' (l ++ [(c, n)]) D1 H B') as (D' & l' & (T1 & T2) & Bl).
      split; [exact D'|]. exists ((c, n) :: l'). rewrite <- app_assoc in Bl. split; [|exact Bl]. split; [cbn; now f_equal|].
      intros [|i] a r En; [injection En as <- <-; exists vec; rewrite Nat.add_0_r; exact Ev|].
      cbn in En. destruct (T2 i a r En) as (vec' & E'). exists vec'. now rewrite <- Nat.add_succ_comm.
  Qed.

  Definition increases (n0 : N) (l data : list (N * N)) : Prop :=
    forall a p, In (a, p) data -> exists r, In (a, r) l /\ finite r = true /\ (n0 <? r) = true /\ p = (r - n0) / n0.

  Lemma second_spec n0 delta : forall cs k best data s best' data' s' l l2, tr_delta s = delta ->
    second_loop finite evaluate origin lhs dt k n0 cs best data s = Ok (best', data', s') -> best_below finite bound l (fst best) (snd best) -> increases n0 l2 data ->
    tr_delta s' = delta /\ exists l', trials evaluate origin lhs delta dt k cs l' /\ best_below finite bound (l ++ l') (fst best') (snd best') /\ increases n0 (l2 ++ l') data'.
  Proof.
    induction cs as [|c cs IH]; intros k best data s best' data' s' l l2 Hd H B I; cbn [second_loop] in H.
    - injection H as <- <- <-. split; [exact Hd|]. exists []. rewrite !app_nil_r. split; [|split; [exact B|exact I]]. split; [reflexivity|]. intros [|i] a r E; discriminate.
    - destruct (try_one _ _ _ _ _ _ _) as [[n s1]| |] eqn:E1; try discriminate. cbn [bind fst snd] in H.
      destruct (try_one_inv _ _ _ _ E1) as (D1 & vec & Ev). cbn [fst snd] in D1, Ev. rewrite Hd in D1, Ev.
      assert (B' := best_step l (fst best) (snd best) c n B).
      assert (Eb : (if finite n && (n <? snd best) then (c, n) else best) = (if finite n && (n <? snd best) then (c, n) else (fst best, snd best)))
        by (destruct (finite n && (n <? snd best))%bool; [reflexivity|now destruct best]).
      rewrite <- Eb in B'.
      assert (I' : increases n0 (l2 ++ [(c, n)]) (if finite n && negb (n <? snd best) && (n0 <? n) then (c, (n - n0) / n0) :: data else data)).
      { intros a p Hin. destruct (finite n && negb (n <? snd best) && (n0 <? n))%bool eqn:W.
        - destruct Hin as [E|Hin]; [injection E as <- <-|].
          + apply andb_true_iff in W. destruct W as (W1 & W2). apply andb_true_iff in W1. destruct W1 as (W1 & _).
            exists n. split; [apply in_or_app; right; now left|]. auto.
          + destruct (I a p Hin) as (r & R1 & R2). exists r. split; [apply in_or_app; now left|exact R2].
        - destruct (I a p Hin) as (r & R1 & R2). exists r. split; [apply in_or_app; now left|exact R2]. }
      destruct (IH (S k) _ _ s1 best' data' s' (l ++ [(c, n)]) (l2 ++ [(c, n)]) D1 H B' I') as (D' & l' & (T1 & T2) & Bl & Il).
      split; [exact D'|]. exists ((c, n) :: l'). rewrite <- app_assoc in Bl, Il. split; [|split; [exact Bl|exact Il]]. split; [cbn; now f_equal|].
      intros [|i] a r En; [injection En as <- <-; exists vec; rewrite Nat.add_0_r; exact Ev|].
      cbn in En. destruct (T2 i a r En) as (vec' & E'). exists vec'. now rewrite <- Nat.add_succ_comm.
  Qed.

  (** Increases not below the best of the first round are all recorded. *)
  Lemma second_records n0 delta r1 : finite r1 = true -> forall cs k best data s best' data' s' l, tr_delta s = delta ->
    second_loop finite evaluate origin lhs dt k n0 cs best data s = Ok (best', data', s') -> trials evaluate origin lhs delta dt k cs l ->
    finite (snd best) = true -> (r1 <? snd best) = false ->
    (forall p, In p data -> In p data') /\ forall a r, In (a, r) l -> finite r = true -> (n0 <? r) = true -> (r <? r1) = false -> In (a, (r - n0) / n0) data'.
  Proof.
    intros F1. destruct Ord as (As & Tr). induction cs as [|c cs IH]; intros k best data s best' data' s' l Hd H (T1 & T2) Fb' B; cbn [second_loop] in H.
    - injection H as <- <- <-. split; [auto|]. destruct l; [intros a r []|discriminate].
    - destruct (try_one _ _ _ _ _ _ _) as [[n s1]| |] eqn:E1; try discriminate. cbn [bind fst snd] in H.
      destruct (try_one_inv _ _ _ _ E1) as (D1 & vec & Ev). cbn [fst snd] in D1, Ev. rewrite Hd in D1, Ev.
      destruct l as [|[c' n'] l]; [discriminate|]. cbn [map fst] in T1. injection T1 as -> T1.
      destruct (T2 0%nat c n' eq_refl) as (vec' & Ev'). rewrite Nat.add_0_r, Ev in Ev'. injection Ev' as <- <-.
      assert (T3 : trials evaluate origin lhs delta dt (S k) cs l).
      { split; [exact T1|]. intros i a r En. destruct (T2 (S i) a r En) as (w & Ew). exists w. now rewrite Nat.add_succ_comm. }
      match type of H with second_loop _ _ _ _ _ _ _ _ ?b ?d _ = _ => destruct (IH (S k) b d s1 best' data' s' l D1 H T3) as (K1 & K2) end.
      + destruct (finite n) eqn:Fn; cbn [andb]; [|exact Fb']. destruct (n <? snd best); assumption.
      + destruct (finite n) eqn:Fn; cbn [andb]; [|exact B]. destruct (n <? snd best) eqn:L; [|exact B]. cbn [snd].
        apply (Tr r1 (snd best) n); auto.
      + split.
        * intros p Hp. apply K1. match goal with |- In _ (if ?c then _ else _) => destruct c end; [now right|exact Hp].
        * intros a r [E|I] Fr L1 L2; [injection E as -> ->|now apply K2]. apply K1. rewrite Fr, L1.
          rewrite (Tr r r1 (snd best) Fr F1 Fb' L2 B). cbn [negb andb]. now left.
  Qed.

  Lemma nearest_spec data : forall best : N * N, fst (nearest_increase data best) = fst best \/ exists p, In (fst (nearest_increase data best), p) data.
  Proof.
    induction data as [|[a p] data IH]; intros best; [now left|]. cbn [nearest_increase fold_left fst snd].
    match goal with |- fst (fold_left _ _ ?b) = _ \/ _ => destruct (IH b) as [E|(q & I)] end.
    - unfold nearest_increase in E. rewrite E. destruct (_ <? _); [right; exists p; now left|now left].
    - right. exists q. right. exact I.
  Qed.
End Line.

(** ** The two instances *)
Lemma ordered_reals (finite : R -> bool) : totally_ordered (N:=RN) finite.
Proof.
  split.
  - intros a b _ _ H. apply Rltb_true in H. apply Rltb_false. now left.
  - intros a b c _ _ _ H1 H2. apply Rltb_false in H1, H2. apply Rltb_false. eapply Rle_trans; eassumption.
Qed.

Lemma ordered_doubles : totally_ordered (N:=FN) finite64.
Proof.
  assert (C1 : forall a b, finite64 a = true -> finite64 b = true -> exists c, SFcompare a b = Some c /\ SFcompare b a = Some (CompOpp c)).
  { intros [s|s| |s m e] [s'|s'| |s' m' e'] F1 F2; try discriminate; cbn; try (eexists; split; reflexivity).
    - destruct s'; eexists; split; reflexivity.
    - destruct s; eexists; split; reflexivity.
    - destruct s, s'; try (eexists; split; reflexivity).
      + rewrite (Z.compare_antisym e e'). destruct (e ?= e')%Z; cbn; [|eexists; split; reflexivity..].
        eexists; split; [reflexivity|]. f_equal. rewrite !Pos.compare_cont_spec. rewrite (Pos.compare_antisym m m'). destruct (m ?= m')%positive; reflexivity.
      + rewrite (Z.compare_antisym e e'). destruct (e ?= e')%Z; cbn; [|eexists; split; reflexivity..].
        eexists; split; [reflexivity|]. f_equal. rewrite !Pos.compare_cont_spec. rewrite (Pos.compare_antisym m m'). destruct (m ?= m')%positive; reflexivity. }
  assert (L : forall a b, ltb (n:=FN) a b = match SFcompare a b with Some Lt => true | _ => false end) by reflexivity.
  split.
  - intros a b F1 F2 H. rewrite L in *. destruct (C1 a b F1 F2) as (c & E1 & E2). rewrite E1 in H. rewrite E2. destruct c; easy.
  - intros a b c F1 F2 F3 H1 H2. rewrite L in *. clear L C1.
    destruct a as [s|s| |s m e]; try discriminate; destruct b as [s'|s'| |s' m' e']; try discriminate; destruct c as [s''|s''| |s'' m'' e'']; try discriminate; cbn in *;
    try (destruct s''; discriminate || reflexivity); try (destruct s; discriminate || reflexivity); try (destruct s', s''; discriminate || reflexivity);
    try (destruct s, s'; discriminate || reflexivity); try (destruct s, s''; discriminate || reflexivity).
    destruct s, s', s''; try discriminate; try reflexivity;
    destruct (Z.compare_spec e e'), (Z.compare_spec e' e''), (Z.compare_spec e e''); try discriminate; try reflexivity; try lia; subst; cbn in *;
    rewrite ?Pos.compare_cont_spec in *; cbn in *;
    destruct (Pos.compare_spec m m'), (Pos.compare_spec m' m''), (Pos.compare_spec m m''); try discriminate; try reflexivity; try lia.
Qed.

Local Open Scope R_scope.
Lemma magnitude_R (a : R) : magnitude (N:=RN) a = Rabs a.
Proof.
  unfold magnitude. match goal with |- (if ?c then _ else _) = _ => destruct c eqn:E end.
  - apply Rltb_true in E. cbn in *. now rewrite Rabs_left.
  - apply Rltb_false in E. cbn in *. rewrite Rabs_right; [reflexivity|]. now apply Rle_ge.
Qed.
Lemma nearest_R data : forall best : R * R,
  let res := nearest_increase (N:=RN) data best in
  snd res <= snd best /\ (res = best \/ exists p, In (fst res, p) data /\ snd res = Rabs (p - 1/10)) /\ forall a p, In (a, p) data -> snd res <= Rabs (p - 1/10).
Proof.
  induction data as [|[a p] data IH]; intros best res.
  - split; [apply Rle_refl|]. split; [now left|]. intros a p [].
  - set (d := Rabs (p - 1/10)). set (b' := if Rltb d (snd best) then (a, d) else best).
    assert (E : res = nearest_increase (N:=RN) data b').
    { unfold res, b', d. cbn [nearest_increase fold_left fst snd]. rewrite magnitude_R. reflexivity. }
    rewrite E. destruct (IH b') as (H1 & H2 & H3). cbv zeta in *.
    assert (Hb : snd b' <= snd best /\ snd b' <= d /\ (b' = best \/ b' = (a, d))).
    { unfold b'. destruct (Rltb d (snd best)) eqn:L; [apply Rltb_true in L|apply Rltb_false in L]; cbn [snd].
      - split; [now left|]. split; [apply Rle_refl|now right].
      - split; [apply Rle_refl|]. split; [exact L|now left]. }
    destruct Hb as (B1 & B2 & B3). split; [eapply Rle_trans; eassumption|]. split.
    + destruct H2 as [H2|(q & I & Q)]; [|right; exists q; split; [now right|exact Q]]. rewrite H2. destruct B3 as [->| ->]; [now left|right].
      exists p. split; [now left|reflexivity].
    + intros a' p' [X|I]; [injection X as <- <-; eapply Rle_trans; eassumption|now apply (H3 a')].
Qed.
Local Close Scope R_scope.

(** ** Searches that go through *)
Section Total.
  Context {N : Num}.
  Local Open Scope num_scope.
  Variables (finite : N -> bool) (evaluate : nat -> list N -> list N -> outcome (N * list N)) (origin lhs : list N) (dt : N).
  Hypothesis Lo : length origin = length lhs.
  Hypothesis Ev : forall k y v, exists r vec, evaluate k y v = Ok (r, vec) /\ length vec = length lhs.

  Lemma moved_ok a delta : length delta = length lhs -> exists t, moved origin lhs dt a delta = Ok t /\ tr_y t = position_at origin lhs delta a /\ tr_v t = velocity_at lhs delta dt a.
  Proof.
    intros L. unfold moved. destruct (map2_ok (fun d l => d + a * l) delta lhs L) as (d & Ed). rewrite Ed. cbn [bind].
    destruct (map2_spec _ _ _ _ Ed) as (_ & Ld & _).
    destruct (map2_ok add origin d) as (y & Ey); [congruence|]. rewrite Ey. cbn [bind]. eexists. split; [reflexivity|]. cbn [tr_y tr_v].
    apply map2_combine in Ed. apply map2_combine in Ey. subst. split; reflexivity.
  Qed.
  Lemma try_ok k a delta : length delta = length lhs -> exists r s vec, try_one evaluate origin lhs dt k a delta = Ok (r, s) /\ tr_delta s = delta /\
    evaluate k (position_at origin lhs delta a) (velocity_at lhs delta dt a) = Ok (r, vec).
  Proof.
    intros L. unfold try_one. destruct (moved_ok a delta L) as (t & E & Ey & Et). rewrite E. cbn [bind]. rewrite Ey, Et.
    destruct (Ev k (position_at origin lhs delta a) (velocity_at lhs delta dt a)) as (r & vec & E2 & _). rewrite E2. cbn. eexists r, _, vec. repeat split.
  Qed.
  Lemma first_ok multi : forall cs k best s, length (tr_delta s) = length lhs ->
    exists best' s', first_loop finite evaluate origin lhs dt multi k cs best s = Ok (best', s') /\ tr_delta s' = tr_delta s.
  Proof.
    induction cs as [|c cs IH]; intros k best s L; cbn [first_loop]; [now exists best, s|].
    destruct (try_ok k (if multi then epsilon else c) (tr_delta s) L) as (r & s1 & vec & E & D & _). rewrite E. cbn [bind fst snd].
    match goal with |- exists _ _, first_loop _ _ _ _ _ _ _ _ ?b _ = _ /\ _ => destruct (IH (S k) b s1) as (b' & s' & E' & D') end; [now rewrite D|].
    exists b', s'. split; [exact E'|congruence].
  Qed.
  Lemma second_ok n0 : forall cs k best data s, length (tr_delta s) = length lhs ->
    exists best' data' s', second_loop finite evaluate origin lhs dt k n0 cs best data s = Ok (best', data', s') /\ tr_delta s' = tr_delta s.
  Proof.
    induction cs as [|c cs IH]; intros k best data s L; cbn [second_loop]; [now exists best, data, s|].
    destruct (try_ok k c (tr_delta s) L) as (r & s1 & vec & E & D & _). rewrite E. cbn [bind fst snd].
    match goal with |- exists _ _ _, second_loop _ _ _ _ _ _ _ _ ?b ?d _ = _ /\ _ => destruct (IH (S k) b d s1) as (b' & d' & s' & E' & D') end; [now rewrite D|].
    exists b', d', s'. split; [exact E'|congruence].
  Qed.
  Lemma dot_ok vec : length vec = length lhs -> exists d, dot lhs vec = Ok d.
  Proof. intros L. unfold dot. destruct (map2_ok mul lhs vec (eq_sym L)) as (p & E). rewrite E. cbn. eauto. Qed.

  (** Nothing finite: the best stays what it was. *)
  Lemma first_nothing : (forall k y v r vec, (0 < k)%nat -> evaluate k y v = Ok (r, vec) -> finite r = false) -> forall multi cs k best s, (0 < k)%nat -> length (tr_delta s) = length lhs ->
    exists s', first_loop finite evaluate origin lhs dt multi k cs best s = Ok (best, s') /\ tr_delta s' = tr_delta s.
  Proof.
    intros Nf multi. induction cs as [|c cs IH]; intros k best s Hk L; cbn [first_loop]; [now exists s|].
    destruct (try_ok k (if multi then epsilon else c) (tr_delta s) L) as (r & s1 & vec & E & D & Er). rewrite E. cbn [bind fst snd].
    rewrite (Nf k _ _ _ _ Hk Er). cbn [andb]. destruct (IH (S k) best s1) as (s' & E' & D'); [lia|now rewrite D|].
    exists s'. split; [exact E'|congruence].
  Qed.
  Lemma second_nothing : (forall k y v r vec, (0 < k)%nat -> evaluate k y v = Ok (r, vec) -> finite r = false) -> forall n0 cs k best data s, (0 < k)%nat -> length (tr_delta s) = length lhs ->
    exists s', second_loop finite evaluate origin lhs dt k n0 cs best data s = Ok (best, data, s') /\ tr_delta s' = tr_delta s.
  Proof.
    intros Nf n0. induction cs as [|c cs IH]; intros k best data s Hk L; cbn [second_loop]; [now exists s|].
    destruct (try_ok k c (tr_delta s) L) as (r & s1 & vec & E & D & Er). rewrite E. cbn [bind fst snd].
    rewrite (Nf k _ _ _ _ Hk Er). cbn [andb]. destruct (IH (S k) best data s1) as (s' & E' & D'); [lia|now rewrite D|].
    exists s'. split; [exact E'|congruence].
  Qed.

  (** With multiphysics the first round tries the same thing again and again. *)
  Lemma first_same r delta : (forall k y v, evaluate k y v = evaluate 0 y v) -> (exists vec, evaluate 0 (position_at origin lhs delta epsilon) (velocity_at lhs delta dt epsilon) = Ok (r, vec)) ->
    (r <? r) = false -> forall cs k a s, tr_delta s = delta -> length delta = length lhs ->
    exists s', first_loop finite evaluate origin lhs dt true k cs (a, r) s = Ok ((a, r), s') /\ tr_delta s' = delta.
  Proof.
    intros Hk (vec0 & E0) Irr. induction cs as [|c cs IH]; intros k a s D L; cbn [first_loop]; [now exists s|].
    rewrite D. destruct (try_ok k epsilon delta L) as (r' & s1 & vec & E & D1 & Er). rewrite E. cbn [bind fst snd].
    rewrite Hk, E0 in Er. injection Er as <- <-. rewrite Irr, andb_false_r. apply (IH (S k) a s1); assumption.
  Qed.
End Total.
