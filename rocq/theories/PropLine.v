(** * C35 line search of the quasi-static solver *)
From Coq Require Import Reals Lra SpecFloat.
From Verif Require Import Base Num ModelScalar ModelExplicit ModelLine SpecLine ProofExplicit ProofLine.

Section Generic.
  Context {N : Num}.
  Local Open Scope num_scope.
  Variables (finite : N -> bool) (evaluate : nat -> list N -> list N -> outcome (N * list N)) (origin lhs : list N) (dt : N).

  Lemma search_spec : totally_ordered finite -> finite (ofZ (10 ^ 50)) = true -> forall s alpha s',
    line_search finite evaluate origin lhs dt false s = Ok (alpha, s') -> tr_delta s' = tr_delta s /\ searched finite evaluate origin lhs (tr_delta s) dt (tr_y s) (tr_v s) alpha.
  Proof.
    intros Ord Fh s alpha s' H. unfold line_search in H.
    destruct (evaluate 0%nat (tr_y s) (tr_v s)) as [[n0 vec]| |] eqn:E0; try discriminate. cbn [bind fst snd] in H.
    destruct (finite n0) eqn:F0; [|discriminate]. cbn [negb] in H.
    destruct (n0 =? 0) eqn:Z.
    - injection H as <- <-. split; [reflexivity|]. exists n0, vec. rewrite Z. auto.
    - destruct (moved _ _ _ _ _) as [t| |] eqn:Em; try discriminate. cbn [bind] in H.
      destruct (evaluate 1%nat _ _) as [[n1 vec1]| |] eqn:E1; try discriminate. cbn [bind fst snd] in H.
      destruct (dot lhs vec) as [sr| |]; try discriminate. cbn [bind] in H.
      destruct (dot lhs vec1) as [spr| |]; try discriminate. cbn [bind] in H.
      destruct (first_loop _ _ _ _ _ _ _ _ _ _) as [[best s2]| |] eqn:Ef; try discriminate. cbn [bind] in H.
      destruct (first_spec finite evaluate origin lhs dt Ord _ Fh (tr_delta s) _ _ _ (Build_trial (tr_delta s) (tr_y t) (tr_v t)) _ _ [] eq_refl Ef (best_start finite _)) as (D2 & l1 & T1 & B1). cbn [app] in B1.
      assert (G : guess sr spr = [] \/ exists a, guess sr spr = [a] /\ (- lit 1 10 <? a) = true /\ (a <? ofZ 10) = true).
      { unfold guess. destruct (_ && _)%bool eqn:Q; [|now left]. right. eexists. split; [reflexivity|]. now apply andb_true_iff in Q. }
      destruct (lit 2 100 <? _) eqn:P1.
      + injection H as <- <-. split; [exact D2|]. exists n0, vec. rewrite Z. split; [exact E0|]. split; [exact F0|].
        exists (guess sr spr), l1, (fst best), (snd best). split; [exact G|]. split; [exact T1|]. split; [exact B1|]. now rewrite P1.
      + destruct (second_loop _ _ _ _ _ _ _ _ _ _ _) as [[[best3 data] s3]| |] eqn:Es; try discriminate. cbn [bind] in H.
        destruct (second_spec finite evaluate origin lhs dt Ord _ Fh n0 (tr_delta s) _ _ _ _ _ _ _ _ l1 [] D2 Es B1) as (D3 & l2 & T2 & B2 & I2); [intros a p []|].
        split; [destruct (_ <? _) in H; injection H as <- <-; exact D3|]. exists n0, vec. rewrite Z. split; [exact E0|]. split; [exact F0|].
        exists (guess sr spr), l1, (fst best), (snd best). split; [exact G|]. split; [exact T1|]. split; [exact B1|]. rewrite P1.
        exists l2, (fst best3), (snd best3). split.
        { destruct T1 as (T1 & _). rewrite <- T1, map_length in T2. exact T2. }
        split; [exact B2|]. destruct (lit 1 10000 <? _); [now injection H as <- <-|]. injection H as <- <-.
        destruct (nearest_spec (rev data) (fst best3, huge)) as [E|(p & I)]; [now left|right].
        apply in_rev in I. destruct (I2 _ _ I) as (r & R1 & R2 & R3 & _). exists r. auto.
  Qed.

  Lemma search_fallback : totally_ordered finite -> finite (ofZ (10 ^ 50)) = true -> forall s alpha s' n0 vec,
    line_search finite evaluate origin lhs dt false s = Ok (alpha, s') -> evaluate 0%nat (tr_y s) (tr_v s) = Ok (n0, vec) -> (n0 =? 0) = false ->
    exists g l1 a1 r1, trials evaluate origin lhs (tr_delta s) dt 2 (g ++ coarse_steps) l1 /\ best_below finite (ofZ (10 ^ 50)) l1 a1 r1 /\
      ((lit 2 100 <? (n0 - r1) / n0) = false -> exists l2 a2 r2, trials evaluate origin lhs (tr_delta s) dt (2 + length l1) fine_steps l2 /\
        best_below finite (ofZ (10 ^ 50)) (l1 ++ l2) a2 r2 /\
        ((lit 1 10000 <? (n0 - r2) / n0) = false -> exists data, alpha = fst (nearest_increase data (a2, ofZ (10 ^ 50))) /\ increases finite n0 l2 data /\
          forall a r, In (a, r) l2 -> finite r = true -> (n0 <? r) = true -> (r <? r1) = false -> In (a, (r - n0) / n0) data)).
  Proof.
    intros Ord Fh s alpha s' n0 vec H E0 Z. unfold line_search in H. rewrite E0 in H. cbn [bind fst snd] in H.
    destruct (finite n0) eqn:F0; [|discriminate]. cbn [negb] in H. rewrite Z in H.
    destruct (moved _ _ _ _ _) as [t| |] eqn:Em; try discriminate. cbn [bind] in H.
    destruct (evaluate 1%nat _ _) as [[n1 vec1]| |] eqn:E1; try discriminate. cbn [bind fst snd] in H.
    destruct (dot lhs vec) as [sr| |]; try discriminate. cbn [bind] in H.
    destruct (dot lhs vec1) as [spr| |]; try discriminate. cbn [bind] in H.
    destruct (first_loop _ _ _ _ _ _ _ _ _ _) as [[best s2]| |] eqn:Ef; try discriminate. cbn [bind] in H.
    destruct (first_spec finite evaluate origin lhs dt Ord _ Fh (tr_delta s) _ _ _ (Build_trial (tr_delta s) (tr_y t) (tr_v t)) _ _ [] eq_refl Ef (best_start finite _)) as (D2 & l1 & T1 & B1). cbn [app] in B1.
    exists (guess sr spr), l1, (fst best), (snd best). split; [exact T1|]. split; [exact B1|]. intros P1. rewrite P1 in H.
    destruct (second_loop _ _ _ _ _ _ _ _ _ _ _) as [[[best3 data] s3]| |] eqn:Es; try discriminate. cbn [bind] in H.
    destruct (second_spec finite evaluate origin lhs dt Ord _ Fh n0 (tr_delta s) _ _ _ _ _ _ _ _ l1 [] D2 Es B1) as (D3 & l2 & T2 & B2 & I2); [intros a p []|].
    assert (Fs : finite (snd best) = true) by exact (best_finite finite _ Fh _ _ _ B1).
    destruct (second_records finite evaluate origin lhs dt Ord n0 (tr_delta s) (snd best) Fs _ _ _ _ _ _ _ _ l2 D2 Es T2 Fs) as (_ & R).
    { destruct (ltb (snd best) (snd best)) eqn:X; [|reflexivity]. pose proof (proj1 Ord _ _ Fs Fs X). congruence. }
    exists l2, (fst best3), (snd best3). split.
    { destruct T1 as (T1 & _). rewrite <- T1, map_length in T2. exact T2. }
    split; [exact B2|]. intros P2. rewrite P2 in H. injection H as <- <-. exists (rev data). split; [reflexivity|]. split.
    - intros a p I. apply in_rev in I. exact (I2 a p I).
    - intros a r I1 I3 I4 I5. apply -> in_rev. now apply R.
  Qed.
End Generic.

Lemma huge_R : ofZ (n:=RN) (10 ^ 50) = (10 ^ 50)%R.
Proof. symmetry. exact (pow_IZR 10 50). Qed.

(** Real numbers, whatever values are taken as not finite, and doubles. *)
Theorem C35_search : forall finite evaluate origin lhs dt s alpha s', finite (10 ^ 50)%R = true ->
  line_search (N:=RN) finite evaluate origin lhs dt false s = Ok (alpha, s') -> tr_delta s' = tr_delta s /\ searched (N:=RN) finite evaluate origin lhs (tr_delta s) dt (tr_y s) (tr_v s) alpha.
Proof. intros finite evaluate origin lhs dt s alpha s' F. apply search_spec; [apply ordered_reals|]. rewrite <- F. f_equal. exact huge_R. Qed.
Print Assumptions C35_search.

Theorem C35_search_binary64 : forall evaluate origin lhs dt s alpha s',
  line_search (N:=FN) finite64 evaluate origin lhs dt false s = Ok (alpha, s') -> tr_delta s' = tr_delta s /\ searched (N:=FN) finite64 evaluate origin lhs (tr_delta s) dt (tr_y s) (tr_v s) alpha.
Proof. intros evaluate origin lhs dt s alpha s'. apply search_spec; [exact ordered_doubles|]. vm_compute. reflexivity. Qed.
Print Assumptions C35_search_binary64.
Local Open Scope R_scope.


(** In terms of residuals: with positive initial residual [n0] at most 1e50,
    when some step of the first round reduces it by more than 2%, the step returned has the
    smallest residual of the first round; when none does, and some step of the two rounds
    reduces it by more than 0.01%, the step returned has the smallest residual of both. *)
Theorem C35_smallest_residual : forall finite evaluate origin lhs dt s alpha s' n0 vec, finite (10 ^ 50) = true ->
  evaluate 0%nat (tr_y s) (tr_v s) = Ok (n0, vec) -> 0 < n0 <= 10 ^ 50 ->
  line_search (N:=RN) finite evaluate origin lhs dt false s = Ok (alpha, s') ->
  exists g l1, (g = [] \/ exists a, g = [a] /\ -1/10 < a < 10) /\
    trials (N:=RN) evaluate origin lhs (tr_delta s) dt 2 (g ++ coarse_steps (N:=RN)) l1 /\
    ((exists a r, In (a, r) l1 /\ finite r = true /\ r < 98/100 * n0) -> exists r, least (N:=RN) finite l1 alpha r) /\
    ((forall a r, In (a, r) l1 -> finite r = true -> 98/100 * n0 <= r) ->
     exists l2, trials (N:=RN) evaluate origin lhs (tr_delta s) dt (2 + length l1) (fine_steps (N:=RN)) l2 /\
       ((exists a r, In (a, r) (l1 ++ l2) /\ finite r = true /\ r < 9999/10000 * n0) -> exists r, least (N:=RN) finite (l1 ++ l2) alpha r)).
Proof.
  intros finite evaluate origin lhs dt s alpha s' n0 vec F E0 (P & Hb) H.
  destruct (C35_search finite evaluate origin lhs dt s alpha s' F H) as (_ & n0' & vec' & E0' & _ & S). rewrite E0 in E0'. injection E0' as <- <-.
  assert (Z : eqb (n:=RN) n0 (ofZ 0) = false) by (apply Reqb_false; cbn; lra). rewrite Z in S.
  destruct S as (g & l1 & a1 & r1 & G & T1 & B1 & S). rewrite huge_R in *. exists g, l1. split; [|split; [exact T1|]].
  { destruct G as [G|(a & -> & L1 & L2)]; [now left|right]. exists a. split; [reflexivity|]. apply Rltb_true in L1, L2. cbn in L1, L2. lra. }
  assert (Q : forall (r : R) n d, ltb (n:=RN) (lit n d) (div (n:=RN) (sub (n:=RN) n0 r) n0) = true <-> IZR n / IZR (Z.pos d) * n0 < n0 - r).
  { intros r n d. assert (X : (n0 - r) / n0 * n0 = n0 - r) by (field; lra). split; intros L.
    - apply Rltb_true in L. cbn in L. rewrite <- X. now apply Rmult_lt_compat_r.
    - apply Rltb_true. cbn. rewrite <- X in L. now apply Rmult_lt_reg_r in L. }
  assert (M : forall l a r a' r', best_below (N:=RN) finite (10 ^ 50) l a r -> In (a', r') l -> finite r' = true -> r' < n0 -> r <= r' /\ least (N:=RN) finite l a r).
  { intros l a r a' r' [(L & _)|(_ & _ & K)] I Fr' Lr.
    - split; [|exact L]. destruct L as (_ & _ & L). specialize (L a' r' I Fr'). now apply Rltb_false in L.
    - specialize (K a' r' I Fr'). apply Rltb_false in K. exfalso. apply (Rlt_irrefl n0). apply Rle_lt_trans with (10 ^ 50); [exact Hb|]. eapply Rle_lt_trans; [exact K|exact Lr]. }
  split.
  - intros (a & r & I & Fr & Lr). destruct (M l1 a1 r1 a r B1 I Fr ltac:(lra)) as (Le & Lst).
    assert (C : ltb (n:=RN) (lit 2 100) (div (n:=RN) (sub (n:=RN) n0 r1) n0) = true) by (apply Q; lra). rewrite C in S. subst alpha. exists r1. exact Lst.
  - intros K. assert (C : ltb (n:=RN) (lit 2 100) (div (n:=RN) (sub (n:=RN) n0 r1) n0) = false).
    { destruct (ltb (n:=RN) (lit 2 100) _) eqn:X; [|reflexivity]. apply Q in X. exfalso. destruct B1 as [((I & Fr & _) & _)|(_ & -> & _)].
      - specialize (K a1 r1 I Fr). lra.
      - lra. }
    rewrite C in S. destruct S as (l2 & a2 & r2 & T2 & B2 & S). exists l2. split; [exact T2|].
    intros (a & r & I & Fr & Lr). destruct (M _ a2 r2 a r B2 I Fr ltac:(lra)) as (Le & Lst).
    assert (C2 : ltb (n:=RN) (lit 1 10000) (div (n:=RN) (sub (n:=RN) n0 r2) n0) = true) by (apply Q; lra). rewrite C2 in S. subst alpha. exists r2. exact Lst.
Qed.
Print Assumptions C35_smallest_residual.

(** The step returned is 0 (vanishing residual), the default 1, or one that was tried and had
    a finite residual. *)
Theorem C35_tried_and_finite : forall finite evaluate origin lhs dt s alpha s', finite (10 ^ 50) = true ->
  line_search (N:=RN) finite evaluate origin lhs dt false s = Ok (alpha, s') ->
  (alpha = 0 /\ exists vec, evaluate 0%nat (tr_y s) (tr_v s) = Ok (0, vec)) \/ alpha = 1 \/
  exists k vec r, evaluate k (position_at (N:=RN) origin lhs (tr_delta s) alpha) (velocity_at (N:=RN) lhs (tr_delta s) dt alpha) = Ok (r, vec) /\ finite r = true /\
    (In alpha (coarse_steps (N:=RN) ++ fine_steps) \/ -1/10 < alpha < 10).
Proof.
  intros finite evaluate origin lhs dt s alpha s' F H.
  destruct (C35_search finite evaluate origin lhs dt s alpha s' F H) as (_ & n0 & vec & E0 & F0 & S).
  destruct (eqb (n:=RN) n0 (ofZ 0)) eqn:Z.
  { apply Reqb_true in Z. subst. left. split; [reflexivity|]. exists vec. exact E0. }
  right. destruct S as (g & l1 & a1 & r1 & G & T1 & B1 & S).
  assert (A1 : forall a r, In (a, r) l1 -> finite r = true -> exists k vec r, evaluate k (position_at (N:=RN) origin lhs (tr_delta s) a) (velocity_at (N:=RN) lhs (tr_delta s) dt a) = Ok (r, vec) /\ finite r = true /\
    (In a (coarse_steps (N:=RN) ++ fine_steps) \/ -1/10 < a < 10)).
  { intros a r I Fr. destruct T1 as (T1 & T2). destruct (In_nth_error _ _ I) as (i & Ei). destruct (T2 i a r Ei) as (v & Ev). exists (2 + i)%nat, v, r. split; [exact Ev|]. split; [exact Fr|].
    assert (J : In a (g ++ coarse_steps)) by (rewrite <- T1; change a with (fst (a, r)); now apply in_map).
    apply in_app_or in J. destruct J as [J|J]; [|left; apply in_or_app; now left].
    destruct G as [->|(b & -> & L1 & L2)]; [easy|]. destruct J as [<-|[]]. right. apply Rltb_true in L1, L2. cbn in L1, L2. lra. }
  destruct (ltb (n:=RN) (lit 2 100) _).
  { subst a1. destruct B1 as [((I & Fr & _) & _)|(E & _)]; [right; now apply (A1 alpha r1)|left; exact E]. }
  destruct S as (l2 & a2 & r2 & T2 & B2 & S).
  assert (A2 : forall a r, In (a, r) l2 -> finite r = true -> exists k vec r, evaluate k (position_at (N:=RN) origin lhs (tr_delta s) a) (velocity_at (N:=RN) lhs (tr_delta s) dt a) = Ok (r, vec) /\ finite r = true /\
    (In a (coarse_steps (N:=RN) ++ fine_steps) \/ -1/10 < a < 10)).
  { intros a r I Fr. destruct T2 as (T2 & T3). destruct (In_nth_error _ _ I) as (i & Ei). destruct (T3 i a r Ei) as (v & Ev). exists (2 + length l1 + i)%nat, v, r. split; [exact Ev|]. split; [exact Fr|].
    left. apply in_or_app. right. rewrite <- T2. change a with (fst (a, r)). now apply in_map. }
  assert (A : alpha = a2 -> alpha = 1 \/ exists k vec r, evaluate k (position_at (N:=RN) origin lhs (tr_delta s) alpha) (velocity_at (N:=RN) lhs (tr_delta s) dt alpha) = Ok (r, vec) /\ finite r = true /\
    (In alpha (coarse_steps (N:=RN) ++ fine_steps) \/ -1/10 < alpha < 10)).
  { intros ->. destruct B2 as [((I & Fr & _) & _)|(E & _)]; [right|left; exact E]. apply in_app_or in I. destruct I as [I|I]; [now apply (A1 a2 r2)|now apply (A2 a2 r2)]. }
  destruct (ltb (n:=RN) (lit 1 10000) _); [now apply A|]. destruct S as [S|(r & I & Fr & _)]; [now apply A|]. right. now apply (A2 alpha r).
Qed.
Print Assumptions C35_tried_and_finite.

(** When nothing reduces the residual by 0.01%, the step returned belongs to the second round
    and increases the residual, by a fraction at least as near to 10% as any increase [rb] of
    that round which is not below all residuals of the first. *)
Theorem C35_increase_near_ten_percent : forall finite evaluate origin lhs dt s alpha s' n0 vec, finite (10 ^ 50) = true ->
  evaluate 0%nat (tr_y s) (tr_v s) = Ok (n0, vec) -> 0 < n0 <= 10 ^ 50 ->
  line_search (N:=RN) finite evaluate origin lhs dt false s = Ok (alpha, s') ->
  exists g l1, trials (N:=RN) evaluate origin lhs (tr_delta s) dt 2 (g ++ coarse_steps (N:=RN)) l1 /\
    ((forall a r, In (a, r) l1 -> finite r = true -> 98/100 * n0 <= r) ->
     exists l2, trials (N:=RN) evaluate origin lhs (tr_delta s) dt (2 + length l1) (fine_steps (N:=RN)) l2 /\
       ((forall a r, In (a, r) (l1 ++ l2) -> finite r = true -> 9999/10000 * n0 <= r) ->
        forall a r b rb, In (a, r) l1 -> finite r = true -> In (b, rb) l2 -> finite rb = true -> n0 < rb -> r <= rb -> Rabs ((rb - n0) / n0 - 1/10) < 10 ^ 50 ->
        exists ra, In (alpha, ra) l2 /\ finite ra = true /\ n0 < ra /\ Rabs ((ra - n0) / n0 - 1/10) <= Rabs ((rb - n0) / n0 - 1/10))).
Proof.
  intros finite evaluate origin lhs dt s alpha s' n0 vec F E0 (P & Hb) H.
  assert (Z : eqb (n:=RN) n0 (ofZ 0) = false) by (apply Reqb_false; cbn; lra).
  assert (F' : finite (ofZ (n:=RN) (10 ^ 50)) = true) by (rewrite huge_R; exact F).
  destruct (search_fallback (N:=RN) finite evaluate origin lhs dt (ordered_reals finite) F' s alpha s' n0 vec H E0 Z) as (g & l1 & a1 & r1 & T1 & B1 & S).
  rewrite huge_R in *. exists g, l1. split; [exact T1|]. intros K1.
  assert (Q : forall (r : R) n d, ltb (n:=RN) (lit n d) (div (n:=RN) (sub (n:=RN) n0 r) n0) = true -> IZR n / IZR (Z.pos d) * n0 < n0 - r).
  { intros r n d. assert (X : (n0 - r) / n0 * n0 = n0 - r) by (field; lra). intros L. apply Rltb_true in L. cbn in L. rewrite <- X. now apply Rmult_lt_compat_r. }
  assert (C : ltb (n:=RN) (lit 2 100) (div (n:=RN) (sub (n:=RN) n0 r1) n0) = false).
  { destruct (ltb (n:=RN) (lit 2 100) _) eqn:X; [|reflexivity]. apply Q in X. exfalso. destruct B1 as [((I & Fr & _) & _)|(_ & -> & _)]; [specialize (K1 a1 r1 I Fr)|]; lra. }
  destruct (S C) as (l2 & a2 & r2 & T2 & B2 & S2). exists l2. split; [exact T2|]. intros K2.
  assert (C2 : ltb (n:=RN) (lit 1 10000) (div (n:=RN) (sub (n:=RN) n0 r2) n0) = false).
  { destruct (ltb (n:=RN) (lit 1 10000) _) eqn:X; [|reflexivity]. apply Q in X. exfalso. destruct B2 as [((I & Fr & _) & _)|(_ & -> & _)]; [specialize (K2 a2 r2 I Fr)|]; lra. }
  destruct (S2 C2) as (data & -> & Inc & All). intros a r b rb I1 Fr I2 Fb L1 L2 L3.
  assert (Lr : r1 <= rb).
  { destruct B1 as [((_ & _ & M) & _)|(_ & -> & M)]; specialize (M a r I1 Fr); apply Rltb_false in M; eapply Rle_trans; eassumption. }
  assert (D : In (b, (rb - n0) / n0) data) by (apply All; auto; [apply Rltb_true; exact L1|apply Rltb_false; exact Lr]).
  destruct (nearest_R data (a2, 10 ^ 50)) as (_ & N2 & N3). cbv zeta in *. specialize (N3 _ _ D). destruct N2 as [N2|(p & I & N2)].
  - exfalso. rewrite N2 in N3. cbn [snd] in N3. apply (Rlt_irrefl (10 ^ 50)). eapply Rle_lt_trans; eassumption.
  - destruct (Inc _ _ I) as (ra & A1 & A2 & A3 & A4). exists ra. split; [exact A1|]. split; [exact A2|]. apply Rltb_true in A3. split; [exact A3|].
    eapply Rle_trans; [|exact N3]. apply Req_le. rewrite N2, A4. reflexivity.
Qed.
Print Assumptions C35_increase_near_ten_percent.

(** The search goes through when the residual can be evaluated. *)
Theorem C35_succeeds : forall (N : Num) (finite : N -> bool) evaluate origin lhs dt multi s,
  length origin = length lhs -> length (tr_delta s) = length lhs ->
  (forall k y v, exists r vec, evaluate k y v = Ok (r, vec) /\ length vec = length lhs) ->
  (forall r vec, evaluate 0%nat (tr_y s) (tr_v s) = Ok (r, vec) -> finite r = true) ->
  exists alpha s', line_search finite evaluate origin lhs dt multi s = Ok (alpha, s') /\ tr_delta s' = tr_delta s.
Proof.
  intros N finite evaluate origin lhs dt multi s Lo Ld Ev F. unfold line_search.
  destruct (Ev 0%nat (tr_y s) (tr_v s)) as (n0 & vec0 & E0 & L0). rewrite E0. cbn [bind fst snd]. rewrite (F _ _ E0). cbn [negb].
  destruct (n0 =? ofZ 0)%num; [now exists (ofZ 0), s|].
  destruct (moved_ok origin lhs dt Lo epsilon (tr_delta s) Ld) as (t & Et & _). rewrite Et. cbn [bind].
  destruct (Ev 1%nat (tr_y t) (tr_v t)) as (n1 & vec1 & E1 & L1). rewrite E1. cbn [bind fst snd].
  destruct (dot_ok lhs vec0 L0) as (sr & Es). rewrite Es. cbn [bind]. destruct (dot_ok lhs vec1 L1) as (spr & Es'). rewrite Es'. cbn [bind].
  match goal with |- context [first_loop finite evaluate origin lhs dt multi 2 ?cs ?b ?st] => destruct (first_ok finite evaluate origin lhs dt Lo Ev multi cs 2 b st Ld) as (best & s2 & Ef & D2) end. rewrite Ef. cbn [bind tr_delta] in D2 |- *.
  match goal with |- context [if ?c then Ok _ else _] => destruct c end; [now exists (fst best), s2|].
  match goal with |- context [second_loop finite evaluate origin lhs dt ?k n0 ?cs best [] s2] => destruct (second_ok finite evaluate origin lhs dt Lo Ev n0 cs k best [] s2) as (best' & data & s3 & Eg & D3) end; [now rewrite D2|].
  rewrite Eg. cbn [bind]. match goal with |- context [if ?c then Ok _ else _] => destruct c end; eexists _, s3; (split; [reflexivity|congruence]).
Qed.
Print Assumptions C35_succeeds.

(** When no trial has a finite residual the step 1 is returned, although it was tried. *)
Theorem C35_finite_step_refuted : forall (N : Num) (finite : N -> bool) evaluate origin lhs dt multi s n0 vec0,
  length origin = length lhs -> length (tr_delta s) = length lhs ->
  (forall k y v, exists r vec, evaluate k y v = Ok (r, vec) /\ length vec = length lhs) ->
  (forall k y v r vec, (0 < k)%nat -> evaluate k y v = Ok (r, vec) -> finite r = false) ->
  evaluate 0%nat (tr_y s) (tr_v s) = Ok (n0, vec0) -> finite n0 = true -> eqb n0 (ofZ 0) = false ->
  exists s', line_search finite evaluate origin lhs dt multi s = Ok (ofZ 1, s').
Proof.
  intros N finite evaluate origin lhs dt multi s n0 vec0 Lo Ld Ev Nf E0 F0 Z. unfold line_search. rewrite E0. cbn [bind fst snd]. rewrite F0, Z. cbn [negb].
  destruct (moved_ok origin lhs dt Lo epsilon (tr_delta s) Ld) as (t & Et & _). rewrite Et. cbn [bind].
  destruct (Ev 1%nat (tr_y t) (tr_v t)) as (n1 & vec1 & E1 & L1). rewrite E1. cbn [bind fst snd].
  assert (L0 : length vec0 = length lhs) by (destruct (Ev 0%nat (tr_y s) (tr_v s)) as (? & ? & E & L); rewrite E0 in E; injection E as <- <-; exact L).
  destruct (dot_ok lhs vec0 L0) as (sr & Es). rewrite Es. cbn [bind]. destruct (dot_ok lhs vec1 L1) as (spr & Es'). rewrite Es'. cbn [bind].
  match goal with |- context [first_loop finite evaluate origin lhs dt multi 2 ?cs ?b ?st] => destruct (first_nothing finite evaluate origin lhs dt Lo Ev Nf multi cs 2 b st ltac:(lia) Ld) as (s2 & Ef & D2) end. rewrite Ef. cbn [bind tr_delta fst snd] in D2 |- *.
  match goal with |- context [if ?c then Ok _ else _] => destruct c end; [now exists s2|].
  match goal with |- context [second_loop finite evaluate origin lhs dt ?k n0 ?cs ?b [] s2] => destruct (second_nothing finite evaluate origin lhs dt Lo Ev Nf n0 cs k b [] s2 ltac:(lia)) as (s3 & Eg & D3) end; [now rewrite D2|].
  rewrite Eg. cbn [bind]. match goal with |- context [if ?c then Ok _ else _] => destruct c end; now exists s3.
Qed.
Print Assumptions C35_finite_step_refuted.

(** With multiphysics, whenever a step of 1e-4 reduces the residual by more than 2%, the first
    candidate is returned, whatever the residual with it. *)
Theorem C35_multiphysics_refuted : forall (N : Num) (finite : N -> bool) evaluate origin lhs dt s n0 vec0 r vec,
  length origin = length lhs -> length (tr_delta s) = length lhs ->
  (forall k y v, exists r vec, evaluate k y v = Ok (r, vec) /\ length vec = length lhs) -> (forall k y v, evaluate k y v = evaluate 0%nat y v) ->
  evaluate 0%nat (tr_y s) (tr_v s) = Ok (n0, vec0) -> finite n0 = true -> eqb n0 (ofZ 0) = false ->
  evaluate 0%nat (position_at origin lhs (tr_delta s) (lit 1 10000)) (velocity_at lhs (tr_delta s) dt (lit 1 10000)) = Ok (r, vec) ->
  finite r = true -> ltb r r = false -> ltb r (ofZ (10 ^ 50)) = true -> ltb (lit 2 100) (div (sub n0 r) n0) = true ->
  exists a s', line_search finite evaluate origin lhs dt true s = Ok (a, s') /\
    (a = lit 1 10 \/ exists sr spr, dot lhs vec0 = Ok sr /\ dot lhs vec = Ok spr /\ a = (- (1) * lit 1 10000 * sr / (spr - sr))%num).
Proof.
  intros N finite evaluate origin lhs dt s n0 vec0 r vec Lo Ld Ev Hk E0 F0 Z Er Fr Irr Lh Ht. unfold line_search. rewrite E0. cbn [bind fst snd]. rewrite F0, Z. cbn [negb].
  destruct (moved_ok origin lhs dt Lo epsilon (tr_delta s) Ld) as (t & Et & Ey & Evl). rewrite Et. cbn [bind]. rewrite Ey, Evl, Hk.
  change (epsilon (N:=N)) with (lit (n:=N) 1 10000) at 1 2. rewrite Er. cbn [bind fst snd].
  assert (L0 : length vec0 = length lhs) by (destruct (Ev 0%nat (tr_y s) (tr_v s)) as (? & ? & E & L); rewrite E0 in E; injection E as <- <-; exact L).
  assert (L1 : length vec = length lhs) by (destruct (Ev 0%nat (position_at origin lhs (tr_delta s) (lit 1 10000)) (velocity_at lhs (tr_delta s) dt (lit 1 10000))) as (? & ? & E & L); rewrite Er in E; injection E as <- <-; exact L).
  destruct (dot_ok lhs vec0 L0) as (sr & Es). rewrite Es. cbn [bind]. destruct (dot_ok lhs vec L1) as (spr & Es'). rewrite Es'. cbn [bind].
  assert (C : exists c cs, guess sr spr ++ first_candidates = c :: cs /\ (c = lit 1 10 \/ c = (- (1) * lit 1 10000 * sr / (spr - sr))%num)).
  { unfold guess, first_candidates. destruct (_ && _)%bool; eexists _, _; (split; [reflexivity|]); eauto. }
  destruct C as (c & cs & Ec & Cc). rewrite Ec. cbn [first_loop tr_delta].
  match goal with |- context [try_one evaluate origin lhs dt 2 ?a ?d] => destruct (try_ok evaluate origin lhs dt Lo Ev 2 a d Ld) as (r' & s1 & vec' & E1 & D1 & Er') end.
  rewrite E1. cbn [bind fst snd]. rewrite Hk in Er'. change (epsilon (N:=N)) with (lit (n:=N) 1 10000) in Er'. rewrite Er in Er'. injection Er' as <- <-.
  unfold huge. rewrite Fr, Lh. cbn [andb].
  destruct (first_same finite evaluate origin lhs dt Lo Ev r (tr_delta s) Hk (ex_intro _ vec Er) Irr cs 3 c s1 D1 Ld) as (s2 & Ef & D2). rewrite Ef. cbn [bind fst snd]. rewrite Ht.
  exists c, s2. split; [reflexivity|]. destruct Cc as [->| ->]; [now left|right]. exists sr, spr. auto.
Qed.
Print Assumptions C35_multiphysics_refuted.

(** An increase of exactly 10% is passed over when it is below all earlier residuals: here the
    second fine step gives it and the first, returned, gives 50%. *)
Definition spoiled (k : nat) : spec_float * list spec_float :=
  (if Nat.eqb k 0 then fofZ 1 else if Nat.eqb k 10 then lit (n:=FN) 11 10 else lit (n:=FN) 15 10, [fofZ (if Nat.eqb k 1 then 2 else 1)]).
Theorem C35_ten_percent_refuted :
  match line_search (N:=FN) finite64 (fun k _ _ => Ok (spoiled k)) [fofZ 0] [fofZ 1] (fofZ 1) false (Build_trial (N:=FN) [fofZ 0] [fofZ 0] [fofZ 0]) with
  | Ok (alpha, _) => SFeqb alpha (lit (n:=FN) 2 1000)
  | _ => false
  end = true.
Proof. vm_compute. reflexivity. Qed.
Print Assumptions C35_ten_percent_refuted.

(** *** Concrete cases *)
(** One unknown, residual |1/2 - y| starting at y = 0 with direction 1: the guess is the exact
    minimiser and is returned. *)
Definition sloped (k : nat) (y v : list R) : outcome (R * list R) := match y with [a] => Ok (Rabs (1/2 - a), [1/2 - a]) | _ => UB end.
Example C35_case_binary64 :
  match line_search (N:=FN) finite64 (fun _ y _ => match y with [a] => Ok (SFabs (SFsub 53 1024 (lit (n:=FN) 5 10) a), [SFsub 53 1024 (lit (n:=FN) 5 10) a]) | _ => UB end)
    [fofZ 0] [fofZ 1] (fofZ 1) false (Build_trial (N:=FN) [fofZ 0] [fofZ 0] [fofZ 0]) with
  | Ok (alpha, s) => SFeqb alpha (lit (n:=FN) 5 10) && match tr_delta s with [d] => SFeqb d (fofZ 0) | _ => false end
  | _ => false
  end = true.
Proof. vm_compute. reflexivity. Qed.
(** With multiphysics the same search returns the guess because it is first; with a residual
    that is small near the start only, this step makes it larger. *)
Example C35_multiphysics_case :
  match line_search (N:=FN) finite64 (fun _ y _ => match y with
      | [a] => Ok (if SFeqb a (fofZ 0) then fofZ 1 else if SFltb a (lit (n:=FN) 1 1000) then lit (n:=FN) 5 10 else fofZ 1000, [SFsub 53 1024 (lit (n:=FN) 5 10) a])
      | _ => UB end)
    [fofZ 0] [fofZ 1] (fofZ 1) true (Build_trial (N:=FN) [fofZ 0] [fofZ 0] [fofZ 0]) with
  | Ok (alpha, s) => SFltb (lit (n:=FN) 4 10) alpha
  | _ => false
  end = true.
Proof. vm_compute. reflexivity. Qed.
(** The reals: the hypotheses are met and the search goes through. *)
Example C35_case : exists alpha s', line_search (N:=RN) (fun _ => true) (fun k y v => match sloped k y v with Ok r => Ok r | _ => Ok (1, [1]) end) [0] [1] 1 false
    (Build_trial (N:=RN) [0] [0] [0]) = Ok (alpha, s') /\ tr_delta s' = [0].
Proof.
  apply C35_succeeds; try reflexivity. intros k y v. destruct y as [|a [|? ?]]; cbn; eexists _, _; split; reflexivity.
Qed.
