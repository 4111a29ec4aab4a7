(** * The search tree: complete construction and searches *)
From Coq Require Import Reals Lra Lia Psatz Sorting.Sorted Permutation.
From Verif Require Import Base Num ModelScalar ModelTree SpecGeom SpecTree ProofTree.
Local Open Scope R_scope.

Fixpoint leaves {N : Num} (t : tree N) : list nat := match t with Null => [] | Leaf i => [i] | Node _ _ _ l r => leaves l ++ leaves r end.

Section Trees.
  Variable pos : nat -> point.
  Notation coord := (coordinate (N:=RN) pos).

  Fixpoint tree_ok (t : tree RN) : Prop :=
    match t with
    | Null => False
    | Leaf _ => True
    | Node id c cut l r => In id (leaves l ++ leaves r) /\ (forall i, In i (leaves l) -> coord c i < cut) /\ (forall i, In i (leaves r) -> cut <= coord c i) /\ tree_ok l /\ tree_ok r
    end.

  Lemma part_filter p f : part_ok pos p -> part_ok pos (fun a => List.filter f (p a)).
  Proof. intros P a. destruct (P a). split; [now apply sorted_filter|now apply filter_length_perm]. Qed.
  Lemma part_same (p q : part) : (forall a, p a = q a) -> part_ok pos q -> part_ok pos p.
  Proof. intros E P a. rewrite (E a), (E CompX). apply P. Qed.

  Definition distinct_in (l : list nat) : Prop := forall i j, In i l -> In j l -> pos i = pos j -> i = j.

  (** ** Distinct points: the construction succeeds *)
  Lemma make_tree_ok : forall fuel free p, part_ok pos p -> NoDup (p CompX) -> distinct_in (p CompX) -> (2 <= length (p CompX))%nat -> (length (p CompX) <= fuel)%nat ->
    (2 * length (p CompX) - 1 <= free)%nat ->
    exists t, make_tree (N:=RN) pos fuel free p = Ok (t, (free - (2 * length (p CompX) - 1))%nat) /\ Permutation (leaves t) (p CompX) /\ tree_ok t.
  Proof.
    induction fuel as [|f IH]; intros free p P Nd D L2 Lf Lfree; [lia|]. cbn [make_tree]. destruct (Nat.eqb_spec (length (p CompX)) 0); [lia|]. destruct free as [|free]; [lia|].
    assert (Ne : p CompX <> []) by (intros E; rewrite E in L2; cbn in L2; lia).
    destruct (find_median_ok pos p P Ne) as (m & Em & K & Kl & Im & Parts & Zero). cbv zeta in *. rewrite Em. cbn [bind].
    set (g := below pos (m_axis m) (m_cut m)) in *.
    set (pl := fun a => firstn (m_left m) (m_part m a)). set (pr := fun a => skipn (m_left m) (m_part m a)).
    assert (El : forall a, pl a = List.filter g (p a)) by (intros a; apply Parts). assert (Er : forall a, pr a = List.filter (fun i => negb (g i)) (p a)) by (intros a; apply Parts).
    assert (Pl : part_ok pos pl) by (apply (part_same _ _ El), part_filter, P). assert (Pr : part_ok pos pr) by (apply (part_same _ _ Er), part_filter, P).
    assert (K0 : (0 < m_left m)%nat).
    { destruct (m_left m) eqn:Q; [|lia]. exfalso. specialize (Zero eq_refl). destruct (p CompX) as [|i [|j l]] eqn:E; cbn in L2; try lia.
      assert (i = j) by (apply D; [now left|right; now left|apply Zero; [now left|right; now left]]). subst. inversion Nd as [|? ? Ni]. apply Ni. now left. }
    assert (Len : (length (pl CompX) + length (pr CompX) = length (p CompX))%nat) by (rewrite El, Er; apply filter_split_length).
    assert (Ll : length (pl CompX) = m_left m) by (rewrite El, K; reflexivity).
    (* one child *)
    assert (Child : forall q fr, part_ok pos q -> NoDup (q CompX) -> distinct_in (q CompX) -> (1 <= length (q CompX) <= f)%nat -> (2 * length (q CompX) - 1 <= fr)%nat ->
      exists t, (if Nat.eqb (length (q CompX)) 1 then match fr with O => UB | S fr' => let? id := first_id (q (m_axis m)) in Ok (Leaf id, fr') end else make_tree (N:=RN) pos f fr q)
        = Ok (t, (fr - (2 * length (q CompX) - 1))%nat) /\ Permutation (leaves t) (q CompX) /\ tree_ok t).
    { intros q fr Pq Nq Dq (L1 & Lq) Lr. destruct (Nat.eqb_spec (length (q CompX)) 1) as [E1|N1].
      - destruct fr as [|fr]; [lia|]. destruct (Pq (m_axis m)) as (_ & Pm). pose proof (Permutation_length Pm) as Lm. rewrite E1 in Lm.
        destruct (q (m_axis m)) as [|i [|]]; try discriminate. cbn [first_id at_ub nth_error bind]. exists (Leaf i). rewrite E1. split; [repeat f_equal; lia|]. split; [exact Pm|exact I].
      - apply IH; auto; lia. }
    assert (Sub : forall h, NoDup (List.filter h (p CompX)) /\ distinct_in (List.filter h (p CompX))).
    { intros h. split; [now apply NoDup_filter|]. intros i j Ii Ij. apply filter_In in Ii, Ij. apply D; tauto. }
    destruct (Child pl free Pl) as (tl & Etl & Ptl & Otl); [rewrite El; apply Sub|rewrite El; apply Sub|lia|lia|].
    match goal with |- context [bind ?e _] => replace e with (Ok (tl, (free - (2 * length (pl CompX) - 1))%nat)) by (symmetry; exact Etl) end. cbn [bind snd fst].
    destruct (Child pr (free - (2 * length (pl CompX) - 1))%nat Pr) as (tr & Etr & Ptr & Otr); [rewrite Er; apply Sub|rewrite Er; apply Sub|lia|lia|].
    match goal with |- context [bind ?e _] => replace e with (Ok (tr, (free - (2 * length (pl CompX) - 1) - (2 * length (pr CompX) - 1))%nat)) by (symmetry; exact Etr) end. cbn [bind snd fst]. eexists. split; [f_equal; f_equal; lia|].
    assert (Pm : Permutation (leaves tl ++ leaves tr) (p CompX)).
    { eapply Permutation_trans; [apply Permutation_app; eassumption|]. rewrite El, Er. clear. induction (p CompX) as [|x l IHl]; cbn [List.filter app]; [constructor|]. destruct (g x); cbn [negb app]; [apply perm_skip; exact IHl|].
      apply Permutation_sym. eapply Permutation_trans; [apply perm_skip, Permutation_sym, IHl|]. apply Permutation_middle. }
    split; [exact Pm|]. cbn [tree_ok leaves]. split; [apply (Permutation_in _ (Permutation_sym Pm)), Im|]. split; [|split; [|auto]].
    - intros i Ii. apply (Permutation_in _ Ptl) in Ii. rewrite El in Ii. apply filter_In in Ii as (_ & Hi). now apply below_true in Hi.
    - intros i Ii. apply (Permutation_in _ Ptr) in Ii. rewrite Er in Ii. apply filter_In in Ii as (_ & Hi). apply Bool.negb_true_iff in Hi. now apply below_false in Hi.
  Qed.

  (** ** Coincident points: the nodes run out *)
  Lemma make_tree_not_err : forall fuel free p, part_ok pos p -> make_tree (N:=RN) pos fuel free p <> Err.
  Proof.
    induction fuel as [|f IH]; intros free p P; [discriminate|]. cbn [make_tree]. destruct (Nat.eqb_spec (length (p CompX)) 0) as [|N0]; [discriminate|]. destruct free as [|free]; [discriminate|].
    assert (Ne : p CompX <> []) by (intros E; rewrite E in N0; cbn in N0; lia). destruct (find_median_ok pos p P Ne) as (m & Em & K & Kl & Im & Parts & Zero). cbv zeta in *. rewrite Em. cbn [bind].
    assert (Child : forall q fr, part_ok pos q -> (if Nat.eqb (length (q CompX)) 1 then match fr with O => UB | S fr' => let? id := first_id (q (m_axis m)) in Ok (Leaf id, fr') end else make_tree (N:=RN) pos f fr q) <> Err).
    { intros q fr Pq. destruct (Nat.eqb _ 1); [|now apply IH]. destruct fr; [discriminate|]. unfold first_id, at_ub. destruct (nth_error _ _); discriminate. }
    assert (Pl : part_ok pos (fun a => firstn (m_left m) (m_part m a))) by (apply (part_same _ _ (fun a => proj1 (Parts a))), part_filter, P).
    assert (Pr : part_ok pos (fun a => skipn (m_left m) (m_part m a))) by (apply (part_same _ _ (fun a => proj2 (Parts a))), part_filter, P).
    pose proof (Child _ free Pl) as Cl. destruct (if Nat.eqb _ 1 then _ else _) as [(tl & fl)| |] in Cl |- *; [|congruence|discriminate]. cbn [bind snd fst].
    pose proof (Child _ fl Pr) as Cr. destruct (if Nat.eqb _ 1 then _ else _) as [(tr & fr)| |] in Cr |- *; [discriminate|congruence|discriminate].
  Qed.

  Lemma two_in {A} (l : list A) i j : In i l -> In j l -> i <> j -> (2 <= length l)%nat.
  Proof. destruct l as [|x [|y l]]; cbn; intros Hi Hj N; [tauto| |lia]. destruct Hi as [->|[]], Hj as [->|[]]. congruence. Qed.

  Lemma make_tree_coincident : forall fuel free p i j, part_ok pos p -> In i (p CompX) -> In j (p CompX) -> i <> j -> pos i = pos j -> make_tree (N:=RN) pos fuel free p = UB.
  Proof.
    induction fuel as [|f IH]; intros free p i j P Ii Ij Nij Eij; [reflexivity|]. cbn [make_tree]. destruct (Nat.eqb_spec (length (p CompX)) 0) as [E0|N0]; [destruct (p CompX); [destruct Ii|discriminate]|].
    destruct free as [|free]; [reflexivity|].
    assert (Ne : p CompX <> []) by (intros E; rewrite E in N0; cbn in N0; lia). destruct (find_median_ok pos p P Ne) as (m & Em & K & Kl & Im & Parts & Zero). cbv zeta in *. rewrite Em. cbn [bind].
    set (g := below pos (m_axis m) (m_cut m)) in *.
    assert (Gij : g i = g j) by (unfold g, below, coordinate; rewrite Eij; reflexivity).
    set (pl := fun a => firstn (m_left m) (m_part m a)). set (pr := fun a => skipn (m_left m) (m_part m a)).
    assert (El : forall a, pl a = List.filter g (p a)) by (intros a; apply Parts). assert (Er : forall a, pr a = List.filter (fun i => negb (g i)) (p a)) by (intros a; apply Parts).
    assert (Pl : part_ok pos pl) by (apply (part_same _ _ El), part_filter, P). assert (Pr : part_ok pos pr) by (apply (part_same _ _ Er), part_filter, P).
    assert (Child : forall q fr, part_ok pos q -> (if Nat.eqb (length (q CompX)) 1 then match fr with O => UB | S fr' => let? id := first_id (q (m_axis m)) in Ok (Leaf id, fr') end else make_tree (N:=RN) pos f fr q) <> Err).
    { intros q fr Pq. destruct (Nat.eqb _ 1); [|now apply make_tree_not_err]. destruct fr; [discriminate|]. unfold first_id, at_ub. destruct (nth_error _ _); discriminate. }
    destruct (g i) eqn:Gi.
    - assert (H1 : In i (pl CompX)) by (rewrite El; apply filter_In; auto). assert (H2 : In j (pl CompX)) by (rewrite El; apply filter_In; auto).
      pose proof (two_in _ _ _ H1 H2 Nij) as L2. change (firstn (m_left m) (m_part m CompX)) with (pl CompX). destruct (Nat.eqb_spec (length (pl CompX)) 1); [lia|]. rewrite (IH free pl i j Pl H1 H2 Nij Eij). reflexivity.
    - assert (H1 : In i (pr CompX)) by (rewrite Er; apply filter_In; rewrite Gi; auto). assert (H2 : In j (pr CompX)) by (rewrite Er; apply filter_In; rewrite <- Gij; auto).
      pose proof (two_in _ _ _ H1 H2 Nij) as L2. pose proof (Child pl free Pl) as Cl. match goal with |- bind ?e _ = _ => change e with (if Nat.eqb (length (pl CompX)) 1 then match free with O => UB | S fr' => let? id := first_id (pl (m_axis m)) in Ok (Leaf id, fr') end else make_tree (N:=RN) pos f free pl) end.
      destruct (if Nat.eqb (length (pl CompX)) 1 then _ else _) as [(tl & fl)| |] in Cl |- *; [|congruence|reflexivity].
      cbn [bind snd fst]. change (skipn (m_left m) (m_part m CompX)) with (pr CompX). destruct (Nat.eqb_spec (length (pr CompX)) 1); [lia|]. rewrite (IH fl pr i j Pr H1 H2 Nij Eij). reflexivity.
  Qed.

  (** ** Searches *)
  Definition inside (r : range RN) (p : point) : Prop := forall c, get (N:=RN) (low r) c <= get (N:=RN) p c <= get (N:=RN) (high r) c.
  Lemma contains_spec r p : contains_point (N:=RN) r p = true <-> inside r p.
  Proof.
    unfold contains_point, point_le, inside. rewrite !Bool.andb_true_iff. split.
    - intros (((A & B) & C) & ((D & E) & F)). apply Rleb_true in A, B, C, D, E, F. intros []; cbn; split; assumption.
    - intros H. pose proof (H CompX) as (? & ?). pose proof (H CompY) as (? & ?). pose proof (H CompZ) as (? & ?). repeat split; apply Rleb_true; assumption.
  Qed.
  Lemma contains_range_spec R r p : contains_range (N:=RN) R r = true -> inside r p -> inside R p.
  Proof.
    unfold contains_range, point_le. rewrite !Bool.andb_true_iff. intros (((A & B) & C) & ((D & E) & F)) H. apply Rleb_true in A, B, C, D, E, F.
    intros c. specialize (H c). destruct c; cbn [get] in *; lra.
  Qed.
  Lemma intersects_spec R r c p : intersects_along (N:=RN) R r c = false -> inside r p -> ~ inside R p.
  Proof.
    unfold intersects_along. intros E Hr HR. specialize (Hr c). specialize (HR c). apply Bool.andb_false_iff in E. rewrite !Bool.negb_false_iff in E. destruct E as [E|E]; apply Rltb_true in E; lra.
  Qed.
  Lemma set_same (p : point) c x : get (N:=RN) (set_component p c x) c = x. Proof. destruct c; reflexivity. Qed.
  Lemma set_other (p : point) c c' x : c' <> c -> get (N:=RN) (set_component p c x) c' = get (N:=RN) p c'. Proof. destruct c, c'; cbn; congruence. Qed.
  Lemma component_dec (a b : component) : {a = b} + {a <> b}. Proof. decide equality. Qed.
  Lemma inside_left r c cut p : inside r p -> get (N:=RN) p c < cut -> inside (range_left (N:=RN) r c cut) p.
  Proof. intros H L a. specialize (H a). unfold range_left. cbn [low high]. destruct (component_dec a c) as [->|Na]; [rewrite set_same; lra|rewrite set_other by auto; exact H]. Qed.
  Lemma inside_right r c cut p : inside r p -> cut <= get (N:=RN) p c -> inside (range_right (N:=RN) r c cut) p.
  Proof. intros H L a. specialize (H a). unfold range_right. cbn [low high]. destruct (component_dec a c) as [->|Na]; [rewrite set_same; lra|rewrite set_other by auto; exact H]. Qed.

  Lemma report_ok t : tree_ok t -> report (N:=RN) t = Ok (leaves t).
  Proof.
    induction t as [| |id c cut l IHl r IHr]; cbn [tree_ok report leaves]; [tauto|reflexivity|]. intros (_ & _ & _ & Ol & Or). specialize (IHl Ol). specialize (IHr Or).
    destruct l; [destruct Ol| |]; (destruct r; [destruct Or| |]); rewrite IHl, IHr; reflexivity.
  Qed.

  Lemma search_ok R : forall t r, tree_ok t -> (forall i, In i (leaves t) -> inside r (pos i)) ->
    search (N:=RN) pos t r R = Ok (List.filter (fun i => contains_point (N:=RN) R (pos i)) (leaves t)).
  Proof.
    induction t as [|id|id c cut l IHl rt IHr]; cbn [tree_ok search leaves]; intros r O In_; [tauto|reflexivity|]. destruct O as (_ & Bl & Br & Ol & Or).
    assert (Il : forall i, In i (leaves l) -> inside (range_left (N:=RN) r c cut) (pos i)) by (intros i Hi; apply inside_left; [apply In_, in_or_app; now left|now apply Bl]).
    assert (Ir : forall i, In i (leaves rt) -> inside (range_right (N:=RN) r c cut) (pos i)) by (intros i Hi; apply inside_right; [apply In_, in_or_app; now right|now apply Br]).
    rewrite List.filter_app.
    assert (Side : forall t' r', tree_ok t' -> (forall i, In i (leaves t') -> inside r' (pos i)) -> search (N:=RN) pos t' r' R = Ok (List.filter (fun i => contains_point (N:=RN) R (pos i)) (leaves t')) ->
      (if contains_range (N:=RN) R r' then report (N:=RN) t' else if intersects_along (N:=RN) R r' c then search (N:=RN) pos t' r' R else Ok []) = Ok (List.filter (fun i => contains_point (N:=RN) R (pos i)) (leaves t'))).
    { intros t' r' O' I' E. destruct (contains_range R r') eqn:C1.
      - rewrite (report_ok t' O'). f_equal. symmetry. apply filter_all. intros i Hi. apply contains_spec. eapply contains_range_spec; eauto.
      - destruct (intersects_along R r' c) eqn:C2; [exact E|]. f_equal. symmetry. apply filter_none. intros i Hi. apply Bool.not_true_iff_false. rewrite contains_spec. eapply intersects_spec; eauto. }
    rewrite (Side l _ Ol Il (IHl _ Ol Il)). cbn [bind]. rewrite (Side rt _ Or Ir (IHr _ Or Ir)). reflexivity.
  Qed.

  (** Squared distances *)
  Notation d2 := (distance_squared (N:=RN) pos).
  Lemma d2_eq i q : d2 i q = (coord CompX i - get (N:=RN) q CompX) * (coord CompX i - get (N:=RN) q CompX) + (coord CompY i - get (N:=RN) q CompY) * (coord CompY i - get (N:=RN) q CompY)
    + (coord CompZ i - get (N:=RN) q CompZ) * (coord CompZ i - get (N:=RN) q CompZ).
  Proof. reflexivity. Qed.
  Lemma d2_nonneg i q : 0 <= d2 i q.
  Proof. rewrite d2_eq. generalize (coord CompX i - get (N:=RN) q CompX) (coord CompY i - get (N:=RN) q CompY) (coord CompZ i - get (N:=RN) q CompZ). intros x y z. nra. Qed.
  Lemma d2_coord i q c : (coord c i - get (N:=RN) q c) * (coord c i - get (N:=RN) q c) <= d2 i q.
  Proof. rewrite d2_eq. destruct c; generalize (coord CompX i - get (N:=RN) q CompX) (coord CompY i - get (N:=RN) q CompY) (coord CompZ i - get (N:=RN) q CompZ); intros x y z; nra. Qed.

  Lemma nn_ok q : forall t r, tree_ok t -> (forall i, In i (leaves t) -> inside r (pos i)) ->
    exists b, nn_search (N:=RN) pos t r q = Ok b /\ In b (leaves t) /\ forall i, In i (leaves t) -> d2 b q <= d2 i q.
  Proof.
    induction t as [|id|id c cut l IHl rt IHr]; cbn [tree_ok nn_search leaves]; intros r O In_; [tauto| |].
    - exists id. split; [reflexivity|]. split; [now left|]. intros i [->|[]]. lra.
    - destruct O as (Id & Bl & Br & Ol & Or).
      assert (Il : forall i, In i (leaves l) -> inside (range_left (N:=RN) r c cut) (pos i)) by (intros i Hi; apply inside_left; [apply In_, in_or_app; now left|now apply Bl]).
      assert (Ir : forall i, In i (leaves rt) -> inside (range_right (N:=RN) r c cut) (pos i)) by (intros i Hi; apply inside_right; [apply In_, in_or_app; now right|now apply Br]).
      destruct (IHl _ Ol Il) as (bl & El & Jl & Ml). destruct (IHr _ Or Ir) as (br & Er & Jr & Mr).
      (* points of a side whose range does not meet the box are farther away *)
      assert (Far : forall b r' i, intersects_along (N:=RN) r' (cube (N:=RN) q (sqr_root (n:=RN) (d2 b q))) c = false -> inside r' (pos i) -> d2 b q <= d2 i q).
      { intros b r' i E H. pose proof (d2_nonneg b q) as Nb. pose proof (d2_coord i q c) as Dc. specialize (H c). unfold intersects_along in E. apply Bool.andb_false_iff in E. rewrite !Bool.negb_false_iff in E.
        assert (Sq : sqr_root (n:=RN) (d2 b q) = sqrt (d2 b q)) by reflexivity. rewrite Sq in E. pose proof (sqrt_pos (d2 b q)) as Sp. pose proof (sqrt_sqrt (d2 b q) Nb) as Ss.
        set (s := sqrt (d2 b q)) in *. assert (Gl : get (N:=RN) (low (cube (N:=RN) q s)) c = get (N:=RN) q c - s) by (destruct c; reflexivity). assert (Gh : get (N:=RN) (high (cube (N:=RN) q s)) c = get (N:=RN) q c + s) by (destruct c; reflexivity).
        rewrite Gl, Gh in E. change (coord c i) with (get (N:=RN) (pos i) c) in Dc. set (x := get (N:=RN) (pos i) c) in *. set (y := get (N:=RN) q c) in *. destruct E as [E|E]; apply Rltb_true in E; nra. }
      (* the best of a side, the node's own point and the other side *)
      assert (Best : forall b0 l0 l1 other outcome_new, (forall i, In i l0 -> d2 b0 q <= d2 i q) -> In b0 l0 ->
        (forall i, In i l0 -> In i (leaves l ++ leaves rt)) -> (forall i, In i l1 -> In i (leaves l ++ leaves rt)) -> (forall i, In i (leaves l ++ leaves rt) -> In i l0 \/ In i l1) ->
        In other l1 -> (forall i, In i l1 -> d2 other q <= d2 i q) ->
        let b1 := if ltb (n:=RN) (d2 id q) (d2 b0 q) then id else b0 in
        (outcome_new = Ok other \/ (outcome_new = Ok b1 /\ forall i, In i l1 -> d2 b1 q <= d2 i q)) ->
        exists b, (let? new := outcome_new in Ok (if ltb (n:=RN) (d2 new q) (d2 b1 q) then new else b1)) = Ok b /\ In b (leaves l ++ leaves rt) /\ forall i, In i (leaves l ++ leaves rt) -> d2 b q <= d2 i q).
      { intros b0 l0 l1 other new M0 J0 S0 S1 Cov J1 M1 b1 Hn.
        assert (B1 : In b1 (leaves l ++ leaves rt) /\ d2 b1 q <= d2 b0 q).
        { unfold b1. destruct (ltb (n:=RN) (d2 id q) (d2 b0 q)) eqn:Q; [apply Rltb_true in Q; split; [exact Id|lra]|split; [now apply S0|lra]]. }
        destruct B1 as (B1 & L1). destruct Hn as [->|(-> & F)]; cbn [bind].
        - destruct (ltb (n:=RN) (d2 other q) (d2 b1 q)) eqn:Q.
          + apply Rltb_true in Q. exists other. split; [reflexivity|]. split; [now apply S1|]. intros i Hi. destruct (Cov i Hi) as [H|H]; [specialize (M0 i H); lra|now apply M1].
          + apply Rltb_false in Q. exists b1. split; [reflexivity|]. split; [exact B1|]. intros i Hi. destruct (Cov i Hi) as [H|H]; [specialize (M0 i H)|specialize (M1 i H)]; lra.
        - exists b1. split; [destruct (ltb (n:=RN) (d2 b1 q) (d2 b1 q)); reflexivity|]. split; [exact B1|]. intros i Hi. destruct (Cov i Hi) as [H|H]; [specialize (M0 i H); lra|now apply F]. }
      destruct (contains_along (range_left r c cut) q c).
      + rewrite El. cbn [bind]. eapply (Best bl (leaves l) (leaves rt) br _ Ml Jl); auto.
        * intros i Hi. apply in_or_app. now left.
        * intros i Hi. apply in_or_app. now right.
        * intros i Hi. now apply in_app_or.
        * destruct (intersects_along (range_right r c cut) _ c) eqn:X; [left; exact Er|right; split; [reflexivity|]]. intros i Hi. apply (Far _ _ i X). now apply Ir.
      + rewrite Er. cbn [bind]. eapply (Best br (leaves rt) (leaves l) bl _ Mr Jr); auto.
        * intros i Hi. apply in_or_app. now right.
        * intros i Hi. apply in_or_app. now left.
        * intros i Hi. apply in_app_or in Hi. tauto.
        * destruct (intersects_along (range_left r c cut) _ c) eqn:X; [left; exact El|right; split; [reflexivity|]]. intros i Hi. apply (Far _ _ i X). now apply Il.
  Qed.
End Trees.
