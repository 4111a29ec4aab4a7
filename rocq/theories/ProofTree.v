(** * The search tree: construction *)
From Coq Require Import Reals Lra Lia Psatz Sorting.Sorted Permutation.
From Verif Require Import Base Num ModelScalar ModelTree SpecGeom SpecTree.

(** ** Lists *)
Lemma upd_app {A} (l : list A) x r y : upd (l ++ x :: r) (length l) y = Some (l ++ y :: r).
Proof. induction l as [|z l IH]; cbn; [reflexivity|]. now rewrite IH. Qed.

Lemma upd_ub_app {A} (l : list A) x r y : upd_ub (l ++ x :: r) (length l) y = Ok (l ++ y :: r).
Proof. unfold upd_ub. now rewrite upd_app. Qed.

Lemma filter_length_perm {A} (f : A -> bool) l l' : Permutation l l' -> Permutation (List.filter f l) (List.filter f l').
Proof. induction 1; cbn; auto; repeat match goal with |- context [if ?b then _ else _] => destruct b end; eauto using Permutation, perm_swap. Qed.

Lemma filter_split_length {A} (f : A -> bool) l : length (List.filter f l) + length (List.filter (fun x => negb (f x)) l) = length l.
Proof. induction l as [|x l IH]; cbn; [reflexivity|]. destruct (f x); cbn; lia. Qed.

Lemma filter_none {A} (f : A -> bool) l : (forall x, In x l -> f x = false) -> List.filter f l = [].
Proof. induction l as [|x l IH]; intros H; cbn; [reflexivity|]. rewrite (H x) by now left. apply IH. intros; apply H; now right. Qed.
Lemma filter_all {A} (f : A -> bool) l : (forall x, In x l -> f x = true) -> List.filter f l = l.
Proof. induction l as [|x l IH]; intros H; cbn; [reflexivity|]. rewrite (H x) by now left. f_equal. apply IH. intros; apply H; now right. Qed.

Lemma sorted_filter {A} (R : A -> A -> Prop) f l : StronglySorted R l -> StronglySorted R (List.filter f l).
Proof.
  induction 1 as [|x l S IH F]; cbn; [constructor|]. destruct (f x); [|exact IH]. constructor; [exact IH|].
  rewrite Forall_forall in *. intros y Hy. apply filter_In in Hy. now apply F.
Qed.

Section Distribute.
  Context {N : Num}.
  Variable pos : nat -> V3 N.
  Lemma distribute_ok c cut k l : length (List.filter (fun i => ltb (coordinate pos c i) cut) l) = k ->
    distribute pos c cut k l = Ok (List.filter (fun i => ltb (coordinate pos c i) cut) l ++ List.filter (fun i => negb (ltb (coordinate pos c i) cut)) l).
  Proof.
    set (f := fun i => ltb (coordinate pos c i) cut). set (g := fun i => negb (ltb (coordinate pos c i) cut)). intros K. unfold distribute.
    assert (G : forall rest L1 R1, length L1 + length (List.filter f rest) = k ->
      foldM (fun (s : nat * nat * list (option nat)) i =>
                let '(i_left, i_right, a) := s in
                if ltb (coordinate pos c i) cut
                then let? a' := upd_ub a i_left (Some i) in Ok (S i_left, i_right, a')
                else let? a' := upd_ub a i_right (Some i) in Ok (i_left, S i_right, a'))
        (length L1, k + length R1, map Some L1 ++ repeat None (length (List.filter f rest)) ++ map Some R1 ++ repeat None (length (List.filter g rest))) rest
      = Ok (length L1 + length (List.filter f rest), k + length R1 + length (List.filter g rest), map Some (L1 ++ List.filter f rest) ++ map Some (R1 ++ List.filter g rest))).
    { induction rest as [|i rest IH]; intros L1 R1 E.
      - cbn. rewrite !app_nil_r, !Nat.add_0_r. reflexivity.
      - cbn [foldM List.filter]. cbn [List.filter] in E. change (g i) with (negb (f i)). change (ltb (coordinate pos c i) cut) with (f i). destruct (f i) eqn:B; cbn [negb].
        + cbn [length repeat app]. cbn [length] in E. match goal with |- context [upd_ub (_ ++ None :: ?r) _ _] => pose proof (upd_ub_app (map Some L1) None r (Some i)) as U end. rewrite map_length in U. rewrite U. cbn [bind].
          specialize (IH (L1 ++ [i]) R1). rewrite app_length in IH. cbn [length] in IH. specialize (IH ltac:(lia)).
          rewrite map_app, <- app_assoc in IH. cbn [map app] in IH. rewrite Nat.add_1_r in IH. rewrite IH. f_equal. f_equal; [f_equal; lia|].
          rewrite <- app_assoc. reflexivity.
        + cbn [length repeat app].
          set (A1 := map Some L1 ++ repeat None (length (List.filter f rest)) ++ map Some R1).
          assert (La : length A1 = k + length R1) by (unfold A1; rewrite !app_length, !map_length, repeat_length; lia).
          replace (map Some L1 ++ repeat None (length (List.filter f rest)) ++ map Some R1 ++ None :: repeat None (length (List.filter g rest))) with (A1 ++ None :: repeat None (length (List.filter g rest))) by (unfold A1; rewrite <- !app_assoc; reflexivity).
          pose proof (upd_ub_app A1 None (repeat None (length (List.filter g rest))) (Some i)) as U. rewrite La in U. rewrite U. cbn [bind]. specialize (IH L1 (R1 ++ [i]) E). rewrite app_length in IH. cbn [length] in IH.
          replace (A1 ++ Some i :: repeat None (length (List.filter g rest))) with (map Some L1 ++ repeat None (length (List.filter f rest)) ++ map Some (R1 ++ [i]) ++ repeat None (length (List.filter g rest))) by (unfold A1; rewrite map_app, <- !app_assoc; reflexivity).
          replace (S (k + length R1)) with (k + (length R1 + 1)) by lia. rewrite IH. f_equal. f_equal; [f_equal; lia|]. rewrite <- app_assoc. reflexivity. }
    specialize (G l [] []). cbn [length app map] in G. rewrite Nat.add_0_r in G. specialize (G K).
    assert (Rp : repeat (None : option nat) (length l) = repeat None (length (List.filter f l)) ++ repeat None (length (List.filter g l))) by (rewrite <- repeat_app; f_equal; symmetry; apply filter_split_length).
    rewrite Rp, G. cbn [bind snd]. rewrite <- map_app. set (r := List.filter f l ++ List.filter g l). clearbody r. clear. induction r as [|x r IH]; cbn; [reflexivity|]. now rewrite IH.
  Qed.
End Distribute.

Local Open Scope R_scope.
Section Build.
  Variable pos : nat -> point.
  Notation coord := (coordinate (N:=RN) pos).

  Definition ordered (c : component) (l : list nat) : Prop := StronglySorted (fun i j => coord c i <= coord c j) l.
  Definition part_ok (p : part) : Prop := forall a, ordered a (p a) /\ Permutation (p a) (p CompX).

  Definition below (c : component) (cut : R) (i : nat) : bool := ltb (n:=RN) (coord c i) cut.
  Arguments below : simpl never.
  Lemma below_true c cut i : below c cut i = true <-> coord c i < cut. Proof. apply Rltb_true. Qed.
  Lemma below_false c cut i : below c cut i = false <-> cut <= coord c i. Proof. unfold below. change (Rltb (coord c i) cut = false <-> cut <= coord c i). rewrite Rltb_false. lra. Qed.

  (** In an ordered list the points below a value come first. *)
  Lemma ordered_split c l v : ordered c l -> l = List.filter (below c v) l ++ List.filter (fun i => negb (below c v i)) l.
  Proof.
    induction 1 as [|x l S IH F]; cbn; [reflexivity|]. destruct (below c v x) eqn:B; cbn; [f_equal; exact IH|].
    rewrite filter_none; [cbn; f_equal; symmetry; apply filter_all|]; intros y Hy; rewrite Forall_forall in F; specialize (F y Hy); apply below_false in B; rewrite ?Bool.negb_true_iff; apply below_false; lra.
  Qed.

  Lemma lower_bound_ok c l v : ordered c l -> lower_bound (N:=RN) pos c l v = length (List.filter (below c v) l).
  Proof.
    induction 1 as [|x l S IH F]; [reflexivity|]. cbn [lower_bound List.filter]. change (ltb (coordinate pos c x) v) with (below c v x). destruct (below c v x) eqn:B; [cbn; now rewrite IH|].
    rewrite filter_none; [reflexivity|]. intros y Hy; rewrite Forall_forall in F; specialize (F y Hy); apply below_false in B; apply below_false; lra.
  Qed.

  Lemma ordered_ends c l i : ordered c l -> In i l -> exists a b, first_id l = Ok a /\ last_id l = Ok b /\ In a l /\ In b l /\ coord c a <= coord c i <= coord c b.
  Proof.
    intros O I. destruct l as [|a l]; [destruct I|]. exists a. destruct (exists_last (l:=a :: l) ltac:(discriminate)) as (l0 & b & E). exists b. split; [reflexivity|].
    split. { unfold last_id, at_ub. rewrite E, app_length. cbn [length]. rewrite Nat.add_sub, nth_error_app2, Nat.sub_diag by lia. reflexivity. }
    split; [now left|]. split; [rewrite E; apply in_or_app; right; now left|]. split.
    - inversion O as [|? ? S F]; subst. destruct I as [->|I]; [lra|]. rewrite Forall_forall in F. now apply F.
    - rewrite E in O, I. clear E. induction l0 as [|x l0 IH]; [destruct I as [->|[]]; lra|]. cbn in O, I. inversion O as [|? ? S F]; subst. destruct I as [->|I]; [|now apply IH].
      rewrite Forall_forall in F. apply F. apply in_or_app. right. now left.
  Qed.

  Lemma extent_ok (p : part) c : ordered c (p c) -> p c <> [] -> exists a b, first_id (p c) = Ok a /\ last_id (p c) = Ok b /\ In a (p c) /\ In b (p c) /\ coord c a <= coord c b /\
    extent (N:=RN) pos p c = Ok (coord c b - coord c a) /\ (forall i, In i (p c) -> coord c a <= coord c i <= coord c b).
  Proof.
    intros O Ne. destruct (p c) as [|x l] eqn:E; [congruence|]. destruct (ordered_ends c (x :: l) x O (or_introl eq_refl)) as (a & b & Fa & Lb & Ia & Ib & H).
    exists a, b. split; [exact Fa|]. split; [exact Lb|]. split; [exact Ia|]. split; [exact Ib|]. split; [lra|]. split.
    - unfold extent. rewrite E, Fa, Lb. cbn [bind]. f_equal. destruct (ltb (n:=RN) _ _) eqn:Q; [|reflexivity]. apply Rltb_true in Q. to_R. cbn in Q. lra.
    - intros i I. destruct (ordered_ends c (x :: l) i O I) as (a' & b' & Fa' & Lb' & _ & _ & H'). assert (a' = a) by congruence. assert (b' = b) by congruence. subst. exact H'.
  Qed.

  Lemma point_eq (p q : point) : (forall c, get (N:=RN) p c = get (N:=RN) q c) -> p = q.
  Proof. intros H. apply v3_ext; [apply (H CompX)|apply (H CompY)|apply (H CompZ)]. Qed.

  Lemma spanning_ok p : part_ok p -> p CompX <> [] -> exists c a b, spanning_axis (N:=RN) pos p = Ok (c, coord c a + (coord c b - coord c a) / 2) /\
    first_id (p c) = Ok a /\ last_id (p c) = Ok b /\ In a (p c) /\ In b (p c) /\ (forall i, In i (p c) -> coord c a <= coord c i <= coord c b) /\
    (coord c b - coord c a <= 0 -> forall i j, In i (p CompX) -> In j (p CompX) -> pos i = pos j).
  Proof.
    intros P Ne. assert (Nn : forall a, p a <> []). { intros a E. destruct (P a) as (_ & Q). rewrite E in Q. apply Permutation_nil in Q. congruence. }
    destruct (extent_ok p CompX (proj1 (P CompX)) (Nn CompX)) as (ax & bx & Fx & Lx & Iax & Ibx & Dx & Ex & Rx).
    destruct (extent_ok p CompY (proj1 (P CompY)) (Nn CompY)) as (ay & by' & Fy & Ly & Iay & Iby & Dy & Ey & Ry).
    destruct (extent_ok p CompZ (proj1 (P CompZ)) (Nn CompZ)) as (az & bz & Fz & Lz & Iaz & Ibz & Dz & Ez & Rz).
    assert (Same : coord CompX bx - coord CompX ax <= 0 -> coord CompY by' - coord CompY ay <= 0 -> coord CompZ bz - coord CompZ az <= 0 -> forall i j, In i (p CompX) -> In j (p CompX) -> pos i = pos j).
    { intros Hx Hy Hz i j Ii Ij. apply point_eq. intros c. pose proof (Permutation_in _ (Permutation_sym (proj2 (P c))) Ii) as Ii'. pose proof (Permutation_in _ (Permutation_sym (proj2 (P c))) Ij) as Ij'.
      change (coord c i = coord c j). destruct c; [pose proof (Rx i Ii'); pose proof (Rx j Ij')|pose proof (Ry i Ii'); pose proof (Ry j Ij')|pose proof (Rz i Ii'); pose proof (Rz j Ij')]; lra. }
    unfold spanning_axis. rewrite Ex, Ey, Ez. cbn [bind].
    destruct (ltb (n:=RN) (coord CompX bx - coord CompX ax) (coord CompY by' - coord CompY ay)) eqn:B1; cbv beta iota.
    - apply Rltb_true in B1. destruct (ltb (n:=RN) (coord CompY by' - coord CompY ay) (coord CompZ bz - coord CompZ az)) eqn:B2; cbv beta iota.
      + apply Rltb_true in B2. exists CompZ, az, bz. rewrite Fz. cbn [bind]. repeat (split; [first [reflexivity|assumption]|]). intros; apply Same; auto; lra.
      + apply Rltb_false in B2. exists CompY, ay, by'. rewrite Fy. cbn [bind]. repeat (split; [first [reflexivity|assumption]|]). intros; apply Same; auto; lra.
    - apply Rltb_false in B1. destruct (ltb (n:=RN) (coord CompX bx - coord CompX ax) (coord CompZ bz - coord CompZ az)) eqn:B2; cbv beta iota.
      + apply Rltb_true in B2. exists CompZ, az, bz. rewrite Fz. cbn [bind]. repeat (split; [first [reflexivity|assumption]|]). intros; apply Same; auto; lra.
      + apply Rltb_false in B2. exists CompX, ax, bx. rewrite Fx. cbn [bind]. repeat (split; [first [reflexivity|assumption]|]). intros; apply Same; auto; lra.
  Qed.

  Lemma removelast_last {A} (l : list A) b : l <> [] -> nth_error l (length l - 1) = Some b -> l = removelast l ++ [b].
  Proof.
    intros Ne E. destruct (exists_last Ne) as (l0 & x & ->). rewrite removelast_last. rewrite app_length in E. cbn [length] in E. rewrite Nat.add_sub, nth_error_app2, Nat.sub_diag in E by lia. cbn in E. congruence.
  Qed.

  Lemma sorted_app_l {A} (Q : A -> A -> Prop) l l' : StronglySorted Q (l ++ l') -> StronglySorted Q l.
  Proof. induction l as [|x l IH]; intros H; [constructor|]. inversion H as [|? ? S F]; subst. constructor; [now apply IH|]. rewrite Forall_forall in *. intros y Hy. apply F, in_or_app. now left. Qed.

  Lemma median_ok c l a b : ordered c l -> first_id l = Ok a -> last_id l = Ok b -> coord c a <= coord c b ->
    let v := coord c a + (coord c b - coord c a) / 2 in
    median_offset (N:=RN) pos c l = Ok (length (List.filter (below c v) l)) /\ (length (List.filter (below c v) l) < length l)%nat.
  Proof.
    intros O Fa Lb Le v. assert (Ne : l <> []) by (intros ->; discriminate).
    assert (El : l = removelast l ++ [b]). { apply removelast_last; [exact Ne|]. unfold last_id, at_ub in Lb. destruct (nth_error _ _); [congruence|discriminate]. }
    assert (Bf : below c v b = false) by (apply below_false; unfold v; lra).
    assert (Ef : List.filter (below c v) l = List.filter (below c v) (removelast l)). { rewrite El at 1. rewrite List.filter_app. cbn. rewrite Bf. apply app_nil_r. }
    assert (Or : ordered c (removelast l)) by (unfold ordered in *; rewrite El in O; now apply sorted_app_l in O).
    assert (Lt : (length (List.filter (below c v) l) < length l)%nat).
    { rewrite Ef. rewrite El at 2. rewrite app_length. cbn. pose proof (filter_split_length (below c v) (removelast l)). lia. }
    split; [|exact Lt]. unfold median_offset. rewrite Fa, Lb. cbn [bind]. change (add (coordinate pos c a) _) with v. rewrite (lower_bound_ok c _ v Or), <- Ef.
    set (k := length (List.filter (below c v) l)) in *. destruct k as [|j] eqn:K; [reflexivity|].
    assert (Sp : at_ub l j = Ok (nth j (List.filter (below c v) l) 0%nat)).
    { unfold at_ub. rewrite (ordered_split c l v O) at 1. rewrite nth_error_app1 by (fold k; rewrite K; lia). rewrite (nth_error_nth' _ 0%nat) by (fold k; rewrite K; lia). reflexivity. }
    rewrite Sp. cbn [bind]. assert (Hb : below c v (nth j (List.filter (below c v) l) 0%nat) = true).
    { assert (I : In (nth j (List.filter (below c v) l) 0%nat) (List.filter (below c v) l)) by (apply nth_In; fold k; rewrite K; lia). apply filter_In in I. tauto. }
    match goal with |- context [ltb ?x ?y] => change (ltb x y) with (below c v (nth j (List.filter (below c v) l) 0%nat)) end. rewrite Hb. reflexivity.
  Qed.

  Lemma find_median_ok p : part_ok p -> p CompX <> [] -> exists m, find_median (N:=RN) pos p = Ok m /\
    let f := below (m_axis m) (m_cut m) in
    m_left m = length (List.filter f (p CompX)) /\ (m_left m < length (p CompX))%nat /\ In (m_id m) (p CompX) /\
    (forall a, firstn (m_left m) (m_part m a) = List.filter f (p a) /\ skipn (m_left m) (m_part m a) = List.filter (fun i => negb (f i)) (p a)) /\
    (m_left m = 0%nat -> forall i j, In i (p CompX) -> In j (p CompX) -> pos i = pos j).
  Proof.
    intros P Ne. destruct (spanning_ok p P Ne) as (c & a & b & Es & Fa & Lb & Ia & Ib & Rg & Same). unfold find_median. rewrite Es. cbn [bind]. set (v := coord c a + (coord c b - coord c a) / 2) in *.
    destruct (median_ok c (p c) a b (proj1 (P c)) Fa Lb (proj1 (Rg b Ib))) as (Em & Lt). fold v in Em, Lt. rewrite Em. cbn [bind]. set (k := length (List.filter (below c v) (p c))) in *.
    assert (K : forall x, length (List.filter (below c v) (p x)) = k).
    { intros x. unfold k. apply Permutation_length, filter_length_perm. eapply Permutation_trans; [apply (P x)|apply Permutation_sym, (P c)]. }
    rewrite (distribute_ok (N:=RN) pos c v k (p (next_component c)) (K _)). cbn [bind]. rewrite (distribute_ok (N:=RN) pos c v k (p (next_component (next_component c))) (K _)). cbn [bind].
    assert (At : exists id, at_ub (p c) k = Ok id /\ In id (p c)).
    { unfold at_ub. destruct (nth_error (p c) k) as [id|] eqn:E; [exists id; split; [reflexivity|now apply nth_error_In in E]|]. apply nth_error_None in E. lia. }
    destruct At as (id & At & Iid). rewrite At. cbn [bind]. eexists. split; [reflexivity|]. cbn [m_axis m_cut m_left m_id m_part]. cbv zeta.
    split; [symmetry; apply K|]. split; [rewrite <- (Permutation_length (proj2 (P c))); exact Lt|]. split; [apply (Permutation_in _ (proj2 (P c))), Iid|]. split.
    - intros x. assert (E : (if same_component x c then p c else if same_component x (next_component c) then List.filter (below c v) (p (next_component c)) ++ List.filter (fun i => negb (below c v i)) (p (next_component c))
        else List.filter (below c v) (p (next_component (next_component c))) ++ List.filter (fun i => negb (below c v i)) (p (next_component (next_component c)))) = List.filter (below c v) (p x) ++ List.filter (fun i => negb (below c v i)) (p x)).
      { pose proof (ordered_split c (p c) v (proj1 (P c))) as Sp. destruct x, c; cbn [same_component next_component]; solve [reflexivity|exact Sp]. }
      split; etransitivity.
      + apply f_equal. exact E.
      + rewrite <- (K x), firstn_app, Nat.sub_diag, firstn_all. cbn. apply app_nil_r.
      + apply f_equal. exact E.
      + rewrite <- (K x), skipn_app, Nat.sub_diag, skipn_all. reflexivity.
    - intros K0. apply Same. destruct (Rle_or_lt (coord c b - coord c a) 0) as [|Pos]; [assumption|exfalso].
      assert (I : In a (List.filter (below c v) (p c))) by (apply filter_In; split; [exact Ia|apply below_true; unfold v; lra]).
      fold k in K0. unfold k in K0. destruct (List.filter (below c v) (p c)); [destruct I|discriminate].
  Qed.
End Build.
