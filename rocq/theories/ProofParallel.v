(** * Lemmas for C25: frame, messages, Zoltan's search tree *)
From Coq Require Import Reals Lra Lia Psatz Sorting.Sorted Permutation FunctionalExtensionality.
From Verif Require Import Base Num ModelScalar ModelTree ModelFilter ModelParallel SpecGeom SpecTree SpecParallel ProofTree ProofTree2.
Local Open Scope R_scope.

(** ** Cuts *)
Lemma region_rank t r x : region t r x -> In r (ranks t).
Proof. induction t as [k|c v a IHa b IHb]; cbn; [auto|]. intros [(_ & H)|(_ & H)]; apply in_or_app; auto. Qed.

Definition separates (t : cutting) (r r' : nat) (c : component) (v : R) : Prop :=
  forall x y, region t r x -> region t r' y -> along c x <= v <= along c y.
Lemma nodup_app {A} (l m : list A) : NoDup (l ++ m) -> NoDup l /\ NoDup m /\ forall x, In x l -> In x m -> False.
Proof.
  induction l as [|a l IH]; cbn; intros H; [repeat split; [constructor|exact H|tauto]|]. inversion H as [|? ? N D]; subst. destruct (IH D) as (A1 & A2 & A3).
  split; [constructor; [intros I; apply N, in_or_app; auto|exact A1]|]. split; [exact A2|]. intros x [<-|I] J; [apply N, in_or_app; auto|eauto].
Qed.
Lemma separated t r r' : NoDup (ranks t) -> r <> r' -> exists c v, separates t r r' c v \/ separates t r' r c v.
Proof.
  induction t as [k|c v a IHa b IHb]; cbn [ranks]; intros D Ne.
  - exists CompX, 0. left. intros x y Hx Hy. cbn in Hx, Hy. congruence.
  - apply nodup_app in D as (Da & Db & Dab).
    destruct (in_dec Nat.eq_dec r (ranks a)) as [Ia|Na]; destruct (in_dec Nat.eq_dec r' (ranks a)) as [Ia'|Na'].
    + destruct (IHa Da Ne) as (c' & v' & H). exists c', v'.
      destruct H as [H|H]; [left|right]; intros x y [(_ & Hx)|(_ & Hx)] [(_ & Hy)|(_ & Hy)]; try (now apply H); exfalso; first [apply region_rank in Hx; now apply (Dab _ Ia Hx)|apply region_rank in Hx; now apply (Dab _ Ia' Hx)|apply region_rank in Hy; now apply (Dab _ Ia' Hy)|apply region_rank in Hy; now apply (Dab _ Ia Hy)].
    + exists c, v. left. intros x y [(Lx & Hx)|(_ & Hx)] [(_ & Hy)|(Ly & Hy)]; try (exfalso; apply region_rank in Hx; now apply (Dab _ Ia Hx)); try (exfalso; apply region_rank in Hy; tauto). lra.
    + exists c, v. right. intros x y [(Lx & Hx)|(_ & Hx)] [(_ & Hy)|(Ly & Hy)]; try (exfalso; apply region_rank in Hx; now apply (Dab _ Ia' Hx)); try (exfalso; apply region_rank in Hy; tauto). lra.
    + destruct (IHb Db Ne) as (c' & v' & H). exists c', v'.
      destruct H as [H|H]; [left|right]; intros x y [(_ & Hx)|(_ & Hx)] [(_ & Hy)|(_ & Hy)]; try (now apply H); exfalso; apply region_rank in Hx || apply region_rank in Hy; try tauto; apply region_rank in Hy; tauto.
Qed.

(** ** The frame *)
Section Frame.
  Variable p : processor RN.
  Hypothesis sorted : sorted_order (at_x p) (owned p) (by_axis p).
  Hypothesis some : (0 < owned p)%nat.
  Notation co := (coordinate (N:=RN) (at_x p)).

  Lemma axis_in c i : In i (by_axis p c) <-> (i < owned p)%nat.
  Proof. destruct (sorted c) as (P & _). split; intros H; [apply (Permutation_in _ P), in_seq in H; lia|apply (Permutation_in _ (Permutation_sym P)), in_seq; lia]. Qed.

  Lemma upper_split c l v : ordered (at_x p) c l ->
    (forall i, In i (firstn (upper_bound (N:=RN) (at_x p) c l v) l) <-> In i l /\ co c i <= v) /\
    (forall i, In i (skipn (upper_bound (N:=RN) (at_x p) c l v) l) <-> In i l /\ v < co c i).
  Proof.
    induction 1 as [|x l S (IH1 & IH2) F]; [cbn; split; tauto|]. rewrite Forall_forall in F. cbn [upper_bound]. destruct (ltb (n:=RN) v (co c x)) eqn:B.
    - apply Rltb_true in B. cbn [firstn skipn]. split; intros i.
      + split; [intros []|]. intros ([<-|I] & L); [lra|]. specialize (F i I). lra.
      + split; [|tauto]. intros I. split; [exact I|]. destruct I as [<-|I]; [lra|]. specialize (F i I). lra.
    - apply Rltb_false in B. cbn [firstn skipn]. split; intros i.
      + split; [intros [<-|I]; [split; [now left|lra]|]; apply IH1 in I; split; [now right|tauto]|].
        intros ([<-|I] & L); [now left|right; apply IH1; auto].
      + rewrite IH2. split; [intros (I & L); split; [now right|exact L]|]. intros ([<-|I] & L); [lra|auto].
  Qed.

  Lemma frame_along_ok h c : exists f, frame_along (N:=RN) p h c = Ok f /\ (forall i, In i f <-> (i < owned p)%nat /\
    ((forall k, (k < owned p)%nat -> co c i <= co c k + h) \/ (forall k, (k < owned p)%nat -> co c k - h < co c i))).
  Proof.
    destruct (sorted c) as (P & S). assert (I0 : In 0%nat (by_axis p c)) by (apply axis_in; exact some).
    destruct (ordered_ends (at_x p) c _ 0%nat S I0) as (a & b & Fa & Lb & Ia & Ib & _). unfold frame_along. rewrite Fa, Lb. cbn [bind]. eexists. split; [reflexivity|].
    assert (Ends : forall k, (k < owned p)%nat -> co c a <= co c k <= co c b).
    { intros k Hk. apply (axis_in c) in Hk. destruct (ordered_ends (at_x p) c _ k S Hk) as (a' & b' & Fa' & Lb' & _ & _ & H). assert (a' = a) by congruence. assert (b' = b) by congruence. subst. exact H. }
    intros i. rewrite in_app_iff. match goal with |- In _ (firstn (upper_bound _ _ _ ?v) _) \/ In _ (skipn (upper_bound _ _ _ ?w) _) <-> _ => destruct (upper_split c (by_axis p c) v S) as (H1 & _); destruct (upper_split c (by_axis p c) w S) as (_ & H2) end.
    rewrite H1, H2, axis_in. apply axis_in in Ia, Ib. split.
    - intros [(Hi & L)|(Hi & L)]; (split; [exact Hi|]); [left|right]; intros k Hk; specialize (Ends k Hk); to_R; change (add (n:=RN)) with Rplus in L || change (sub (n:=RN)) with Rminus in L; lra.
    - intros (Hi & [H|H]); [left|right]; (split; [exact Hi|]); [exact (H a Ia)|exact (H b Ib)].
  Qed.

  Lemma frame_ok h : exists f, frame_set (N:=RN) p h = Ok f /\ NoDup f /\ (forall i, In i f <-> (i < owned p)%nat /\
    exists c, (forall k, (k < owned p)%nat -> co c i <= co c k + h) \/ (forall k, (k < owned p)%nat -> co c k - h < co c i)).
  Proof.
    destruct (frame_along_ok h CompX) as (fx & Ex & Hx). destruct (frame_along_ok h CompY) as (fy & Ey & Hy). destruct (frame_along_ok h CompZ) as (fz & Ez & Hz).
    unfold frame_set. rewrite Ex, Ey, Ez. cbn [bind]. eexists. split; [reflexivity|]. split; [apply NoDup_filter, seq_NoDup|].
    intros i. rewrite filter_In, in_seq, existsb_exists. split.
    - intros (L & (j & J & E)). apply Nat.eqb_eq in E. subst j. split; [lia|]. rewrite !in_app_iff, Hx, Hy, Hz in J.
      destruct J as [(_ & J)|[(_ & J)|(_ & J)]]; [exists CompX|exists CompY|exists CompZ]; exact J.
    - intros (L & (c & J)). split; [lia|]. exists i. rewrite Nat.eqb_refl. split; [|reflexivity]. rewrite !in_app_iff, Hx, Hy, Hz.
      destruct c; [left|right; left|right; right]; (split; [exact L|exact J]).
  Qed.
End Frame.

(** The largest horizon *)
Lemma max_horizon_ge (p : processor RN) i : (i < owned p)%nat -> horizon p i <= max_horizon p.
Proof.
  intros L. unfold max_horizon. assert (I : In i (seq 0 (owned p))) by (apply in_seq; lia). revert I. generalize (seq 0 (owned p)). intros l.
  assert (Mono : forall l (m : R), m <= fold_left (fun m i => if ltb (n:=RN) m (horizon p i) then horizon p i else m) l m).
  { clear. induction l as [|k l IH]; intros m; cbn [fold_left]; [apply Rle_refl|]. destruct (ltb (n:=RN) m (horizon p k)) eqn:B; [|apply IH]. apply Rltb_true in B. eapply Rle_trans; [apply Rlt_le; exact B|apply IH]. }
  generalize (ofZ (n:=RN) 0). induction l as [|k l IH]; intros m I; [destruct I|]. destruct I as [->|I]; [|cbn [fold_left]; now apply IH].
  cbn [fold_left]. destruct (ltb (n:=RN) m (horizon p i)) eqn:B; [exact (Mono l _)|]. apply Rltb_false in B. eapply Rle_trans; [|exact (Mono l _)]. exact B.
Qed.

(** ** Messages *)
Definition source := (nat * nat * processor RN)%type.
Definition note (s : source) : message RN := (gid (snd s) (snd (fst s)), at_x (snd s) (snd (fst s))).

Section Messages.
  Variable assign : range RN -> list nat.
  Variable n q : nat.
  Hypothesis once : forall b, NoDup (assign b).
  Hypothesis fits : forall b, (length (assign b) <= n)%nat.

  Lemma addressed_app (l m : list (nat * message RN)) : addressed (N:=RN) q (l ++ m) = addressed q l ++ addressed q m.
  Proof. unfold addressed. now rewrite filter_app, map_app. Qed.

  Lemma addressed_one (l : list nat) (m : message RN) r : NoDup l -> addressed (N:=RN) q (map (fun k => (k, m)) (List.filter (fun k => negb (Nat.eqb r k)) l)) =
    if (negb (Nat.eqb r q) && existsb (Nat.eqb q) l)%bool then [m] else [].
  Proof.
    intros D. induction D as [|k l Nk D IH]; [cbn; now rewrite Bool.andb_false_r|]. cbn [List.filter existsb].
    destruct (Nat.eqb_spec q k) as [<-|Nq].
    - destruct (Nat.eqb_spec r q) as [->|Nr]; cbn [negb andb orb map].
      + rewrite IH. cbn. reflexivity.
      + unfold addressed in *. cbn [map List.filter fst]. rewrite Nat.eqb_refl. cbn [map snd]. rewrite IH. cbn [andb].
        assert (E : existsb (Nat.eqb q) l = false) by (apply Bool.not_true_is_false; intros T; apply existsb_exists in T as (y & Y & E); apply Nat.eqb_eq in E; subst; tauto). rewrite E. reflexivity.
    - cbn [orb]. destruct (Nat.eqb r k); cbn [negb]; [exact IH|]. unfold addressed in *. cbn [map List.filter fst]. destruct (Nat.eqb_spec k q); [congruence|]. exact IH.
  Qed.

  Definition reaches (p : processor RN) (i : nat) : bool := existsb (Nat.eqb q) (assign (cube (N:=RN) (at_x p i) (horizon p i))).

  Lemma sends_ok r (p : processor RN) f : frame_set (N:=RN) p (max_horizon p) = Ok f ->
    exists s, sends (N:=RN) assign n r p = Ok s /\ addressed (N:=RN) q s = if Nat.eqb r q then [] else map note (map (fun i => (r, i, p)) (List.filter (reaches p) f)).
  Proof.
    intros F. unfold sends. rewrite F. cbn [bind]. clear F. assert (E : exists ms, mapO (fun i =>
      let to := assign (cube (N:=RN) (at_x p i) (horizon p i)) in
      if (n <? length to)%nat then UB
      else Ok (map (fun q => (q, (gid p i, at_x p i))) (List.filter (fun q => negb (Nat.eqb r q)) to))) f = Ok ms /\ addressed (N:=RN) q (concat ms) = if Nat.eqb r q then [] else map note (map (fun i => (r, i, p)) (List.filter (reaches p) f))).
    { induction f as [|i f (ms & E & A)]; [exists []; split; [reflexivity|]; now destruct (Nat.eqb r q)|]. cbn [mapO]. cbv zeta. pose proof (fits (cube (N:=RN) (at_x p i) (horizon p i))) as Le.
      destruct (Nat.ltb_spec n (length (assign (cube (N:=RN) (at_x p i) (horizon p i))))) as [L|_]; [lia|]. cbn [bind]. cbv zeta in E. rewrite E. cbn [bind]. eexists. split; [reflexivity|].
      cbn [concat]. rewrite addressed_app, A, addressed_one by apply once. cbn [List.filter]. unfold reaches at 2. destruct (Nat.eqb r q) eqn:Q; cbn [negb andb app]; [reflexivity|].
      destruct (existsb _ _); reflexivity. }
    destruct E as (ms & E & A). exists (concat ms). split; [|exact A]. match type of E with ?l = _ => match goal with |- bind ?e _ = _ => change e with l end end. rewrite E. reflexivity.
  Qed.

  Lemma all_sends_ok : forall ps r0, (forall p, In p ps -> sorted_order (at_x p) (owned p) (by_axis p) /\ (0 < owned p)%nat) ->
    exists s L, all_sends (N:=RN) assign n r0 ps = Ok s /\ addressed (N:=RN) q s = map note L /\ NoDup L /\
    (forall r i p, In (r, i, p) L <-> (r0 <= r)%nat /\ nth_error ps (r - r0) = Some p /\ r <> q /\ reaches p i = true /\ exists f, frame_set (N:=RN) p (max_horizon p) = Ok f /\ In i f).
  Proof.
    induction ps as [|p ps IH]; intros r0 H.
    - exists [], []. split; [reflexivity|]. split; [reflexivity|]. split; [constructor|]. intros r i p. split; [intros []|]. intros (_ & E & _). destruct (r - r0)%nat; discriminate.
    - destruct (IH (S r0)) as (s & L & Es & As & D & Is); [intros; apply H; now right|]. destruct (H p (or_introl eq_refl)) as (So & Sm).
      destruct (frame_ok p So Sm (max_horizon p)) as (f & Ef & Nf & _). destruct (sends_ok r0 p f Ef) as (s0 & E0 & A0).
      cbn [all_sends]. rewrite E0. cbn [bind]. rewrite Es. cbn [bind].
      set (M := if Nat.eqb r0 q then [] else map (fun i => (r0, i, p)) (List.filter (reaches p) f)).
      assert (IM : forall r i p', In (r, i, p') M <-> r = r0 /\ p' = p /\ r <> q /\ reaches p i = true /\ In i f).
      { intros r i p'. unfold M. destruct (Nat.eqb_spec r0 q) as [->|Nq]; [split; [intros []|intros (-> & _ & N & _); congruence]|]. rewrite in_map_iff. split.
        - intros (j & E & J). inversion E; subst. apply filter_In in J as (J1 & J2). auto.
        - intros (-> & -> & _ & R & I). exists i. split; [reflexivity|]. apply filter_In. auto. }
      exists (s0 ++ s), (M ++ L). split; [reflexivity|]. split; [rewrite addressed_app, As, map_app; f_equal; rewrite A0; unfold M; now destruct (Nat.eqb r0 q)|].
      split.
      { assert (DM : NoDup M). { unfold M. destruct (Nat.eqb r0 q); [constructor|]. apply FinFun.Injective_map_NoDup; [intros i j E; congruence|]. now apply NoDup_filter. }
        clear - DM D IM Is. assert (Dis : forall s, In s M -> ~ In s L). { intros ((r & i) & p') A B. apply IM in A as (-> & _). apply Is in B as (B & _). lia. }
        clear IM Is. induction M as [|m M IH]; cbn; [exact D|]. inversion DM; subst. constructor; [|apply IH; auto; intros; apply Dis; now right].
        intros I. apply in_app_or in I as [I|I]; [tauto|]. apply (Dis m); [now left|exact I]. }
      intros r i p'. rewrite in_app_iff, IM, Is. split.
      + intros [(-> & -> & N & R & I)|(L0 & E & N & R & X)].
        * split; [lia|]. rewrite Nat.sub_diag. split; [reflexivity|]. split; [exact N|]. split; [exact R|]. exists f. auto.
        * split; [lia|]. replace (r - r0)%nat with (S (r - S r0)) by lia. auto.
      + intros (L0 & E & N & R & X). destruct (Nat.eq_dec r r0) as [->|Nr].
        * left. rewrite Nat.sub_diag in E. cbn in E. inversion E; subst. destruct X as (f' & Ef' & I). rewrite Ef in Ef'. inversion Ef'; subst. auto.
        * right. split; [lia|]. replace (r - r0)%nat with (S (r - S r0)) in E by lia. auto.
  Qed.
End Messages.

(** ** Zoltan's search tree *)
Lemma upd_nth {A} (l : list A) i a : (i < length l)%nat -> exists l', upd_ub l i a = Ok l' /\ length l' = length l /\ forall j, nth_error l' j = if Nat.eqb j i then Some a else nth_error l j.
Proof.
  unfold upd_ub. revert i. induction l as [|x l IH]; intros i H; [cbn in H; lia|]. destruct i as [|i]; cbn [upd].
  - eexists. split; [reflexivity|]. split; [reflexivity|]. intros [|j]; reflexivity.
  - cbn in H. destruct (IH i) as (l' & E & Le & N); [lia|]. destruct (upd l i a) as [l0|]; [|discriminate]. inversion E; subst l0. eexists. split; [reflexivity|]. split; [cbn; lia|]. intros [|j]; [reflexivity|]. cbn [nth_error Nat.eqb]. apply N.
Qed.

Section Zoltan.
  Variable xs : list point.
  Variable t : zoltan_tree RN.
  Hypothesis ok : bisects xs t.
  Let n := length xs.

  Lemma parts_length : length (parts t) = n.
  Proof. destruct ok as (P & _). rewrite (Permutation_length P). apply seq_length. Qed.
  Lemma parts_inj i j q : nth_error (parts t) i = Some q -> nth_error (parts t) j = Some q -> i = j.
  Proof.
    intros Hi Hj. destruct ok as (P & _). assert (D : NoDup (parts t)) by (eapply Permutation_NoDup; [apply Permutation_sym, P|apply seq_NoDup]).
    rewrite NoDup_nth_error in D. apply D; [apply nth_error_Some; congruence|congruence].
  Qed.
  Lemma parts_lt i q : nth_error (parts t) i = Some q -> (q < n)%nat.
  Proof. intros H. apply nth_error_In in H. destruct ok as (P & _). apply (Permutation_in _ P), in_seq in H. unfold n. lia. Qed.
  Lemma parts_onto q : (q < n)%nat -> exists i, nth_error (parts t) i = Some q.
  Proof. intros H. apply In_nth_error. destruct ok as (P & _). apply (Permutation_in _ (Permutation_sym P)), in_seq. unfold n in H. lia. Qed.

  Lemma index_ok : exists a, part_to_index (N:=RN) t n = Ok a /\ forall q, (q < n)%nat -> exists i, nth_error (parts t) i = Some q /\ nth_error a q = Some (Some i).
  Proof.
    assert (G : forall k m a, (k + m = n)%nat -> length a = n -> (forall i q, (i < k)%nat -> nth_error (parts t) i = Some q -> nth_error a q = Some (Some i)) ->
      exists a', foldM (fun a i => let? q := at_ub (parts t) i in upd_ub a q (Some i)) a (seq k m) = Ok a' /\ length a' = n /\ forall i q, (i < n)%nat -> nth_error (parts t) i = Some q -> nth_error a' q = Some (Some i)).
    { intros k m. revert k. induction m as [|m IH]; intros k a E La Ha; cbn [seq foldM].
      - exists a. split; [reflexivity|]. split; [exact La|]. intros i q L. apply Ha. lia.
      - destruct (nth_error (parts t) k) as [q|] eqn:Q; [|apply nth_error_None in Q; rewrite parts_length in Q; lia]. assert (at_ub (parts t) k = Ok q) as -> by (unfold at_ub; now rewrite Q). cbn [bind].
        destruct (upd_nth a q (Some k)) as (a' & Ea & La' & Na); [rewrite La; now apply parts_lt in Q|]. rewrite Ea. cbn [bind]. apply IH; [lia|congruence|].
        intros i r Li R. rewrite Na. destruct (Nat.eqb_spec r q) as [->|Nr]; [now rewrite (parts_inj _ _ _ R Q)|]. apply Ha; [|exact R]. assert (i <> k) by (intros ->; congruence). lia. }
    destruct (G 0%nat n (repeat None n)) as (a & E & La & Ha); [lia|apply repeat_length|intros; lia|]. exists a. split; [exact E|].
    intros q Lq. destruct (parts_onto q Lq) as (i & Hi). exists i. split; [exact Hi|]. apply Ha; [|exact Hi]. rewrite <- parts_length. apply nth_error_Some. congruence.
  Qed.

  Lemma within_real (a b c r : R) : 0 <= r -> (Rleb (a * a + b * b + c * c) (r * r) = true <-> sqrt (a * a + b * b + c * c) <= r).
  Proof.
    intros R0. rewrite Rleb_true. set (d := a * a + b * b + c * c). assert (Dnn : 0 <= d) by (unfold d; nra). split; intros Q.
    - apply Rsqr_incr_0_var; [|exact R0]. rewrite Rsqr_sqrt by exact Dnn. exact Q.
    - rewrite <- (sqrt_sqrt d Dnn). pose proof (sqrt_pos d). nra.
  Qed.
  Lemma coord_le (a b c r : R) : sqrt (a * a + b * b + c * c) <= r -> - r <= a <= r /\ - r <= b <= r /\ - r <= c <= r.
  Proof.
    intros H. assert (R0 : 0 <= r) by (eapply Rle_trans; [apply sqrt_pos|exact H]). apply within_real, Rleb_true in H; [|exact R0].
    assert (Q : forall x, x * x <= r * r -> - r <= x <= r) by (intros x E; nra). repeat split; apply Q; nra.
  Qed.
  Lemma near_box (x y : point) r : distance x y <= r -> in_box (cube (N:=RN) y r) x.
  Proof.
    intros H. destruct (coord_le (vx x - vx y) (vy x - vy y) (vz x - vz y) r) as (X & Y & Z); [exact H|]. assert (Q : forall a b : R, - r <= a - b <= r -> b - r <= a <= b + r) by (intros; lra).
    intros []; unfold along, cube; cbn [get low high]; [exact (Q _ _ X)|exact (Q _ _ Y)|exact (Q _ _ Z)].
  Qed.

  Lemma within_ok a pt (r : R) : 0 <= r -> part_to_index (N:=RN) t n = Ok a ->
    exists l, within_radius (N:=RN) t a xs pt r = Ok l /\ NoDup l /\ forall i, In i l <-> exists x, nth_error xs i = Some x /\ distance x pt <= r.
  Proof.
    intros R0 Ea. destruct index_ok as (a' & Ea' & Ha). rewrite Ea in Ea'. inversion Ea'; subst a'. clear Ea'. destruct ok as (P & B). destruct (B (cube (N:=RN) pt r)) as (D & Lt & Cov).
    unfold within_radius. set (bx := box t (cube (N:=RN) pt r)) in *.
    assert (Le : (length bx <= n)%nat). { rewrite <- (seq_length n 0). apply NoDup_incl_length; [exact D|]. intros q Hq. apply in_seq. specialize (Lt q Hq). unfold n. lia. }
    fold n. destruct (Nat.ltb_spec n (length bx)); [lia|]. clear Le H.
    assert (G : forall bx acc, NoDup bx -> (forall q, In q bx -> (q < n)%nat) -> NoDup acc -> (forall i q, nth_error (parts t) i = Some q -> In q bx -> ~ In i acc) ->
      exists l, foldM (fun acc q => let? o := at_ub a q in match o with None => UB | Some i => let? x := at_ub xs i in
         Ok (if leb (n:=RN) (add (n:=RN) (add (n:=RN) (mul (n:=RN) (sub (n:=RN) (vx x) (vx pt)) (sub (n:=RN) (vx x) (vx pt))) (mul (n:=RN) (sub (n:=RN) (vy x) (vy pt)) (sub (n:=RN) (vy x) (vy pt)))) (mul (n:=RN) (sub (n:=RN) (vz x) (vz pt)) (sub (n:=RN) (vz x) (vz pt)))) (mul (n:=RN) r r) then acc ++ [i] else acc) end) acc bx = Ok l /\
        NoDup l /\ forall i, In i l <-> In i acc \/ exists q x, nth_error (parts t) i = Some q /\ In q bx /\ nth_error xs i = Some x /\ distance x pt <= r).
    { clear bx D Lt Cov B. induction bx as [|q bx IH]; intros acc D Lt Da Dis; cbn [foldM].
      - exists acc. split; [reflexivity|]. split; [exact Da|]. intros i. split; [auto|]. intros [H|(q & x & _ & [] & _)]. exact H.
      - inversion D as [|? ? Nq Dq]; subst. destruct (Ha q) as (i & Pi & Ai); [apply Lt; now left|]. assert (at_ub a q = Ok (Some i)) as -> by (unfold at_ub; now rewrite Ai). cbn [bind].
        assert (Li : (i < n)%nat) by (rewrite <- parts_length; apply nth_error_Some; congruence). destruct (nth_error xs i) as [x|] eqn:X; [|apply nth_error_None in X; unfold n in Li; lia].
        assert (at_ub xs i = Ok x) as -> by (unfold at_ub; now rewrite X). cbn [bind]. set (w := leb (n:=RN) _ _).
        assert (W : w = true <-> distance x pt <= r) by (exact (within_real (vx x - vx pt) (vy x - vy pt) (vz x - vz pt) r R0)).
        assert (Ni : ~ In i acc) by (apply (Dis i q Pi); now left).
        destruct (IH (if w then acc ++ [i] else acc)) as (l & E & Dl & Il); [exact Dq|intros; apply Lt; now right| | |].
        + destruct w; [|exact Da]. apply Permutation_NoDup with (i :: acc); [apply Permutation_cons_append|]. constructor; auto.
        + intros j k Pj Ik Ij. assert (Nj : ~ In j acc) by (apply (Dis j k Pj); now right). destruct w; [|tauto]. apply in_app_or in Ij as [Ij|[<-|[]]]; [tauto|]. assert (k = q) by congruence. subst k. tauto.
        + exists l. split; [exact E|]. split; [exact Dl|]. intros j. rewrite Il. split.
          * intros [H|(k & y & K)].
            -- destruct w eqn:Ew; [|auto]. apply in_app_or in H as [H|[<-|[]]]; [auto|]. right. exists q, x. split; [exact Pi|]. split; [now left|]. split; [exact X|]. now apply W.
            -- right. exists k, y. destruct K as (K1 & K2 & K3). split; [exact K1|]. split; [now right|exact K3].
          * intros [H|(k & y & K1 & K2 & K3 & K4)]; [left; destruct w; [apply in_or_app; auto|exact H]|]. destruct K2 as [<-|K2].
            -- assert (j = i) by (eapply parts_inj; eauto). subst j. rewrite X in K3. inversion K3; subst y. left. assert (w = true) as -> by (apply W; exact K4). apply in_or_app. right. now left.
            -- right. exists k, y. auto. }
    destruct (G bx [] D Lt (NoDup_nil _)) as (l & E & Dl & Il); [intros ? ? _ _ []|]. exists l. split; [exact E|]. split; [exact Dl|]. intros i. rewrite Il. split.
    - intros [[]|(q & x & _ & _ & X & H)]. exists x. auto.
    - intros (x & X & H). right. destruct (nth_error (parts t) i) as [q|] eqn:Q; [|apply nth_error_None in Q; rewrite parts_length in Q; assert (i < n)%nat by (apply nth_error_Some; congruence); lia].
      exists q, x. split; [reflexivity|]. split; [|auto]. apply (Cov i x q X Q). now apply near_box.
  Qed.
End Zoltan.

(** Sorting ids *)
Lemma insert_perm i l : Permutation (insert_id i l) (i :: l).
Proof. induction l as [|j l IH]; cbn; [apply Permutation_refl|]. destruct (i <=? j)%nat; [apply Permutation_refl|]. eapply Permutation_trans; [apply perm_skip, IH|apply perm_swap]. Qed.
Lemma sort_perm l : Permutation (sort_ids l) l.
Proof. induction l as [|j l IH]; cbn; [constructor|]. eapply Permutation_trans; [apply insert_perm|now constructor]. Qed.
