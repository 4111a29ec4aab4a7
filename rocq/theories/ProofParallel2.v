(** * Lemmas for C25: the lists *)
From Coq Require Import Reals Lra Lia Psatz Sorting.Sorted Permutation.
From Verif Require Import Base Num ModelScalar ModelTree ModelFilter ModelParallel SpecGeom SpecTree SpecParallel ProofTree ProofTree2 ProofParallel PropFilter.
Local Open Scope R_scope.

Lemma dist_self (x : point) : distance x x = 0.
Proof. unfold distance, vlen, vdot, vsub. cbn [vx vy vz]. to_R. match goal with |- sqrt ?e = 0 => replace e with 0 by ring end. apply sqrt_0. Qed.

Lemma mapO_at {A} (xs : list A) (ks : list nat) : (forall k, In k ks -> (k < length xs)%nat) ->
  exists l, mapO (at_ub xs) ks = Ok l /\ Forall2 (fun k a => nth_error xs k = Some a) ks l.
Proof.
  induction ks as [|k ks IH]; intros H; [exists []; split; [reflexivity|constructor]|]. destruct IH as (l & E & F); [intros; apply H; now right|].
  cbn [mapO]. destruct (nth_error xs k) as [a|] eqn:K; [|apply nth_error_None in K; specialize (H k (or_introl eq_refl)); lia].
  unfold at_ub at 1. rewrite K. cbn [bind]. rewrite E. exists (a :: l). split; [reflexivity|]. now constructor.
Qed.
Lemma Forall2_in {A B} (P : A -> B -> Prop) l m b : Forall2 P l m -> In b m -> exists a, In a l /\ P a b.
Proof. induction 1 as [|x y l m H F IH]; intros I; [destruct I|]. destruct I as [<-|I]; [exists x; split; [now left|exact H]|]. destruct (IH I) as (a & Ia & Pa). exists a. split; [now right|exact Pa]. Qed.
Lemma Forall2_in_l {A B} (P : A -> B -> Prop) l m a : Forall2 P l m -> In a l -> exists b, In b m /\ P a b.
Proof. induction 1 as [|x y l m H F IH]; intros I; [destruct I|]. destruct I as [<-|I]; [exists y; split; [now left|exact H]|]. destruct (IH I) as (b & Ib & Pb). exists b. split; [now right|exact Pb]. Qed.
Lemma Forall2_nodup {A B} (P : A -> B -> Prop) l m : (forall a a' b, P a b -> P a' b -> In a l -> In a' l -> a = a') -> Forall2 P l m -> NoDup l -> NoDup m.
Proof.
  intros Inj F. induction F as [|x y l m H F IH]; intros D; [constructor|]. inversion D as [|? ? N D']; subst. constructor.
  - intros I. destruct (Forall2_in _ _ _ _ F I) as (a & Ia & Pa). assert (a = x) by (eapply Inj; eauto; [now right|now left]). subst. tauto.
  - apply IH; [intros; eapply Inj; eauto; now right|exact D'].
Qed.

Section Lists.
  Variable ps : list (processor RN).
  Variable rank : nat.
  Variable p : processor RN.
  Variable got : list source.
  Variable tr : zoltan_tree RN.
  Variable fs : list (filter RN).
  Hypothesis here : nth_error ps rank = Some p.
  Hypothesis differ : forall r i q r' i' q', is_point ps r i q -> is_point ps r' i' q' -> gid q i = gid q' i' -> r = r' /\ i = i'.
  Hypothesis nonneg : forall r i q, is_point ps r i q -> 0 <= horizon q i.
  Hypothesis got_points : forall r i q, In (r, i, q) got -> is_point ps r i q /\ r <> rank.
  Hypothesis got_once : NoDup got.
  Let received := map note got.
  Hypothesis tree : bisects (overlap_x (N:=RN) p received) tr.

  Let all : list source := map (fun i => (rank, i, p)) (seq 0 (owned p)) ++ got.
  Lemma all_gids : overlap_gids (N:=RN) p received = map (fun s => fst (note s)) all.
  Proof. unfold overlap_gids, all, received. rewrite map_app, !map_map. reflexivity. Qed.
  Lemma all_xs : overlap_x (N:=RN) p received = map (fun s => snd (note s)) all.
  Proof. unfold overlap_x, all, received. rewrite map_app, !map_map. reflexivity. Qed.
  Lemma all_points r i q : In (r, i, q) all -> is_point ps r i q.
  Proof.
    unfold all. rewrite in_app_iff, in_map_iff. intros [(k & E & I)|I]; [|now apply got_points]. inversion E; subst. apply in_seq in I. split; [exact here|lia].
  Qed.
  Lemma all_in r i q : In (r, i, q) all <-> r = rank /\ q = p /\ (i < owned p)%nat \/ In (r, i, q) got.
  Proof.
    unfold all. rewrite in_app_iff, in_map_iff. split.
    - intros [(k & E & I)|I]; [|auto]. inversion E; subst. apply in_seq in I. left. repeat split; lia.
    - intros [(-> & -> & L)|I]; [|auto]. left. exists i. split; [reflexivity|]. apply in_seq. lia.
  Qed.
  Lemma all_once : NoDup all.
  Proof.
    assert (D : NoDup (map (fun i => (rank, i, p)) (seq 0 (owned p)))) by (apply FinFun.Injective_map_NoDup; [intros i j E; congruence|apply seq_NoDup]).
    assert (Dis : forall s, In s (map (fun i => (rank, i, p)) (seq 0 (owned p))) -> ~ In s got).
    { intros s I. apply in_map_iff in I as (k & <- & _). intros G. apply got_points in G as (_ & N). congruence. }
    unfold all. revert D Dis. generalize (map (fun i : nat => (rank, i, p)) (seq 0 (owned p))). intros l. induction l as [|a l IH]; cbn; intros D Dis; [exact got_once|].
    inversion D; subst. constructor; [|apply IH; auto; intros; apply Dis; auto]. rewrite in_app_iff. intros [I|I]; [tauto|]. now apply (Dis a (or_introl eq_refl)).
  Qed.
  Lemma all_self i : (i < owned p)%nat -> nth_error all i = Some (rank, i, p).
  Proof.
    intros L. unfold all. rewrite nth_error_app1 by now rewrite map_length, seq_length. rewrite nth_error_map.
    rewrite (nth_error_nth' (seq 0 (owned p)) 0%nat) by now rewrite seq_length. rewrite seq_nth by exact L. reflexivity.
  Qed.
  Lemma all_inj k k' s : nth_error all k = Some s -> nth_error all k' = Some s -> k = k'.
  Proof. intros A B. pose proof all_once as D. rewrite NoDup_nth_error in D. apply D; [apply nth_error_Some; congruence|congruence]. Qed.
  Lemma same_source r i q q' : In (r, i, q) all -> is_point ps r i q' -> q = q'.
  Proof. intros I (E & _). apply all_points in I as (E' & _). congruence. Qed.

  Lemma lists_ok : exists lists, neighborhoods (N:=RN) fs p received tr = Ok lists /\ length lists = owned p /\
    forall i l, nth_error lists i = Some l -> NoDup l /\ (forall g, In g l -> exists r' i' p', is_point ps r' i' p' /\ g = gid p' i') /\
      forall r' i' p', is_point ps r' i' p' -> (In (gid p' i') l <-> (r' = rank \/ In (r', i', p') got) /\
        distance (at_x p' i') (at_x p i) <= horizon p i /\ unfiltered fs (r' = rank /\ i' = i) (at_x p i) (at_x p' i')).
  Proof.
    unfold neighborhoods. set (xs := overlap_x (N:=RN) p received) in *. destruct (index_ok xs tr tree) as (idx & Ei & _). rewrite Ei. cbn [bind].
    assert (One : forall i, (i < owned p)%nat -> exists l, neighbors_of (N:=RN) fs p received tr idx i = Ok l /\ NoDup l /\ (forall g, In g l -> exists r' i' p', is_point ps r' i' p' /\ g = gid p' i') /\
      forall r' i' p', is_point ps r' i' p' -> (In (gid p' i') l <-> (r' = rank \/ In (r', i', p') got) /\
        distance (at_x p' i') (at_x p i) <= horizon p i /\ unfiltered fs (r' = rank /\ i' = i) (at_x p i) (at_x p' i'))).
    { intros i Li. unfold neighbors_of. fold xs. assert (H0 : 0 <= horizon p i) by (apply (nonneg rank i); split; auto).
      destruct (within_ok xs tr tree idx (at_x p i) (horizon p i) H0 Ei) as (found & Ef & Df & If). rewrite Ef. cbn [bind].
      assert (Xs : forall k s, nth_error all k = Some s -> nth_error xs k = Some (snd (note s))) by (intros k s K; unfold xs; rewrite all_xs, nth_error_map, K; reflexivity).
      assert (Len : length xs = length all) by (unfold xs; rewrite all_xs; apply map_length).
      assert (Self : In i found). { apply If. exists (at_x p i). split; [now rewrite (Xs i _ (all_self i Li))|]. rewrite dist_self. exact H0. }
      destruct found as [|f0 found0] eqn:Eq; [destruct Self|]. rewrite <- Eq in *. clear f0 found0 Eq.
      assert (Bd : forall u, In u (sort_ids found) -> (u < length xs)%nat). { intros u I. apply (Permutation_in _ (sort_perm found)), If in I as (x & X & _). apply nth_error_Some. congruence. }
      destruct (C21_neighbors RN fs (sort_ids found) (at_x p i) i xs Bd) as (kept & keeps & Ek & Kf & Ik). rewrite Ek. cbn [bind tl].
      assert (KB : forall k, In k kept -> (k < length all)%nat) by (intros k I; rewrite <- Len; apply Bd; rewrite Kf in I; now apply filter_In in I).
      destruct (mapO_at (overlap_gids (N:=RN) p received) kept) as (l & El & Fl); [intros k I; rewrite all_gids, map_length; now apply KB|].
      rewrite El. exists l. split; [reflexivity|].
      assert (Gid : forall k g, nth_error (overlap_gids (N:=RN) p received) k = Some g -> exists r' i' p', nth_error all k = Some (r', i', p') /\ g = gid p' i').
      { intros k g G. rewrite all_gids, nth_error_map in G. destruct (nth_error all k) as [((r' & i') & p')|]; [|discriminate]. inversion G; subst. exists r', i', p'. auto. }
      split; [|split].
      - eapply Forall2_nodup; [|exact Fl|].
        + intros a a' b A A' _ _. apply Gid in A as (r1 & i1 & p1 & A1 & ->). apply Gid in A' as (r2 & i2 & p2 & A2 & E).
          pose proof (all_points _ _ _ (nth_error_In _ _ A1)) as P1. pose proof (all_points _ _ _ (nth_error_In _ _ A2)) as P2. destruct (differ _ _ _ _ _ _ P1 P2 E) as (<- & <-).
          assert (p1 = p2) by (destruct P1, P2; congruence). subst p2. eapply all_inj; eauto.
        + rewrite Kf. apply NoDup_filter. eapply Permutation_NoDup; [apply Permutation_sym, sort_perm|exact Df].
      - intros g Ig. destruct (Forall2_in _ _ _ _ Fl Ig) as (k & _ & G). apply Gid in G as (r' & i' & p' & A & ->). exists r', i', p'. split; [|reflexivity]. apply all_points. eapply nth_error_In; eauto.
      - intros r' i' p' Pt.
        assert (Kept : forall k, nth_error all k = Some (r', i', p') -> (In k kept <-> distance (at_x p' i') (at_x p i) <= horizon p i /\ unfiltered fs (r' = rank /\ i' = i) (at_x p i) (at_x p' i'))).
        { intros k K. pose proof (Xs k _ K) as X. cbn in X. assert (Sm : k = i <-> r' = rank /\ i' = i).
          { split; [intros ->; rewrite (all_self i Li) in K; inversion K; auto|]. intros (-> & ->). assert (p' = p) by (destruct Pt; congruence). subst p'. apply (all_inj _ _ _ K). now apply all_self. }
          assert (Fk : In k (sort_ids found) <-> distance (at_x p' i') (at_x p i) <= horizon p i).
          { split; [intros I; apply (Permutation_in _ (sort_perm found)), If in I as (x & X' & D); rewrite X in X'; inversion X'; subst; exact D|].
            intros D. apply (Permutation_in _ (Permutation_sym (sort_perm found))), If. exists (at_x p' i'). auto. }
          split.
          - intros I. assert (I' : In k (sort_ids found)) by (rewrite Kf in I; now apply filter_In in I). split; [now apply Fk|]. pose proof (proj1 (Ik k _ I' X) I) as J. intros f F. destruct (J f F) as (I1 & I2). split; [|exact I2]. intros (S & T). apply I1. split; [now apply Sm|exact T].
          - intros (D & U). apply Fk in D. apply (proj2 (Ik k _ D X)). intros f F. destruct (U f F) as (I1 & I2). split; [|exact I2]. intros (S & T). apply I1. split; [now apply Sm|exact T]. }
        split.
        + intros Ig. destruct (Forall2_in _ _ _ _ Fl Ig) as (k & K & G). apply Gid in G as (r2 & i2 & p2 & A & E). pose proof (all_points _ _ _ (nth_error_In _ _ A)) as P2.
          destruct (differ _ _ _ _ _ _ Pt P2 E) as (<- & <-). assert (p2 = p') by (destruct Pt, P2; congruence). subst p2. split; [|now apply (Kept k A)].
          apply nth_error_In, all_in in A as [(-> & _)|A]; auto.
        + intros (W & R). assert (A : In (r', i', p') all). { apply all_in. destruct W as [->|W]; [left|now right]. destruct Pt as (Pt & L). assert (p' = p) by congruence. subst. auto. }
          apply In_nth_error in A as (k & K). apply (Kept k K) in R. destruct (Forall2_in_l _ _ _ _ Fl R) as (g & Ig & G). apply Gid in G as (r2 & i2 & p2 & A & ->). assert (E2 : Some (r2, i2, p2) = Some (r', i', p')) by (etransitivity; [symmetry; exact A|exact K]). inversion E2; subst. exact Ig. }
    assert (G : forall m k, (k + m <= owned p)%nat -> exists lists, mapO (neighbors_of (N:=RN) fs p received tr idx) (seq k m) = Ok lists /\ length lists = m /\
       forall i l, nth_error lists i = Some l -> neighbors_of (N:=RN) fs p received tr idx (k + i) = Ok l).
    { induction m as [|m IH]; intros k L; cbn [seq mapO].
      - exists []. split; [reflexivity|]. split; [reflexivity|]. intros [|i] l; discriminate.
      - destruct (One k) as (l0 & E0 & _); [lia|]. rewrite E0. cbn [bind]. destruct (IH (S k)) as (ls & Es & Ls & Ns); [lia|]. rewrite Es. cbn [bind]. exists (l0 :: ls). split; [reflexivity|]. split; [cbn; lia|].
        intros [|i] l H; cbn in H; [inversion H; subst; now rewrite Nat.add_0_r|]. replace (k + S i)%nat with (S k + i)%nat by lia. now apply Ns. }
    destruct (G (owned p) 0%nat) as (lists & El & Ll & Nl); [lia|]. rewrite El. exists lists. split; [reflexivity|]. split; [exact Ll|]. intros i l H.
    assert (Li : (i < owned p)%nat) by (rewrite <- Ll; apply nth_error_Some; congruence). destruct (One i Li) as (l' & E' & R). specialize (Nl i l H). cbn in Nl. rewrite Nl in E'. inversion E'; subst. exact R.
  Qed.
End Lists.

(** ** What reaches a processor *)
Section Exchange.
  Variable t : cutting.
  Variable ps : list (processor RN).
  Variable assign : range RN -> list nat.
  Hypothesis dist : distributed t ps.
  Hypothesis asg : assigns t (length ps) assign.

  Definition in_frame (p : processor RN) (i : nat) : Prop := exists c,
    (forall k, (k < owned p)%nat -> along c (at_x p i) <= along c (at_x p k) + max_horizon p) \/ (forall k, (k < owned p)%nat -> along c (at_x p k) - max_horizon p < along c (at_x p i)).
  Definition travels (rank r i : nat) (p : processor RN) : Prop := r <> rank /\ in_frame p i /\ In rank (assign (cube (N:=RN) (at_x p i) (horizon p i))).

  Lemma exchange : exists sent, all_sends (N:=RN) assign (length ps) 0 ps = Ok sent /\ forall rank received, Permutation received (addressed rank sent) ->
    exists got, received = map note got /\ NoDup got /\ forall r i p, In (r, i, p) got <-> is_point ps r i p /\ travels rank r i p.
  Proof.
    destruct dist as [Rk Ne Reg Dif Hn So]. assert (Fit : forall b, (length (assign b) <= length ps)%nat).
    { intros b. destruct (asg b) as (D & L & _). rewrite <- (seq_length (length ps) 0). apply NoDup_incl_length; [exact D|]. intros q Q. apply in_seq. specialize (L q Q). lia. }
    assert (Nd : forall b, NoDup (assign b)) by (intros b; apply asg).
    assert (Ok' : forall p, In p ps -> sorted_order (at_x p) (owned p) (by_axis p) /\ (0 < owned p)%nat) by (intros p I; auto).
    destruct (all_sends_ok assign (length ps) 0 Nd Fit ps 0 Ok') as (sent & _ & Es & _). exists sent. split; [exact Es|]. intros rank received Pm.
    destruct (all_sends_ok assign (length ps) rank Nd Fit ps 0 Ok') as (sent' & L & Es' & Ad & Dl & Il). rewrite Es in Es'. inversion Es'; subst sent'. rewrite Ad in Pm.
    apply Permutation_map_inv in Pm as (got & -> & Pg). exists got. split; [reflexivity|]. split; [eapply Permutation_NoDup; eauto|]. intros r i p.
    assert (E : In (r, i, p) got <-> In (r, i, p) L) by (split; apply Permutation_in; [now apply Permutation_sym|exact Pg]). rewrite E, Il, Nat.sub_0_r. clear E Il. split.
    - intros (_ & E & N & R & f & Ef & If). pose proof (nth_error_In _ _ E) as I. destruct (frame_ok p (So p I) (Ne p I) (max_horizon p)) as (f' & Ef' & _ & Hf). rewrite Ef in Ef'. inversion Ef'; subst f'.
      apply Hf in If as (Li & Fr). split; [split; auto|]. split; [exact N|]. split; [exact Fr|]. unfold reaches in R. apply existsb_exists in R as (q & Q & T). apply Nat.eqb_eq in T. now subst.
    - intros ((E & Li) & N & Fr & As). pose proof (nth_error_In _ _ E) as I. destruct (frame_ok p (So p I) (Ne p I) (max_horizon p)) as (f & Ef & _ & Hf).
      split; [lia|]. split; [exact E|]. split; [exact N|]. split; [unfold reaches; apply existsb_exists; exists rank; split; [exact As|apply Nat.eqb_refl]|]. exists f. split; [exact Ef|]. apply Hf. split; [exact Li|exact Fr].
  Qed.

  Lemma near_along (x y : point) (d : R) c : distance x y <= d -> along c y - d <= along c x <= along c y + d.
  Proof. intros H. apply near_box in H. specialize (H c). destruct c; exact H. Qed.

  (** A point close to a point of another processor travels there. *)
  Lemma close_travels rank i p r' i' p' : is_point ps rank i p -> is_point ps r' i' p' -> r' <> rank -> distance (at_x p' i') (at_x p i) <= horizon p' i' ->
    (distance (at_x p' i') (at_x p i) < horizon p' i' \/ strictly_cut t ps) -> travels rank r' i' p'.
  Proof.
    intros P P' N D S. destruct dist as [Rk Ne Reg Dif Hn So]. assert (Nd : NoDup (ranks t)) by (eapply Permutation_NoDup; [apply Permutation_sym, Rk|apply seq_NoDup]).
    split; [exact N|]. split.
    - destruct (separated t r' rank Nd N) as (c & v & [Sep|Sep]); exists c.
      + right. intros k Lk. assert (Pk : is_point ps r' k p') by (destruct P'; split; auto). pose proof (Sep _ _ (Reg _ _ _ Pk) (Reg _ _ _ P)) as (K1 & K2).
        pose proof (max_horizon_ge p' i' (proj2 P')) as M. destruct S as [S|S].
        * assert (Q : distance (at_x p' i') (at_x p i) <= distance (at_x p' i') (at_x p i)) by apply Rle_refl. apply (near_along _ _ _ c) in Q as (Q & _). revert Q S K1 K2 M. clear. to_R. intros. lra.
        * apply (near_along _ _ _ c) in D as (D & _). pose proof (S _ _ _ _ _ _ Pk P N c v Sep) as St. revert D St M. clear. to_R. intros. lra.
      + left. intros k Lk. assert (Pk : is_point ps r' k p') by (destruct P'; split; auto). pose proof (Sep _ _ (Reg _ _ _ P) (Reg _ _ _ Pk)) as (K1 & K2).
        pose proof (max_horizon_ge p' i' (proj2 P')) as M. apply (near_along _ _ _ c) in D as (_ & D). revert D K1 K2 M. clear. to_R. intros. lra.
    - destruct (asg (cube (N:=RN) (at_x p' i') (horizon p' i'))) as (_ & _ & A). apply (A rank (at_x p i)); [apply nth_error_Some; destruct P; congruence| |now apply Reg with (1 := P)].
      apply near_box. replace (distance (at_x p i) (at_x p' i')) with (distance (at_x p' i') (at_x p i)); [exact D|].
      unfold distance, vlen, vdot, vsub. cbn [vx vy vz]. to_R. f_equal. ring.
  Qed.
End Exchange.
