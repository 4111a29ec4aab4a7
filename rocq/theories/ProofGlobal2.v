From Coq Require Import Reals Lra Permutation.
From Verif Require Import Base Num ModelScalar ModelGlobal SpecGlobal ProofGlobal.
Local Open Scope R_scope.
Opaque dbl_max dbl_min.

(** ** Block data *)
Lemma take_min vals : forall a, let m := fold_left (bd_take (N:=RN) Minimum) vals a in
  (m = a \/ In m vals) /\ (m <= a) /\ forall v, In v vals -> m <= v.
Proof.
  induction vals as [|x vals IH]; intros a; cbn [fold_left].
  - repeat split; [auto|lra|intros v []].
  - set (a' := bd_take Minimum a x). destruct (IH a') as (H1 & H2 & H3).
    assert (A : (a' = a \/ a' = x) /\ a' <= a /\ a' <= x).
    { unfold a'; cbn [bd_take]; to_R. destruct (Rltb x a) eqn:E; [apply Rltb_true in E|apply Rltb_false in E]; repeat split; auto; lra. }
    destruct A as (A1 & A2 & A3). split; [|split].
    + destruct H1 as [H1|H1]; [|right; now right]. rewrite H1. destruct A1 as [A1|A1]; [now left|right; left; now symmetry].
    + eapply Rle_trans; eauto.
    + intros v [<-|Hv]; [eapply Rle_trans; eauto|auto].
Qed.
Lemma take_max vals : forall a, let m := fold_left (bd_take (N:=RN) Maximum) vals a in
  (m = a \/ In m vals) /\ (a <= m) /\ forall v, In v vals -> v <= m.
Proof.
  induction vals as [|x vals IH]; intros a; cbn [fold_left].
  - repeat split; [auto|lra|intros v []].
  - set (a' := bd_take Maximum a x). destruct (IH a') as (H1 & H2 & H3).
    assert (A : (a' = a \/ a' = x) /\ a <= a' /\ x <= a').
    { unfold a'; cbn [bd_take]; to_R. destruct (Rltb a x) eqn:E; [apply Rltb_true in E|apply Rltb_false in E]; repeat split; auto; lra. }
    destruct A as (A1 & A2 & A3). split; [|split].
    + destruct H1 as [H1|H1]; [|right; now right]. rewrite H1. destruct A1 as [A1|A1]; [now left|right; left; now symmetry].
    + eapply Rle_trans; eauto.
    + intros v [<-|Hv]; [eapply Rle_trans; eauto|auto].
Qed.

Definition rank_pts (bid : Z) (r : rank RN) (pss : list (list point)) : list point :=
  concat (map (fun bp => if Z.eqb (rb_id (fst bp)) bid then snd bp else []) (combine r pss)).

Lemma bd_local_ok c bid r pss : Forall2 block_points r pss ->
  (forall b, In b r -> rb_owned b = seq 0 (length (rb_owned b))) ->
  bd_local c bid r = Ok (fold_left (bd_take (N:=RN) c) (map p_val (rank_pts bid r pss)) (bd_start c)).
Proof.
  intros F HO. unfold bd_local. generalize (bd_start (N:=RN) c).
  induction F as [|b ps r pss H F IH]; intros s; [reflexivity|]. cbn [foldM].
  unfold rank_pts. cbn [combine map concat fst snd].
  destruct (Z.eqb (rb_id b) bid).
  - assert (E : foldM (fun acc i => let? d := at_ub (rb_data b) i in Ok (bd_take (N:=RN) c acc d)) s (seq 0 (length (rb_owned b)))
      = Ok (fold_left (bd_take (N:=RN) c) (map p_val ps) s)).
    { rewrite <- HO by (now left).
      etransitivity.
      - apply (foldM_rel (pt b) _ (fun s p => bd_take (N:=RN) c s (p_val p))) with (m := ps); [|exact H].
        intros s' i p (_ & _ & _ & _ & _ & _ & E7). unfold at_ub. now rewrite E7.
      - apply f_equal. clear. revert s. induction ps; intros s; cbn; auto. }
    match goal with |- bind ?a ?g = _ => etransitivity; [exact (f_equal (fun z => bind z g) E)|] end. cbn [bind].
    rewrite map_app, fold_left_app. apply IH. intros; apply HO; now right.
  - cbn [bind app]. apply IH. intros; apply HO; now right.
Qed.

Definition loc_vals bid (rp : rank RN * list (list point)) := map p_val (rank_pts bid (fst rp) (snd rp)).
Lemma bd_all c bid w psss : world_points w psss -> owned_first w ->
  mapO (bd_local c bid) w = Ok (map (fun rp => fold_left (bd_take (N:=RN) c) (loc_vals bid rp) (bd_start c)) (combine w psss)).
Proof.
  intros W O. induction W as [|r pss w psss H F IH]; [reflexivity|]. cbn [mapO combine map].
  rewrite (bd_local_ok c bid r pss H) by (intros b Hb; apply (O r b); [now left|auto]). cbn [bind].
  rewrite IH by (intros r' b Hr Hb; apply (O r' b); [now right|auto]). reflexivity.
Qed.
Lemma points_of_vals bid w psss v : In v (map p_val (points_of bid w psss)) <->
  exists rp, In rp (combine w psss) /\ In v (loc_vals bid rp).
Proof.
  unfold points_of, loc_vals. rewrite in_map_iff. split.
  - intros (p & <- & Hp). apply in_concat in Hp as (l & Hl & Hp). apply in_map_iff in Hl as (rp & <- & Hi).
    exists rp. split; auto. apply in_map_iff. exists p. split; auto.
  - intros (rp & Hi & Hv). apply in_map_iff in Hv as (p & <- & Hp). exists p. split; auto.
    apply in_concat. exists (rank_pts bid (fst rp) (snd rp)). split; auto. apply in_map_iff. exists rp. split; auto.
Qed.
Lemma reduce_min (l : list R) m : all_reduce (nmin (N:=RN)) l = Ok m -> In m l /\ forall x, In x l -> m <= x.
Proof.
  destruct l as [|a t]; [discriminate|]. cbn [all_reduce]. intros [= <-].
  assert (E : forall s, fold_left (nmin (N:=RN)) t s = fold_left (bd_take (N:=RN) Minimum) t s) by reflexivity.
  rewrite E. destruct (take_min t a) as (H1 & H2 & H3). split.
  - destruct H1 as [H1|H1]; [left; now symmetry|now right].
  - intros x [<-|Hx]; auto.
Qed.
Lemma reduce_max (l : list R) m : all_reduce (nmax (N:=RN)) l = Ok m -> In m l /\ forall x, In x l -> x <= m.
Proof.
  destruct l as [|a t]; [discriminate|]. cbn [all_reduce]. intros [= <-].
  assert (E : forall s, fold_left (nmax (N:=RN)) t s = fold_left (bd_take (N:=RN) Maximum) t s) by reflexivity.
  rewrite E. destruct (take_max t a) as (H1 & H2 & H3). split.
  - destruct H1 as [H1|H1]; [left; now symmetry|now right].
  - intros x [<-|Hx]; auto.
Qed.
Lemma combine_ne {A B} (P : A -> B -> Prop) l m : Forall2 P l m -> l <> [] -> combine l m <> [].
Proof. destruct 1; cbn; congruence. Qed.

Lemma block_min bid w psss : world_points w psss -> owned_first w -> w <> [] ->
  exists m, block_data_value Minimum bid w = Ok m /\
    (m = dbl_max (N:=RN) \/ In m (map p_val (points_of bid w psss))) /\
    m <= dbl_max (N:=RN) /\ forall v, In v (map p_val (points_of bid w psss)) -> m <= v.
Proof.
  intros W O NE. unfold block_data_value. rewrite (bd_all Minimum bid w psss W O). cbn [bind].
  set (l := map _ (combine w psss)).
  assert (L : l <> []). { unfold l. intros Q. apply map_eq_nil in Q. exact (combine_ne _ _ _ W NE Q). }
  destruct (all_reduce (nmin (N:=RN)) l) as [m| |] eqn:E; [|destruct l; discriminate|now destruct l].
  exists m. split; [reflexivity|]. destruct (reduce_min l m E) as [H1 H2].
  apply in_map_iff in H1 as (rp & Em & Hi).
  destruct (take_min (loc_vals bid rp) (bd_start Minimum)) as (T1 & T2 & T3).
  rewrite Em in T1, T2, T3. split; [|split].
  - destruct T1 as [T1|T1]; [now left|right]. apply points_of_vals. eauto.
  - exact T2.
  - intros v Hv. apply points_of_vals in Hv as (rp' & Hi' & Hv).
    destruct (take_min (loc_vals bid rp') (bd_start Minimum)) as (_ & _ & T3').
    eapply Rle_trans; [|apply T3'; exact Hv]. apply H2. unfold l. apply in_map_iff. exists rp'. split; auto.
Qed.
Lemma block_max bid w psss : world_points w psss -> owned_first w -> w <> [] ->
  exists m, block_data_value Maximum bid w = Ok m /\
    (m = dbl_min (N:=RN) \/ In m (map p_val (points_of bid w psss))) /\
    dbl_min (N:=RN) <= m /\ forall v, In v (map p_val (points_of bid w psss)) -> v <= m.
Proof.
  intros W O NE. unfold block_data_value. rewrite (bd_all Maximum bid w psss W O). cbn [bind].
  set (l := map _ (combine w psss)).
  assert (L : l <> []). { unfold l. intros Q. apply map_eq_nil in Q. exact (combine_ne _ _ _ W NE Q). }
  destruct (all_reduce (nmax (N:=RN)) l) as [m| |] eqn:E; [|destruct l; discriminate|now destruct l].
  exists m. split; [reflexivity|]. destruct (reduce_max l m E) as [H1 H2].
  apply in_map_iff in H1 as (rp & Em & Hi).
  destruct (take_max (loc_vals bid rp) (bd_start Maximum)) as (T1 & T2 & T3).
  rewrite Em in T1, T2, T3. split; [|split].
  - destruct T1 as [T1|T1]; [now left|right]. apply points_of_vals. eauto.
  - exact T2.
  - intros v Hv. apply points_of_vals in Hv as (rp' & Hi' & Hv).
    destruct (take_max (loc_vals bid rp') (bd_start Maximum)) as (_ & _ & T3').
    eapply Rle_trans; [apply T3'; exact Hv|]. apply H2. unfold l. apply in_map_iff. exists rp'. split; auto.
Qed.
Lemma block_sum bid w psss : world_points w psss -> owned_first w -> w <> [] ->
  block_data_value Sum bid w = Ok (Rsum (map p_val (points_of bid w psss))).
Proof.
  intros W O NE. unfold block_data_value. rewrite (bd_all Sum bid w psss W O). cbn [bind].
  assert (E : forall rp, fold_left (bd_take (N:=RN) Sum) (loc_vals bid rp) (bd_start Sum) = Rsum (loc_vals bid rp)).
  { intros rp. etransitivity; [apply (fold_left_Rsum (fun x : R => x))|]. rewrite map_id. cbn. lra. }
  unfold points_of. destruct (combine w psss) as [|rp t] eqn:Q; [exfalso; exact (combine_ne _ _ _ W NE Q)|].
  cbn [map all_reduce]. apply f_equal. rewrite E. cbn [concat]. rewrite map_app, Rsum_app. fold (rank_pts bid (fst rp) (snd rp)).
  etransitivity; [apply (fold_left_Rsum (fun x : R => x))|]. rewrite map_id. apply Rplus_eq_compat_l.
  rewrite Rsum_concat, map_map. apply f_equal. apply map_ext. intros rp'. apply E.
Qed.

(** ** Nearest point *)
Definition lexle (a b : R * Z) : Prop := fst a < fst b \/ (fst a = fst b /\ (snd a <= snd b)%Z).
Lemma lexle_refl a : lexle a a. Proof. right. split; [auto|lia]. Qed.
Lemma lexle_trans a b c : lexle a b -> lexle b c -> lexle a c.
Proof. unfold lexle. intros [H|[H H']] [K|[K K']]; [left; lra|left; lra|left; lra|right; split; [lra|lia]]. Qed.
Definition near_key (q : V3 RN) (p : point) : R * Z := (dist2 (p_x p) q, p_id p).
Definition near_step (q : V3 RN) (acc : R * Z) (p : point) : R * Z :=
  let d := dist2 (N:=RN) (p_x p) q in
  let '(best, id) := acc in
  if leb (n:=RN) d best then if (ltb (n:=RN) d best || Z.ltb (p_id p) id)%bool then (d, p_id p) else (best, id) else (best, id).
Lemma near_step_ok q acc p : let s := near_step q acc p in
  (s = acc \/ s = near_key q p) /\ lexle s acc /\ lexle s (near_key q p).
Proof.
  destruct acc as [best id]. unfold near_step, near_key, lexle. cbn zeta. set (d := dist2 (p_x p) q). to_R.
  destruct (Rleb d best) eqn:E1; [apply Rleb_true in E1|apply Rleb_false in E1].
  - destruct (Rltb d best) eqn:E2; [apply Rltb_true in E2|apply Rltb_false in E2]; cbn [orb].
    + cbn [fst snd]. repeat split; [now right|left; lra|right; split; [auto|lia]].
    + assert (d = best) by (apply Rle_antisym; auto).
      destruct (Z.ltb_spec (p_id p) id); cbn [fst snd]; repeat split; auto; right; (split; [auto|lia]).
  - cbn [fst snd]. repeat split; [now left|right; split; [auto|lia]|left; exact E1].
Qed.
Lemma near_fold q ps : forall acc, let s := fold_left (near_step q) ps acc in
  (s = acc \/ exists p, In p ps /\ s = near_key q p) /\ lexle s acc /\ forall p, In p ps -> lexle s (near_key q p).
Proof.
  induction ps as [|p ps IH]; intros acc; cbn [fold_left].
  - repeat split; [now left|apply lexle_refl|intros p []].
  - destruct (near_step_ok q acc p) as (A1 & A2 & A3). set (acc' := near_step q acc p) in *.
    destruct (IH acc') as (B1 & B2 & B3). split; [|split].
    + destruct B1 as [B1|(p' & Hp & B1)].
      * rewrite B1. destruct A1 as [A1|A1]; [now left|right; exists p; split; [now left|auto]].
      * right. exists p'. split; [now right|auto].
    + eapply lexle_trans; eauto.
    + intros p' [<-|Hp]; [eapply lexle_trans; eauto|auto].
Qed.
Lemma nearest_local_ok q r pss : Forall2 block_points r pss ->
  (forall b, In b r -> rb_owned b = seq 0 (length (rb_owned b))) ->
  nearest_local q r = Ok (fold_left (near_step q) (concat pss) (dbl_max (N:=RN), INT_MAX)).
Proof.
  intros F HO. unfold nearest_local. generalize (dbl_max (N:=RN), INT_MAX).
  induction F as [|b ps r pss H F IH]; intros s; [reflexivity|]. cbn [foldM concat].
  rewrite <- HO by (now left).
  match goal with |- bind ?a ?g = _ => assert (E : a = Ok (fold_left (near_step q) ps s)) end.
  { apply (foldM_rel (pt b)); [|exact H]. intros [best id] i p (_ & _ & _ & _ & E5 & E6 & _).
    unfold at_ub. rewrite E5, E6. reflexivity. }
  rewrite E. cbn [bind]. rewrite fold_left_app. apply IH. intros; apply HO; now right.
Qed.
Lemma fold_zmin l : forall a, let m := fold_left Z.min l a in (m = a \/ In m l) /\ (m <= a)%Z /\ forall x, In x l -> (m <= x)%Z.
Proof.
  induction l as [|x l IH]; intros a; cbn [fold_left].
  - repeat split; [now left|lia|intros x []].
  - destruct (IH (Z.min a x)) as (H1 & H2 & H3). split; [|split].
    + destruct H1 as [H1|H1]; [|right; now right]. rewrite H1. destruct (Z.min_spec a x) as [[_ ->]|[_ ->]]; [now left|right; now left].
    + lia.
    + intros y [<-|Hy]; [lia|auto].
Qed.
Lemma nearest_ok q w psss : world_points w psss -> owned_first w -> w <> [] ->
  (forall p, In p (all_points psss) -> (p_id p < INT_MAX)%Z) ->
  (exists p, In p (all_points psss) /\ dist2 (p_x p) q <= dbl_max (N:=RN)) ->
  exists i, nearest q w = Ok i /\
    exists p, In p (all_points psss) /\ p_id p = i /\ forall p', In p' (all_points psss) -> lexle (near_key q p) (near_key q p').
Proof.
  intros W O NE HI (p0 & Hp0 & Hd0).
  set (start := (dbl_max (N:=RN), INT_MAX)) in *.
  assert (E : mapO (nearest_local q) w = Ok (map (fun pss => fold_left (near_step q) (concat pss) start) psss)).
  { clear -W O. induction W as [|r pss w psss H F IH]; [reflexivity|]. cbn [mapO map].
    rewrite (nearest_local_ok q r pss H) by (intros b Hb; apply (O r b); [now left|auto]). cbn [bind].
    rewrite IH by (intros r' b Hr Hb; apply (O r' b); [now right|auto]). reflexivity. }
  set (l := map (fun pss => fold_left (near_step q) (concat pss) start) psss) in *.
  assert (Lne : l <> []). { unfold l. destruct W; [easy|cbn; congruence]. }
  (* each local result *)
  assert (LE : forall s, In s l -> lexle s start /\ (s = start \/ exists p, In p (all_points psss) /\ s = near_key q p)).
  { intros s Hs. apply in_map_iff in Hs as (pss & <- & Hi). destruct (near_fold q (concat pss) start) as (A & B & C). split; [exact B|].
    destruct A as [A|(p & Hp & A)]; [now left|right]. exists p. split; auto. unfold all_points. apply in_concat. exists (concat pss). split; auto. now apply in_map. }
  assert (GE : forall p, In p (all_points psss) -> exists s, In s l /\ lexle s (near_key q p)).
  { intros p Hp. unfold all_points in Hp. apply in_concat in Hp as (ps & Hps & Hp). apply in_map_iff in Hps as (pss & <- & Hi).
    exists (fold_left (near_step q) (concat pss) start). split; [apply in_map_iff; eauto|].
    destruct (near_fold q (concat pss) start) as (_ & _ & C). now apply C. }
  destruct (all_reduce (nmin (N:=RN)) (map fst l)) as [best| |] eqn:EB; [|destruct l; discriminate|destruct l; easy].
  destruct (reduce_min _ _ EB) as [B1 B2].
  set (ids := map (fun di : R * Z => if eqb (n:=RN) (fst di) best then snd di else INT_MAX) l).
  assert (NQ : nearest q w = all_reduce Z.min ids).
  { unfold nearest.
    match goal with |- bind ?a ?g = _ => etransitivity; [exact (f_equal (fun z => bind z g) E)|] end. cbn [bind].
    match goal with |- bind ?a ?g = _ => etransitivity; [exact (f_equal (fun z => bind z g) EB)|] end. reflexivity. }
  rewrite NQ.
  assert (R : exists i, all_reduce Z.min ids = Ok i /\ In i ids /\ forall x, In x ids -> (i <= x)%Z).
  { unfold ids in *. destruct l as [|a t]; [easy|]. cbn [map all_reduce].
    eexists. split; [reflexivity|]. destruct (fold_zmin (map (fun di : R * Z => if eqb (n:=RN) (fst di) best then snd di else INT_MAX) t)
      (if eqb (n:=RN) (fst a) best then snd a else INT_MAX)) as (A & B & C). split.
    - destruct A as [A|A]; [left; now symmetry|now right].
    - intros x [<-|Hx]; auto. }
  destruct R as (i & -> & I1 & I2). exists i. split; [reflexivity|].
  assert (SB : forall s, In s l -> best <= fst s) by (intros s Hs; apply B2; now apply in_map).
  assert (SI : forall s, In s l -> (snd s <= INT_MAX)%Z).
  { intros s Hs. destruct (LE s Hs) as [_ [->|(p & Hp & ->)]]; [unfold start; cbn [snd]; lia|]. specialize (HI p Hp). unfold near_key. cbn [snd]. lia. }
  (* a local result realising (best, i) *)
  assert (X : exists s, In s l /\ fst s = best /\ snd s = i).
  { apply in_map_iff in B1 as (sb & Hb1 & Hb2).
    assert (Hib : (i <= snd sb)%Z).
    { apply I2. apply in_map_iff. exists sb. split; auto. to_R. rewrite (proj2 (Reqb_true _ _) Hb1). reflexivity. }
    apply in_map_iff in I1 as (si & Ei & Hsi). to_R. destruct (Reqb (fst si) best) eqn:Q.
    - apply Reqb_true in Q. exists si. auto.
    - exists sb. split; auto. split; auto. specialize (SI sb Hb2). lia. }
  destruct X as (s & Hs & F1 & F2).
  assert (ALL : forall s', In s' l -> lexle s s').
  { intros s' Hs'. destruct (Rtotal_order best (fst s')) as [L|[L|L]].
    - left. congruence.
    - right. split; [congruence|]. rewrite F2. apply I2. apply in_map_iff. exists s'. split; auto. to_R.
      rewrite (proj2 (Reqb_true _ _) (eq_sym L)). reflexivity.
    - specialize (SB s' Hs'). exfalso. lra. }
  assert (KEY : forall p, In p (all_points psss) -> lexle s (near_key q p)).
  { intros p Hp. destruct (GE p Hp) as (s' & Hs' & G). eapply lexle_trans; eauto. }
  destruct (LE s Hs) as [_ [->|(p & Hp & ->)]].
  - exfalso. specialize (KEY p0 Hp0). specialize (HI p0 Hp0). unfold lexle, near_key, start in KEY. cbn [fst snd] in KEY.
    destruct KEY as [K|[K K']]; [|lia]. exact (Rlt_irrefl _ (Rlt_le_trans _ _ _ K Hd0)).
  - exists p. split; auto.
Qed.
Lemma dist_key q p p' : lexle (near_key q p) (near_key q p') ->
  (distance (p_x p) q < distance (p_x p') q)%R \/ (distance (p_x p) q = distance (p_x p') q /\ (p_id p <= p_id p')%Z).
Proof.
  unfold lexle, near_key. cbn [fst snd]. intros [H|[H K]].
  - left. apply sqrt_lt_1_alt. split; [apply vdot_nonneg|]. exact H.
  - right. split; auto. unfold distance, vlen. apply f_equal. exact H.
Qed.

(** ** Data files *)
Lemma find_pair_some f t a b : find_pair (N:=RN) f t = Some (a, b) ->
  exists i, nth_error f i = Some a /\ nth_error f (S i) = Some b /\ fst a <= t <= fst b.
Proof.
  induction f as [|x f IH]; [discriminate|]. destruct f as [|y r]; [discriminate|].
  cbn [find_pair] in *. destruct ((leb (n:=RN) (fst x) t && leb (n:=RN) t (fst y))%bool) eqn:E.
  - intros [= <- <-]. exists 0%nat. apply andb_true_iff in E as [E1 E2]. to_R. apply Rleb_true in E1, E2. repeat split; auto.
  - intros H. destruct (IH H) as (i & H1 & H2 & H3). exists (S i). auto.
Qed.
Lemma increasing_tail x f : increasing (x :: f) -> increasing f.
Proof. intros H i a b Ha Hb. apply (H (S i) a b); auto. Qed.
Lemma head_least y f : increasing (y :: f) -> forall a, In a (y :: f) -> fst y <= fst a.
Proof.
  revert y. induction f as [|z f IH]; intros y H a [<-|Ha]; try (apply Rle_refl); [destruct Ha|].
  apply Rle_trans with (fst z); [apply Rlt_le; exact (H 0%nat y z eq_refl eq_refl)|]. apply IH; auto. now apply increasing_tail in H.
Qed.
Lemma find_pair_none f t : increasing f -> find_pair (N:=RN) f t = None -> forall a b, In a f -> In b f -> fst a < fst b -> fst a <= t <= fst b -> False.
Proof.
  (* the time t passes from >= to <= somewhere *)
  assert (G : forall f x, nth_error f 0 = Some x -> fst x <= t -> find_pair (N:=RN) f t = None ->
     forall b, In b f -> t <= fst b -> b <> x -> False).
  { clear. induction f as [|y f IH]; intros x H0 Hx HN b Hb Hbt Hne; [destruct Hb|].
    injection H0 as ->. destruct f as [|z r]; [destruct Hb as [Hb|[]]; congruence|].
    cbn [find_pair] in HN. match type of HN with (if ?c then _ else _) = _ => destruct c eqn:E end; [discriminate HN|].
    destruct Hb as [Hb|Hb]; [congruence|]. to_R. rewrite (proj2 (Rleb_true _ _) Hx) in E. cbn [andb] in E. apply Rleb_false in E.
    eapply (IH z); [reflexivity|exact (Rlt_le _ _ E)|exact HN|exact Hb|exact Hbt|].
    intros ->. exact (Rlt_irrefl _ (Rlt_le_trans _ _ _ E Hbt)). }
  intros INC HN a b Ha Hb Hlt Hin. destruct f as [|y f]; [destruct Ha|].
  assert (M : fst y <= fst a) by (apply (head_least y f INC a Ha)).
  apply (G (y :: f) y eq_refl (Rle_trans _ _ _ M (proj1 Hin)) HN b Hb (proj2 Hin)).
  intros ->. exact (Rlt_irrefl _ (Rlt_le_trans _ _ _ Hlt M)).
Qed.

Definition good (f : datafile RN) (n : nat) (l : loader RN) : Prop :=
  (exists i a b, nth_error f i = Some a /\ nth_error f (S i) = Some b /\
     ld_t1 l = fst a /\ ld_t2 l = fst b /\ ld_d1 l = snd a /\ ld_d2 l = snd b) /\
  interpolates f (ld_time l) (ld_out l).

Lemma interpolate_nth c : forall d1 d2 k v, nth_error (interpolate (N:=RN) c d1 d2) k = Some v ->
  exists a b, nth_error d1 k = Some a /\ nth_error d2 k = Some b /\ v = (1 - c) * a + c * b.
Proof.
  induction d1 as [|a d1 IH]; intros [|b d2] k v H; cbn [interpolate] in H; try (destruct k; discriminate).
  destruct k; [|now apply IH in H]. injection H as <-. exists a, b. repeat split.
Qed.
Lemma interpolate_length c : forall d1 d2, length d1 = length d2 -> length (interpolate (N:=RN) c d1 d2) = length d1.
Proof. induction d1 as [|a d1 IH]; intros [|b d2] E; cbn in *; try lia. rewrite IH; lia. Qed.

Lemma interp_ok f n i a b t : increasing f -> rectangular n f -> nth_error f i = Some a -> nth_error f (S i) = Some b ->
  fst a <= t <= fst b -> interpolates f t (interpolate (N:=RN) ((t - fst a) / (fst b - fst a)) (snd a) (snd b)).
Proof.
  intros INC RC Ha Hb Ht. exists i, a, b. repeat split; try tauto.
  - apply interpolate_length. rewrite (RC a), (RC b); auto; eapply nth_error_In; eauto.
  - intros k v Hv. apply interpolate_nth in Hv as (v1 & v2 & H1 & H2 & ->). exists v1, v2. repeat split; auto.
    unfold on_line. pose proof (INC i a b Ha Hb) as L. to_R. field. intros E. apply Rminus_diag_uniq in E. rewrite E in L. exact (Rlt_irrefl _ L).
Qed.

(** One request, from a loader that has been used ([good]) or is new and asked for a time
    other than -1. *)
Lemma load_step f n l t : increasing f -> rectangular n f ->
  (good f n l \/ (l = loader_init (N:=RN) n /\ t <> - (1))) ->
  let (l', o) := load_data f l t in
  (within f t -> exists out, o = Ok out /\ interpolates f t out /\ good f n l') /\
  (~ within f t -> o = Err).
Proof.
  intros INC RC H. unfold load_data.
  assert (PAIR : forall i a b, nth_error f i = Some a -> nth_error f (S i) = Some b -> fst a <= t <= fst b -> within f t).
  { intros i a b Ha Hb Ht. exists a, b. repeat split; try tauto; try (eapply nth_error_In; eauto). exact (INC i a b Ha Hb). }
  destruct (eqb (n:=RN) t (ld_time l)) eqn:E0.
  - to_R. apply Reqb_true in E0. destruct H as [[G1 G2]|[-> Hne]]; [|now destruct Hne].
    rewrite <- E0 in G2. split.
    + intros _. exists (ld_out l). split; [reflexivity|]. split; [exact G2|]. split; [exact G1|]. rewrite <- E0. exact G2.
    + intros NW. exfalso. apply NW. destruct G2 as (i & a & b & Ha & Hb & Ht & _). exact (PAIR i a b Ha Hb ltac:(assumption)).
  - assert (FILE : (ltb (n:=RN) t (ld_t1 l) || ltb (n:=RN) (ld_t2 l) t)%bool = true ->
      let loaded := match find_pair f t with
                    | None => None
                    | Some (a, b) => Some {| ld_time := (t : T RN); ld_t1 := fst a; ld_t2 := fst b; ld_d1 := snd a; ld_d2 := snd b; ld_out := ld_out l |}
                    end in
      (within f t -> exists i a b l2, loaded = Some l2 /\ nth_error f i = Some a /\ nth_error f (S i) = Some b /\ fst a <= t <= fst b /\
         ld_t1 l2 = fst a /\ ld_t2 l2 = fst b /\ ld_d1 l2 = snd a /\ ld_d2 l2 = snd b) /\ (~ within f t -> loaded = None)).
    { intros _. cbn zeta. destruct (find_pair f t) as [[a b]|] eqn:FP.
      - apply find_pair_some in FP as (i & Ha & Hb & Ht). split.
        + intros _. exists i, a, b. eexists. split; [reflexivity|]. cbn. repeat split; tauto.
        + intros NW. exfalso. apply NW. exact (PAIR i a b Ha Hb ltac:(assumption)).
      - split; auto. intros (a & b & Ha & Hb & Hlt & Ht). exfalso. exact (find_pair_none f t INC FP a b Ha Hb Hlt Ht). }
    destruct ((ltb (n:=RN) t (ld_t1 l) || ltb (n:=RN) (ld_t2 l) t)%bool) eqn:EC.
    + destruct (FILE eq_refl) as [F1 F2].
      destruct (match find_pair f t with Some (a, b) => _ | None => None end) as [l2|] eqn:LD.
      * split.
        -- intros HW. destruct (F1 HW) as (i & a & b & l2' & [= <-] & Ha & Hb & Ht & T1 & T2 & D1 & D2).
           eexists. split; [reflexivity|]. rewrite T1, T2, D1, D2.
           pose proof (interp_ok f n i a b t INC RC Ha Hb Ht) as IP. split; [exact IP|].
           split; [|exact IP]. exists i, a, b. cbn [ld_t1 ld_t2 ld_d1 ld_d2]. repeat split; auto.
        -- intros NW. specialize (F2 NW). discriminate.
      * split; auto. intros HW. destruct (F1 HW) as (i & a & b & l2' & [=] & _).
    + apply orb_false_iff in EC as [C1 C2]. to_R. apply Rltb_false in C1, C2.
      destruct H as [[(i & a & b & Ha & Hb & T1 & T2 & D1 & D2) G2]|[-> Hne]].
      * cbn [ld_t1 ld_t2 ld_d1 ld_d2]. rewrite T1, T2, D1, D2 in *.
        pose proof (interp_ok f n i a b t INC RC Ha Hb (conj C1 C2)) as IP. split.
        -- intros _. eexists. split; [reflexivity|]. split; [exact IP|]. split; [|exact IP]. exists i, a, b. cbn [ld_t1 ld_t2 ld_d1 ld_d2]. repeat split; auto.
        -- intros NW. exfalso. apply NW. exact (PAIR i a b Ha Hb (conj C1 C2)).
      * exfalso. apply Hne. cbn in C1, C2. apply Rle_antisym; auto.
Qed.
Lemma load_run_ok f n : increasing f -> rectangular n f -> forall ts l, good f n l ->
  forall k t, nth_error ts k = Some t -> (forall j t', (j < k)%nat -> nth_error ts j = Some t' -> within f t') ->
  (within f t -> exists out, nth_error (load_run f l ts) k = Some (Ok out) /\ interpolates f t out) /\
  (~ within f t -> nth_error (load_run f l ts) k = Some Err).
Proof.
  intros INC RC. induction ts as [|t0 ts IH]; intros l G k t Hk HB; [destruct k; discriminate|].
  pose proof (load_step f n l t0 INC RC (or_introl G)) as S. cbn [load_run].
  destruct (load_data f l t0) as [l' o]. destruct S as [S1 S2]. destruct k as [|k].
  - injection Hk as ->. split.
    + intros W. destruct (S1 W) as (out & -> & H & _). exists out. auto.
    + intros W. rewrite (S2 W). reflexivity.
  - destruct (S1 (HB 0%nat t0 ltac:(lia) eq_refl)) as (out & _ & _ & G'). cbn [nth_error].
    apply (IH l' G' k t Hk). intros j t' Hj Ht. apply (HB (S j) t'); auto. lia.
Qed.
Lemma load_run_init f n : increasing f -> rectangular n f -> forall ts, (forall t, nth_error ts 0 = Some t -> t <> - (1)) ->
  forall k t, nth_error ts k = Some t -> (forall j t', (j < k)%nat -> nth_error ts j = Some t' -> within f t') ->
  (within f t -> exists out, nth_error (load_run f (loader_init n) ts) k = Some (Ok out) /\ interpolates f t out) /\
  (~ within f t -> nth_error (load_run f (loader_init n) ts) k = Some Err).
Proof.
  intros INC RC [|t0 ts] H0 k t Hk HB; [destruct k; discriminate|].
  pose proof (load_step f n (loader_init n) t0 INC RC (or_intror (conj eq_refl (H0 t0 eq_refl)))) as S. cbn [load_run].
  destruct (load_data f (loader_init n) t0) as [l' o]. destruct S as [S1 S2]. destruct k as [|k].
  - injection Hk as ->. split.
    + intros W. destruct (S1 W) as (out & -> & H & _). exists out. auto.
    + intros W. rewrite (S2 W). reflexivity.
  - destruct (S1 (HB 0%nat t0 ltac:(lia) eq_refl)) as (out & _ & _ & G'). cbn [nth_error].
    apply (load_run_ok f n INC RC ts l' G' k t Hk). intros j t' Hj Ht. apply (HB (S j) t'); auto. lia.
Qed.
