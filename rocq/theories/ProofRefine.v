(** Proofs about ModelRefine *)
From Coq Require Import Reals Lra Sorting.Sorted.
From Verif Require Import Base Num ModelScalar ModelGeom ModelMesh ModelInterface ModelVtk ModelGlobal ModelRefine ProofMesh ProofInterface ProofVtk SpecGeom ProofGeom SpecInterface SpecRefine.

(** ** The walk *)
Section Walk.
  Context {N : Num}.
  Variables (corners : Z -> list (V3 N)) (x : list (V3 N)) (horizon : list N) (overlap : list Z).
  Definition filter_row (kp : Z -> outcome bool) (l : list nat) : outcome (list Z) :=
    let? r := mapO (fun j => let? b := kp (gid_at overlap j) in Ok (if b then [gid_at overlap j] else [])) l in Ok (concat r).
  Lemma kept_row_spec kp : forall l pre post, kept_row kp overlap (pre ++ l ++ post) (length l) (length pre) = filter_row kp l.
  Proof.
    unfold filter_row. induction l as [|j l IH]; intros pre post; [reflexivity|]. cbn [length kept_row mapO].
    unfold at_ub. rewrite nth_error_app2 by lia. rewrite Nat.sub_diag. cbn [nth_error app bind]. destruct (kp (gid_at overlap j)) as [b| |]; cbn [bind]; [|reflexivity|reflexivity].
    specialize (IH (pre ++ [j]) post). rewrite app_length in IH. cbn [length] in IH. rewrite <- app_assoc in IH. cbn [app] in IH. rewrite IH.
    destruct (mapO _ l); cbn [bind]; try reflexivity. destruct b; reflexivity.
  Qed.
  Definition row_at (il : nat * list nat) : outcome (list Z) :=
    match snd il with [] => Ok [] | _ => let? xi := at_ub x (fst il) in let? hi := at_ub horizon (fst il) in filter_row (keep corners xi hi) (snd il) end.
  Lemma kept_rows_spec : forall lists pre i fuel, length (stored_lists lists) <= fuel ->
    kept_rows corners x horizon overlap (pre ++ stored_lists lists) fuel (length pre) i = mapO row_at (combine (seq i (length lists)) lists).
  Proof.
    induction lists as [|l lists IH]; intros pre i fuel F.
    - cbn [stored_lists flat_map length seq combine mapO]. rewrite app_nil_r. destruct fuel; cbn [kept_rows]; rewrite Nat.leb_refl; reflexivity.
    - cbn [stored_lists flat_map] in *. change (flat_map (fun l => length l :: l) lists) with (stored_lists lists) in *.
      cbn [length app] in F. rewrite app_length in F. destruct fuel as [|fuel]; [lia|]. cbn [kept_rows length seq combine mapO].
      destruct (Nat.leb_spec (length (pre ++ (length l :: l) ++ stored_lists lists)) (length pre)); [exfalso; rewrite !app_length in H; cbn [length] in H; lia|].
      unfold at_ub at 1. rewrite nth_error_app2 by lia. rewrite Nat.sub_diag. cbn [nth_error app bind].
      unfold row_at at 1. cbn [fst snd].
      specialize (IH (pre ++ length l :: l) (i + 1) fuel ltac:(lia)). rewrite app_length in IH. cbn [length] in IH. rewrite <- app_assoc in IH. cbn [app] in IH.
      replace (length pre + S (length l)) with (length pre + 1 + length l) in IH by lia. replace (i + 1) with (S i) in IH by lia.
      assert (R : forall kp, kept_row kp overlap (pre ++ length l :: l ++ stored_lists lists) (length l) (length pre + 1) = filter_row kp l).
      { intros kp. pose proof (kept_row_spec kp l (pre ++ [length l]) (stored_lists lists)) as R. rewrite app_length in R. cbn [length] in R. rewrite <- app_assoc in R. exact R. }
      replace (i + 1) with (S i) by lia.
      destruct l as [|j l].
      + cbn [length Nat.eqb bind kept_row]. cbn [length] in IH. rewrite IH. destruct (mapO row_at _); reflexivity.
      + cbn [length Nat.eqb]. change (S (length l)) with (length (j :: l)). destruct (at_ub x i) as [xi| |]; cbn [bind]; [|reflexivity|reflexivity]. destruct (at_ub horizon i) as [hi| |]; cbn [bind]; [|reflexivity|reflexivity].
        rewrite R. destruct (filter_row _ _); cbn [bind]; [|reflexivity|reflexivity]. rewrite IH. destruct (mapO row_at _); reflexivity.
  Qed.
  Lemma remove_spec owned lists : remove_nonintersecting corners x horizon owned overlap (stored_lists lists)
    = let? rows := mapO row_at (combine (seq 0 (length lists)) lists) in
      let? l := new_list (new_overlap owned rows) rows in Ok (new_overlap owned rows, l).
  Proof. unfold remove_nonintersecting. pose proof (kept_rows_spec lists [] 0 (length (stored_lists lists)) ltac:(lia)) as H. cbn [app length] in H. now rewrite H. Qed.
End Walk.

(** ** The new overlap map *)
Lemma set_in gs : forall s g, In g (fold_left (fun s g => set_insert g s) gs s) <-> In g s \/ In g gs.
Proof. induction gs as [|a gs IH]; intros s g; cbn [fold_left In]; [tauto|]. rewrite IH, insert_in. intuition congruence. Qed.
Lemma set_sorted gs : forall s, StronglySorted Z.lt s -> StronglySorted Z.lt (fold_left (fun s g => set_insert g s) gs s).
Proof. induction gs as [|a gs IH]; intros s S; cbn [fold_left]; [exact S|]. apply IH. now apply insert_sorted. Qed.
Lemma sorted_filter (f : Z -> bool) l : StronglySorted Z.lt l -> StronglySorted Z.lt (filter f l).
Proof.
  induction 1 as [|a l S IH F]; cbn [filter]; [constructor|]. destruct (f a); [|exact IH]. constructor; [exact IH|]. rewrite Forall_forall in *. intros b B. apply filter_In in B. now apply F.
Qed.
Lemma overlap_shape owned rows : NoDup owned -> exists ghosts, new_overlap owned rows = owned ++ ghosts /\ StronglySorted Z.lt ghosts /\
  (forall g, In g ghosts <-> ~ In g owned /\ exists row, In row rows /\ In g row) /\ NoDup (owned ++ ghosts).
Proof.
  intros D. eexists. split; [reflexivity|]. set (gh := filter _ _). assert (S : StronglySorted Z.lt gh) by (apply sorted_filter, set_sorted; constructor).
  assert (I : forall g, In g gh <-> ~ In g owned /\ exists row, In row rows /\ In g row).
  { intros g. unfold gh. rewrite filter_In, set_in, in_concat. destruct (existsb (Z.eqb g) owned) eqn:E; cbn [negb].
    - apply existsb_z in E. intuition discriminate.
    - assert (~ In g owned) by (intros K; apply existsb_z in K; congruence). split; [intros ([[]|(l & K)] & _); eauto|]. intros (_ & l & K). eauto. }
  split; [exact S|]. split; [exact I|]. clearbody gh. apply sorted_nodup in S. clear - D S I. induction D as [|a owned Na D IH]; [exact S|]. cbn [app]. constructor.
  - rewrite in_app_iff. intros [K|K]; [auto|]. apply I in K. destruct K as (K & _). apply K. now left.
  - assert (K : forall gh', NoDup gh' -> (forall g, In g gh' -> ~ In g owned) -> NoDup (owned ++ gh')).
    { clear - D. induction D as [|b o Nb D IH]; intros gh' S K; [exact S|]. cbn. constructor; [rewrite in_app_iff; intros [H|H]; [auto|apply K in H; apply H; now left]|]. apply IH; [exact S|]. intros g H J. apply (K g H). now right. }
    apply K; [exact S|]. intros g H J. apply I in H. destruct H as (H & _). apply H. now right.
Qed.
Lemma new_list_ok o rows : NoDup o -> (forall row g, In row rows -> In g row -> In g o) ->
  exists ls, new_list o rows = Ok (stored_lists ls) /\ Forall2 (listed_gids o) ls rows.
Proof.
  intros D I. assert (H : exists ls, mapO (fun row => mapO (fun g => match lid o g with Some k => Ok k | None => Err end) row) rows = Ok ls /\ Forall2 (listed_gids o) ls rows).
  { induction rows as [|row rows IH]; [exists []; split; [reflexivity|constructor]|]. destruct IH as (ls & E & F); [intros; eapply I; [right|]; eauto|].
    assert (Rw : exists l, mapO (fun g => match lid o g with Some k => Ok k | None => Err end) row = Ok l /\ listed_gids o l row).
    { specialize (I row). assert (J : forall g, In g row -> In g o) by (intros; apply I; [now left|assumption]). clear - D J. induction row as [|g row IH]; [exists []; split; [reflexivity|constructor]|].
      destruct IH as (l & E & F); [intros; apply J; now right|]. destruct (In_nth_error o g (J g (or_introl eq_refl))) as (k & K). exists (k :: l). cbn [mapO]. rewrite (lid_nth o k g D K). cbn [bind]. rewrite E. split; [reflexivity|now constructor]. }
    destruct Rw as (l & El & Fl). exists (l :: ls). cbn [mapO]. rewrite El. cbn [bind]. rewrite E. split; [reflexivity|now constructor]. }
  destruct H as (ls & E & F). exists ls. unfold new_list. rewrite E. split; [reflexivity|exact F].
Qed.

(** ** The largest dimension *)
From Verif Require Import ProofGeom2 ProofGeom3 ProofGlobal.
Local Open Scope R_scope.
Definition good (P : R -> Prop) (m m' : R) : Prop := m <= m' /\ (forall d, P d -> d <= m') /\ (m' = m \/ P m').
Lemma fold_good {A} (f : R -> A -> outcome R) (P : A -> R -> Prop) l : (forall m a, In a l -> exists m', f m a = Ok m' /\ good (P a) m m') ->
  forall m, exists m', foldM f m l = Ok m' /\ good (fun d => exists a, In a l /\ P a d) m m'.
Proof.
  induction l as [|a l IH]; intros H m; cbn [foldM].
  - exists m. split; [reflexivity|]. split; [lra|]. split; [intros d (x & [] & _)|now left].
  - destruct (H m a (or_introl eq_refl)) as (m1 & E1 & A1 & B1 & C1). rewrite E1. cbn [bind]. destruct (IH (fun m a h => H m a (or_intror h)) m1) as (m2 & E2 & A2 & B2 & C2). exists m2. split; [exact E2|]. split; [lra|]. split.
    + intros d (x & [<-|I] & D); [specialize (B1 d D); lra|]. apply B2. eauto.
    + destruct C2 as [->|(x & I & D)]; [|right; exists x; split; [now right|exact D]]. destruct C1 as [->|C1]; [now left|]. right. exists a. split; [now left|exact C1].
Qed.
Definition corner_dist (l : list point) (d : R) : Prop := exists p q, In p l /\ In q l /\ d = ModelGeom.dist2 (N:=RN) p q.
Lemma dist2_self (p : point) : ModelGeom.dist2 (N:=RN) p p = 0. Proof. unfold ModelGeom.dist2. to_R. ring. Qed.
Lemma dist2_sym (p q : point) : ModelGeom.dist2 (N:=RN) p q = ModelGeom.dist2 (N:=RN) q p. Proof. unfold ModelGeom.dist2. to_R. ring. Qed.
Lemma pairs_good (nodes : list point) k : (k <= length nodes)%nat -> forall m, 0 <= m -> exists m',
  foldM (fun m i => foldM (fun m j => if Nat.eqb i j then Ok m else let? p := at_ub nodes i in let? q := at_ub nodes j in
     let l := ModelGeom.dist2 (N:=RN) p q in Ok (if ltb (n:=RN) m l then l else m)) m (seq i (k - i))) m (seq 0 k) = Ok m' /\ good (corner_dist (firstn k nodes)) m m'.
Proof.
  intros L m M.
  assert (Nth : forall i p, (i < k)%nat -> nth_error nodes i = Some p -> In p (firstn k nodes)).
  { intros i p I H. rewrite <- (firstn_skipn k nodes) in H. rewrite nth_error_app1 in H by (rewrite firstn_length; lia). eapply nth_error_In; eauto. }
  assert (Nth' : forall p, In p (firstn k nodes) -> exists i, (i < k)%nat /\ nth_error nodes i = Some p).
  { intros p I. apply In_nth_error in I. destruct I as (i & I). assert (i < length (firstn k nodes))%nat by (apply nth_error_Some; congruence). rewrite firstn_length in H. exists i. split; [lia|].
    rewrite <- (firstn_skipn k nodes), nth_error_app1 by (rewrite firstn_length; lia). exact I. }
  destruct (fold_good (fun m i => foldM (fun m j => if Nat.eqb i j then Ok m else let? p := at_ub nodes i in let? q := at_ub nodes j in
     let l := ModelGeom.dist2 (N:=RN) p q in Ok (if ltb (n:=RN) m l then l else m)) m (seq i (k - i)))
     (fun i d => exists j, In j (seq i (k - i)) /\ i <> j /\ exists p q, nth_error nodes i = Some p /\ nth_error nodes j = Some q /\ d = ModelGeom.dist2 (N:=RN) p q) (seq 0 k)) with (m := m) as (m' & E & A & B & C).
  - intros m0 i I. apply in_seq in I. apply (fold_good (fun m j => if Nat.eqb i j then Ok m else let? p := at_ub nodes i in let? q := at_ub nodes j in
     let l := ModelGeom.dist2 (N:=RN) p q in Ok (if ltb (n:=RN) m l then l else m)) (fun j d => i <> j /\ exists p q, nth_error nodes i = Some p /\ nth_error nodes j = Some q /\ d = ModelGeom.dist2 (N:=RN) p q)).
    intros m1 j J. apply in_seq in J. destruct (Nat.eqb_spec i j) as [Eq|Ne].
    + exists m1. split; [reflexivity|]. split; [lra|]. split; [intros d (K & _); contradiction|now left].
    + destruct (nth_error nodes i) as [p|] eqn:P; [|apply nth_error_None in P; lia]. destruct (nth_error nodes j) as [q|] eqn:Q; [|apply nth_error_None in Q; lia].
      unfold at_ub. rewrite P, Q. cbn [bind]. eexists. split; [reflexivity|]. cbn zeta. change (ltb (n:=RN) m1 (ModelGeom.dist2 (N:=RN) p q)) with (Rltb m1 (ModelGeom.dist2 (N:=RN) p q)). unfold Rltb. destruct (Rlt_dec _ _) as [Lt|Ge].
      * split; [lra|]. split; [intros d (_ & p' & q' & E1 & E2 & ->); injection E1 as <-; injection E2 as <-; apply Rle_refl|]. right. split; [exact Ne|]. eauto.
      * split; [lra|]. split; [intros d (_ & p' & q' & E1 & E2 & ->); injection E1 as <-; injection E2 as <-; now apply Rnot_lt_le|now left].
  - exists m'. split; [exact E|]. split; [exact A|]. split.
    + intros d (p & q & P & Q & ->). destruct (Nth' p P) as (i & I & Ei). destruct (Nth' q Q) as (j & J & Ej). destruct (Nat.lt_trichotomy i j) as [H|[H|H]].
      * apply B. exists i. split; [apply in_seq; lia|]. exists j. split; [apply in_seq; lia|]. split; [lia|]. eauto.
      * subst j. replace q with p by congruence. rewrite dist2_self. lra.
      * rewrite dist2_sym. apply B. exists j. split; [apply in_seq; lia|]. exists i. split; [apply in_seq; lia|]. split; [lia|]. eauto.
    + destruct C as [C|(i & I & j & J & Ne & p & q & P & Q & D)]; [now left|right]. apply in_seq in I. apply in_seq in J. exists p, q. split; [apply (Nth i); [lia|exact P]|]. split; [apply (Nth j); [lia|exact Q]|exact D].
Qed.
Lemma element_good (nodes : list point) m : known nodes -> 0 <= m -> exists m', element_dimension (N:=RN) m nodes = Ok m' /\ good (corner_dist (corners_of nodes)) m m'.
Proof.
  intros K M. unfold element_dimension, corners_of. unfold known in K. cbn [In] in K.
  assert (One : good (corner_dist []) m m) by (split; [lra|split; [intros d (p & q & [] & _)|now left]]).
  destruct K as [K|[K|[K|[K|[K|[]]]]]]; rewrite <- K; [exists m; auto|apply pairs_good; try lia; exact M|apply pairs_good; try lia; exact M|apply pairs_good; try lia; exact M|apply pairs_good; try lia; exact M].
Qed.
Lemma element_unknown (nodes : list point) m : ~ known nodes -> element_dimension (N:=RN) m nodes = Err.
Proof.
  intros K. unfold element_dimension. unfold known in K. cbn [In] in K. destruct (length nodes) as [|n]; [reflexivity|].
  do 20 (destruct n as [|n]; [try reflexivity; exfalso; apply K; tauto|]). reflexivity.
Qed.
Lemma fold_good_pos {A} (f : R -> A -> outcome R) (P : A -> R -> Prop) l : (forall m a, 0 <= m -> In a l -> exists m', f m a = Ok m' /\ good (P a) m m') ->
  forall m, 0 <= m -> exists m', foldM f m l = Ok m' /\ good (fun d => exists a, In a l /\ P a d) m m'.
Proof.
  induction l as [|a l IH]; intros H m M; cbn [foldM].
  - exists m. split; [reflexivity|]. split; [lra|]. split; [intros d (x & [] & _)|now left].
  - destruct (H m a M (or_introl eq_refl)) as (m1 & E1 & A1 & B1 & C1). rewrite E1. cbn [bind]. destruct (IH (fun m a p h => H m a p (or_intror h)) m1 ltac:(lra)) as (m2 & E2 & A2 & B2 & C2). exists m2. split; [exact E2|]. split; [lra|]. split.
    + intros d (x & [<-|I] & D); [specialize (B1 d D); lra|]. apply B2. eauto.
    + destruct C2 as [->|(x & I & D)]; [|right; exists x; split; [now right|exact D]]. destruct C1 as [->|C1]; [now left|]. right. exists a. split; [now left|exact C1].
Qed.
Lemma distance_sqrt (p q : point) : distance p q = sqrt (ModelGeom.dist2 (N:=RN) p q).
Proof. unfold distance, vlen, ModelGeom.dist2. reflexivity. Qed.
Lemma local_good (els : list (list point)) : Forall known els -> exists D, local_dimension (N:=RN) els = Ok D /\ largest_dimension els D.
Proof.
  intros K. rewrite Forall_forall in K. destruct (fold_good_pos (element_dimension (N:=RN)) (fun e d => corner_dist (corners_of e) d) els) with (m := 0) as (m & E & A & B & C); [|lra|].
  - intros m e M I. apply element_good; auto.
  - exists (sqrt m). split; [exact (f_equal (fun r => let? m := r in Ok (sqrt m)) E)|]. split.
    + intros e p q I P Q. rewrite distance_sqrt. apply sqrt_le_1_alt, B. exists e. split; [exact I|]. exists p, q. auto.
    + destruct C as [C|(e & I & p & q & P & Q & D)]; [left; rewrite C; apply sqrt_0|]. right. exists e, p, q. rewrite distance_sqrt, <- D. auto.
Qed.
