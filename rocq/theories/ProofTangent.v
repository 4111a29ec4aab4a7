From Coq Require Import Reals Lra Lia.
From Verif Require Import Base Num ModelForce ModelTangent SpecCorr SpecTangent ProofData ProofCorr.
Local Open Scope nat_scope.

(** ** lists *)
Lemma gather_spec : forall A (l : list A) ids r, gather l ids = Ok r <-> Forall2 (fun i a => nth_error l i = Some a) ids r.
Proof.
  intros A l. induction ids as [|i ids IH]; intros r; cbn [gather].
  - split; intros H; [injection H as <-; constructor|inversion H; reflexivity].
  - unfold at_ub. destruct (nth_error l i) as [a|] eqn:E; cbn [bind].
    + destruct (gather l ids) as [s| |] eqn:G; cbn [bind].
      * split; intros H; [injection H as <-; constructor; [exact E|now apply IH]|].
        inversion H; subst. rewrite E in H2. injection H2 as ->. apply IH in H4. injection H4 as ->. reflexivity.
      * split; [discriminate|]. intros H. inversion H; subst. apply IH in H4. discriminate.
      * split; [discriminate|]. intros H. inversion H; subst. apply IH in H4. discriminate.
    + split; [discriminate|]. intros H. inversion H; subst. congruence.
Qed.
Lemma gather_total : forall A (l : list A) ids, Forall (fun i => i < length l) ids -> exists r, gather l ids = Ok r.
Proof.
  intros A l. induction ids as [|i ids IH]; intros H; cbn [gather]; [eauto|]. inversion H; subst. unfold at_ub.
  destruct (nth_error l i) eqn:E; [|apply nth_error_None in E; lia]. cbn [bind]. destruct (IH H3) as [r ->]. cbn [bind]. eauto.
Qed.
Lemma gather_map : forall A B (f : A -> B) (l : list A) ids r, gather l ids = Ok r -> gather (map f l) ids = Ok (map f r).
Proof.
  intros A B f l ids r H. apply gather_spec in H. apply gather_spec. induction H; cbn [map]; constructor; auto. now apply map_nth_error.
Qed.
Lemma gather_length : forall A (l : list A) ids r, gather l ids = Ok r -> length r = length ids.
Proof. intros A l ids r H. apply gather_spec in H. induction H; cbn; auto. Qed.

Lemma In_indices : forall nd gs x, In x (indices nd gs) <-> exists g d, In g gs /\ d < nd /\ x = nd * g + d.
Proof.
  intros. unfold indices. rewrite in_flat_map. split.
  - intros (g & Hg & H). apply in_map_iff in H as (d & <- & Hd). apply in_seq in Hd. exists g, d. repeat split; auto; lia.
  - intros (g & d & Hg & Hd & ->). exists g. split; auto. apply in_map_iff. exists d. split; auto. apply in_seq. lia.
Qed.
Lemma index_inj : forall nd i j a b, a < nd -> b < nd -> nd * i + a = nd * j + b -> i = j /\ a = b.
Proof.
  intros nd i j a b Ha Hb H. assert (i = j).
  { assert ((nd * i + a) / nd = i) by (rewrite Nat.mul_comm, Nat.div_add_l, Nat.div_small by lia; lia).
    assert ((nd * j + b) / nd = j) by (rewrite Nat.mul_comm, Nat.div_add_l, Nat.div_small by lia; lia). congruence. }
  subst. lia.
Qed.

Lemma numbered_from : forall A (l : list A) s, combine (seq s (length l)) l = match l with [] => [] | a :: r => (s, a) :: combine (seq (S s) (length r)) r end.
Proof. now destruct l. Qed.
Lemma numbered_In : forall A (l : list A) i a, In (i, a) (numbered l) <-> nth_error l i = Some a.
Proof.
  intros A l. unfold numbered. assert (G : forall s i a, In (i, a) (combine (seq s (length l)) l) <-> s <= i /\ nth_error l (i - s) = Some a).
  { induction l as [|x l IH]; intros s i a; cbn [length seq combine In].
    - split; [tauto|]. intros [_ H]. destruct (i - s); discriminate.
    - rewrite IH. split.
      + intros [E|[H1 H2]]; [injection E as <- <-; rewrite Nat.sub_diag; split; [lia|reflexivity]|].
        split; [lia|]. replace (i - s) with (S (i - S s)) by lia. exact H2.
      + intros [H1 H2]. destruct (Nat.eq_dec i s) as [->|Ne]; [rewrite Nat.sub_diag in H2; injection H2 as <-; now left|].
        right. split; [lia|]. replace (i - s) with (S (i - S s)) in H2 by lia. exact H2. }
  intros i a. rewrite G, Nat.sub_0_r. split; [tauto|]. intros; split; [lia|auto].
Qed.
Lemma nested : forall A B S (g : S -> A -> B -> outcome S) lb la s,
  foldM (fun s a => foldM (fun s b => g s a b) s lb) s la = foldM (fun s ab => g s (fst ab) (snd ab)) s (list_prod la lb).
Proof.
  intros A B S g lb. assert (app : forall C (f : S -> C -> outcome S) l l' s, foldM f s (l ++ l') = let? s := foldM f s l in foldM f s l').
  { intros C f. induction l as [|c l IH]; intros l' s; cbn [foldM app bind]; auto. destruct (f s c); cbn [bind]; auto. }
  assert (inner : forall a l s, foldM (fun s b => g s a b) s l = foldM (fun s ab => g s (fst ab) (snd ab)) s (map (pair a) l)).
  { intros a. induction l as [|b l IH]; intros s; cbn [foldM map]; auto. cbn [fst snd]. destruct (g s a b); cbn [bind]; auto. }
  induction la as [|a la IH]; intros s; cbn [foldM list_prod]; auto. rewrite app, <- inner. destruct (foldM _ s lb); cbn [bind]; auto.
Qed.

(** ** sparsity *)
Lemma allocate_points_iff : forall nd gids nbrs p es, allocate_points nd gids p nbrs = Ok es -> forall r c,
  In (r, c) es <-> exists q js gs, nth_error nbrs q = Some js /\ gather gids (p + q :: js) = Ok gs /\ In r (indices nd gs) /\ In c (indices nd gs).
Proof.
  intros nd gids. induction nbrs as [|js rest IH]; intros p es H r c; cbn [allocate_points] in H.
  - injection H as <-. split; [intros []|]. intros (q & js & gs & H & _). destruct q; discriminate.
  - destruct (gather gids (p :: js)) as [gs| |] eqn:G; cbn [bind] in H; try discriminate.
    destruct (allocate_points nd gids (1 + p) rest) as [es'| |] eqn:E; cbn [bind] in H; try discriminate. injection H as <-.
    rewrite in_app_iff, in_prod_iff, (IH _ _ E). split.
    + intros [[H1 H2]|(q & js' & gs' & H1 & H2 & H3)].
      * exists 0, js, gs. rewrite Nat.add_0_r. auto.
      * exists (S q), js', gs'. replace (p + S q) with (1 + p + q) by lia. auto.
    + intros ([|q] & js' & gs' & H1 & H2 & H3 & H4).
      * left. injection H1 as <-. rewrite Nat.add_0_r, G in H2. injection H2 as <-. auto.
      * right. exists q, js', gs'. replace (p + S q) with (1 + p + q) in H2 by lia. auto.
Qed.
Lemma allocate_points_total : forall nd gids nbrs p, p + length nbrs <= length gids -> Forall (Forall (fun j => j < length gids)) nbrs ->
  exists es, allocate_points nd gids p nbrs = Ok es.
Proof.
  intros nd gids. induction nbrs as [|js rest IH]; intros p L F; cbn [allocate_points length] in *; [eauto|]. inversion F; subst.
  destruct (gather_total _ gids (p :: js)) as [gs ->]; [constructor; [lia|auto]|]. cbn [bind]. destruct (IH (1 + p)) as [es ->]; auto; [lia|]. cbn [bind]. eauto.
Qed.
Lemma allocate_iff : forall nd parts es, allocate nd parts = Ok es -> forall i a j b, a < nd -> b < nd ->
  (In (nd * i + a, nd * j + b) es <-> together parts i j).
Proof.
  intros nd. induction parts as [|P parts IH]; intros es H i a j b Ha Hb; cbn [allocate] in H.
  - injection H as <-. split; [intros []|]. intros (P & p & js & gs & [] & _).
  - destruct (allocate_points nd (p_gids P) 0 (p_nbrs P)) as [e1| |] eqn:E1; cbn [bind] in H; try discriminate.
    destruct (allocate nd parts) as [e2| |] eqn:E2; cbn [bind] in H; try discriminate. injection H as <-.
    rewrite in_app_iff, (allocate_points_iff _ _ _ _ _ E1), (IH _ eq_refl i a j b Ha Hb). split.
    + intros [(q & js & gs & H1 & H2 & H3 & H4)|(P' & p & js & gs & H)]; [|exists P', p, js, gs; cbn; tauto].
      apply In_indices in H3 as (g & d & G1 & G2 & G3), H4 as (g' & d' & G4 & G5 & G6).
      apply index_inj in G3 as [-> _]; auto. apply index_inj in G6 as [-> _]; auto.
      exists P, q, js, gs. apply gather_spec in H2. cbn; auto.
    + intros (P' & p & js & gs & [<-|HP] & H1 & H2 & H3 & H4); [left|right; exists P', p, js, gs; auto].
      exists p, js, gs. split; [auto|]. split; [now apply gather_spec|]. split; apply In_indices; eauto.
Qed.
Lemma allocate_total : forall nd parts, Forall ids_ok parts -> exists es, allocate nd parts = Ok es.
Proof.
  intros nd. induction 1 as [|P parts [H1 H2] HF IH]; cbn [allocate]; [eauto|].
  destruct (allocate_points_total nd (p_gids P) (p_nbrs P) 0) as [e ->]; auto. destruct IH as [r ->]. cbn [bind]. eauto.
Qed.

(** ** sums *)
Local Open Scope R_scope.
Lemma so_nil : forall A (f : A -> R), sum_over f [] = 0. Proof. reflexivity. Qed.
Lemma so_cons : forall A (f : A -> R) a l, sum_over f (a :: l) = f a + sum_over f l. Proof. reflexivity. Qed.
Lemma so_ext : forall A (f g : A -> R) l, (forall a, In a l -> f a = g a) -> sum_over f l = sum_over g l.
Proof. intros A f g. induction l as [|a l IH]; intros H; auto. rewrite !so_cons, (H a), IH; cbn; auto. intros; apply H; now right. Qed.
Lemma so_app : forall A (f : A -> R) l l', sum_over f (l ++ l') = sum_over f l + sum_over f l'.
Proof. intros A f. induction l as [|a l IH]; intros l'; cbn [app]; [rewrite so_nil; ring|]. rewrite !so_cons, IH. ring. Qed.
Lemma so_map : forall A B (f : B -> R) (g : A -> B) l, sum_over f (map g l) = sum_over (fun a => f (g a)) l.
Proof. intros A B f g. induction l; cbn [map]; auto. now rewrite !so_cons, IHl. Qed.
Lemma so_prod : forall A B (f : A * B -> R) la lb, sum_over f (list_prod la lb) = sum_over (fun a => sum_over (fun b => f (a, b)) lb) la.
Proof. intros A B f. induction la as [|a la IH]; intros lb; cbn [list_prod]; auto. now rewrite so_app, so_map, so_cons, IH. Qed.
Lemma so_flat : forall A B (f : B -> R) (g : A -> list B) l, sum_over f (flat_map g l) = sum_over (fun a => sum_over f (g a)) l.
Proof. intros A B f g. induction l as [|a l IH]; cbn [flat_map]; auto. now rewrite so_app, so_cons, IH. Qed.
Lemma so_0 : forall A (l : list A) f, (forall a, In a l -> f a = 0) -> sum_over f l = 0.
Proof. intros A. induction l as [|a l IH]; intros f H; auto. rewrite so_cons, (H a), IH; cbn; auto; [ring|]. intros; apply H; now right. Qed.
Lemma so_mul : forall A k (f : A -> R) l, sum_over (fun a => k * f a) l = k * sum_over f l.
Proof. intros A k f. induction l as [|a l IH]; rewrite ?so_nil, ?so_cons; [ring|]. rewrite IH. ring. Qed.
Lemma so_sub : forall A (f g : A -> R) l, sum_over (fun a => f a - g a) l = sum_over f l - sum_over g l.
Proof. intros A f g. induction l as [|a l IH]; rewrite ?so_nil, ?so_cons; [ring|]. rewrite IH. ring. Qed.
Lemma so_add : forall A (f g : A -> R) l, sum_over (fun a => f a + g a) l = sum_over f l + sum_over g l.
Proof. intros A f g. induction l as [|a l IH]; rewrite ?so_nil, ?so_cons; [ring|]. rewrite IH. ring. Qed.
Lemma so_seq_one : forall nd (f : nat -> R) a s, (s <= a < s + nd)%nat -> sum_over (fun d => if Nat.eqb d a then f d else 0) (seq s nd) = f a.
Proof.
  induction nd as [|nd IH]; intros f a s H; [lia|]. cbn [seq]. rewrite so_cons. destruct (Nat.eqb_spec s a) as [->|Ne].
  - rewrite so_0; [ring|]. intros d Hd. apply in_seq in Hd. destruct (Nat.eqb_spec d a); [lia|auto].
  - rewrite IH by lia. ring.
Qed.

Lemma numbered_indices : forall nd gs, numbered (indices nd gs) = flat_map (fun mg => map (fun d => (nd * fst mg + d, nd * snd mg + d)%nat) (seq 0 nd)) (numbered gs).
Proof.
  intros nd gs. unfold numbered. assert (G : forall s, combine (seq (nd * s) (length (indices nd gs))) (indices nd gs) =
    flat_map (fun mg => map (fun d => (nd * fst mg + d, nd * snd mg + d)%nat) (seq 0 nd)) (combine (seq s (length gs)) gs)); [|specialize (G 0%nat); rewrite Nat.mul_0_r in G; exact G].
  induction gs as [|g gs IH]; intros s; cbn [indices flat_map length seq combine]; auto. unfold indices in IH |- *. cbn [flat_map].
  rewrite app_length, map_length, seq_length, seq_app.
  assert (L : forall A B (a a' : list A) (b b' : list B), length a = length b -> combine (a ++ a') (b ++ b') = combine a b ++ combine a' b').
  { intros A B. induction a as [|x a IHa]; intros a' [|y b] b' HL; cbn in *; try discriminate; auto. now rewrite IHa by lia. }
  rewrite L by now rewrite map_length, !seq_length. replace (nd * s + nd)%nat with (nd * S s)%nat by lia. rewrite IH. f_equal. cbn [fst snd].
  clear. assert (Q : forall u k, combine (seq (nd * s + u) k) (map (fun d => (nd * g + d)%nat) (seq u k)) = map (fun d => (nd * s + d, nd * g + d)%nat) (seq u k)).
  { intros u k. revert u. induction k as [|k IHk]; intros u; cbn; auto. f_equal. specialize (IHk (S u)). rewrite Nat.add_succ_r in IHk. exact IHk. }
  specialize (Q 0%nat nd). now rewrite Nat.add_0_r in Q.
Qed.
(** picking one index out of those of a neighbourhood *)
Lemma pick : forall nd gs (F : nat -> nat -> R) i a, (a < nd)%nat ->
  sum_over (fun ig => if Nat.eqb (snd ig) (nd * i + a)%nat then F (fst ig) (snd ig) else 0) (numbered (indices nd gs)) =
  sum_over (fun mg => if Nat.eqb (snd mg) i then F (nd * fst mg + a)%nat (nd * i + a)%nat else 0) (numbered gs).
Proof.
  intros nd gs F i a Ha. rewrite numbered_indices, so_flat. apply so_ext. intros [m g] _. cbn [fst snd]. rewrite so_map. cbn [fst snd].
  destruct (Nat.eqb_spec g i) as [->|Ne].
  - rewrite <- (so_seq_one nd (fun d => F (nd * m + d)%nat (nd * i + d)%nat) a 0) by lia. apply so_ext. intros d Hd. apply in_seq in Hd.
    destruct (Nat.eqb_spec (nd * i + d)%nat (nd * i + a)%nat), (Nat.eqb_spec d a); try lia; auto.
  - apply so_0. intros d Hd. apply in_seq in Hd. destruct (Nat.eqb_spec (nd * g + d)%nat (nd * i + a)%nat); auto. apply index_inj in e; lia.
Qed.
