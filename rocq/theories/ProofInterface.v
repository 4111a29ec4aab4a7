(** Proofs about ModelInterface *)
From Coq Require Import Permutation.
From Verif Require Import Base Num ModelScalar ModelMesh ModelInterface ProofMesh SpecInterface.

(** ** Reading the nodes of an element *)
Lemma mapO_ok {A B} (f : A -> outcome B) (g : A -> B) l : (forall a, In a l -> f a = Ok (g a)) -> mapO f l = Ok (map g l).
Proof. induction l as [|a l IH]; intros H; cbn [mapO map]; [reflexivity|]. rewrite H by now left. cbn [bind]. rewrite IH by (intros; apply H; now right). reflexivity. Qed.
Lemma mapO_ne {A B} (f : A -> outcome B) l : (forall a, In a l -> f a <> Err) -> mapO f l <> Err.
Proof.
  induction l as [|a l IH]; intros H; cbn [mapO]; [discriminate|]. pose proof (H a (or_introl eq_refl)). destruct (f a); cbn [bind]; try congruence; try discriminate.
  destruct (mapO f l); cbn [bind]; try discriminate. exfalso. apply IH; [|reflexivity]. intros; apply H. now right.
Qed.
Lemma mapO_all {A B} (f : A -> outcome B) l r : mapO f l = Ok r -> forall a, In a l -> exists b, f a = Ok b.
Proof.
  revert r; induction l as [|a l IH]; intros r H x I; [destruct I|]. cbn [mapO] in H. destruct (f a) as [b| |] eqn:E; try discriminate. cbn [bind] in H.
  destruct (mapO f l) as [r'| |]; try discriminate. destruct I as [<-|I]; eauto.
Qed.
Lemma map_nth_seq {A} (a : list A) d : map (fun k => nth k a d) (seq 0 (length a)) = a.
Proof. induction a as [|x a IH]; cbn [length seq map nth]; [reflexivity|]. f_equal. rewrite <- seq_shift, map_map. exact IH. Qed.
Lemma flat_nth (conn : list (list Z)) : forall l a k, nth_error conn l = Some a -> k < length a -> nth_error (concat conn) (first_point conn l + k) = nth_error a k.
Proof.
  unfold first_point. induction conn as [|c conn IH]; intros [|l] a k H K; try discriminate.
  - injection H as ->. cbn. now rewrite nth_error_app1.
  - cbn [nth_error] in H. cbn [firstn map list_sum concat fold_right]. rewrite nth_error_app2 by lia. rewrite <- (IH l a k H K). f_equal. fold list_sum. cbn [list_sum]. unfold list_sum. lia.
Qed.
Lemma read_ok conn l a : nth_error conn l = Some a -> read_nodes conn l (length a) = Ok a.
Proof.
  intros H. unfold read_nodes. rewrite mapO_ok with (g := fun k => nth k a 0%Z); [now rewrite map_nth_seq|].
  intros k I. apply in_seq in I. unfold at_ub. rewrite (flat_nth _ _ _ _ H) by lia. rewrite (nth_error_nth' a 0%Z) by lia. reflexivity.
Qed.
Lemma at_ne {A} (l : list A) k : at_ub l k <> Err. Proof. unfold at_ub. destruct (nth_error l k); discriminate. Qed.
Lemma read_ne conn l n : read_nodes conn l n <> Err. Proof. apply mapO_ne. intros. apply at_ne. Qed.
Lemma last_read conn l a n : nth_error conn l = Some a -> S l = length conn -> length a < n -> read_nodes conn l n = UB.
Proof.
  intros H L K. pose proof (read_ne conn l n). destruct (read_nodes conn l n) as [r| |] eqn:E; [|congruence|reflexivity]. exfalso.
  destruct (mapO_all _ _ _ E (length a)) as (b & B); [apply in_seq; lia|]. unfold at_ub in B.
  enough (nth_error (concat conn) (first_point conn l + length a) = None) by (rewrite H1 in B; discriminate).
  apply nth_error_None. clear - H L. revert l H L. unfold first_point. induction conn as [|c conn IH]; intros [|l] H L; try discriminate.
  - destruct conn; [|discriminate]. injection H as ->. cbn. rewrite app_nil_r. lia.
  - cbn [nth_error] in H. cbn [length] in L. cbn [firstn map concat]. rewrite app_length. specialize (IH l H ltac:(lia)). unfold list_sum in *. cbn [fold_right]. lia.
Qed.

(** ** The walk over the list *)
Section Walk.
  Variables (conn : list (list Z)) (owned overlap : list Z).
  Notation pair_of i a := (one_pair conn overlap (gid_at owned i) a).
  Definition row_of (il : nat * list nat) : outcome (list iface) :=
    let? a := at_ub conn (fst il) in let? r := mapO (pair_of (fst il) a) (snd il) in Ok (concat r).

  Lemma row_spec i a : forall l pre post, row_interfaces conn overlap (gid_at owned i) a (pre ++ l ++ post) (length l) (length pre)
    = let? r := mapO (pair_of i a) l in Ok (concat r).
  Proof.
    induction l as [|j l IH]; intros pre post; [reflexivity|]. cbn [length row_interfaces mapO].
    unfold at_ub at 1. rewrite nth_error_app2 by lia. rewrite Nat.sub_diag. cbn [nth_error app bind].
    destruct (pair_of i a j); cbn [bind]; [|reflexivity|reflexivity].
    specialize (IH (pre ++ [j]) post). rewrite app_length in IH. cbn [length] in IH. rewrite <- app_assoc in IH. cbn [app] in IH. rewrite IH.
    destruct (mapO _ l); reflexivity.
  Qed.

  Lemma walk_spec : forall lists pre i fuel, length (stored_lists lists) <= fuel ->
    interfaces_from conn owned overlap (pre ++ stored_lists lists) fuel (length pre) i
    = let? r := mapO row_of (combine (seq i (length lists)) lists) in Ok (concat r).
  Proof.
    induction lists as [|l lists IH]; intros pre i fuel F.
    - cbn [stored_lists flat_map length seq combine mapO bind concat]. rewrite app_nil_r. destruct fuel; cbn [interfaces_from]; rewrite Nat.leb_refl; reflexivity.
    - cbn [stored_lists flat_map] in *. fold stored_lists in *. change (flat_map (fun l => length l :: l) lists) with (stored_lists lists) in *.
      cbn [length app] in F. rewrite app_length in F. destruct fuel as [|fuel]; [lia|]. cbn [interfaces_from length seq combine mapO].
      destruct (Nat.leb_spec (length (pre ++ (length l :: l) ++ stored_lists lists)) (length pre)); [exfalso; rewrite !app_length in H; cbn [length] in H; lia|].
      unfold at_ub at 1. rewrite nth_error_app2 by lia. rewrite Nat.sub_diag. cbn [nth_error app bind].
      unfold row_of at 1. cbn [fst snd]. destruct (at_ub conn i) as [a| |] eqn:A; cbn [bind]; [|reflexivity|reflexivity].
      rewrite read_ok by (unfold at_ub in A; destruct (nth_error conn i); congruence). cbn [bind].
      pose proof (row_spec i a l (pre ++ [length l]) (stored_lists lists)) as R. rewrite app_length in R. cbn [length] in R. rewrite <- app_assoc in R. cbn [app] in R. rewrite R.
      destruct (mapO (pair_of i a) l) as [r| |]; cbn [bind]; [|reflexivity|reflexivity].
      specialize (IH (pre ++ length l :: l) (i + 1) fuel ltac:(lia)). rewrite app_length in IH. cbn [length] in IH. rewrite <- app_assoc in IH. cbn [app] in IH.
      replace (length pre + S (length l)) with (length pre + 1 + length l) in IH by lia. rewrite IH. replace (i + 1) with (S i) by lia.
      destruct (mapO row_of (combine (seq (S i) (length lists)) lists)); cbn [bind concat]; reflexivity.
  Qed.
  Lemma construct_spec lists : construct_interfaces conn owned overlap (stored_lists lists)
    = let? r := mapO row_of (combine (seq 0 (length lists)) lists) in Ok (concat r).
  Proof. apply (walk_spec lists [] 0). lia. Qed.

  Lemma hex_ne rec self neigh : forall fs, hex_interface rec self neigh fs <> Err.
  Proof.
    induction fs as [|f fs IH]; cbn [hex_interface]; [discriminate|].
    pose proof (mapO_ne (at_ub self) f (fun _ _ => at_ne _ _)). destruct (mapO (at_ub self) f); cbn [bind]; [|congruence|discriminate].
    destruct (_ && _)%bool; [discriminate|exact IH].
  Qed.
  Lemma upd_ne {A} (l : list A) k x : upd_ub l k x <> Err. Proof. unfold upd_ub. destruct (upd l k x); discriminate. Qed.
  Lemma foldM_ne {A S} (f : S -> A -> outcome S) : (forall s a, f s a <> Err) -> forall l s, foldM f s l <> Err.
  Proof. intros H. induction l as [|a l IH]; intros s; cbn [foldM]; [discriminate|]. pose proof (H s a). destruct (f s a); cbn [bind]; [apply IH|congruence|discriminate]. Qed.
  Lemma other_ne rec self neigh : other_interface rec self neigh <> Err.
  Proof.
    unfold other_interface. match goal with |- context [foldM ?f ?s ?l] => pose proof (foldM_ne f) as H; specialize (H ltac:(
      intros s0 a; apply foldM_ne; intros (n & found) b; destruct (Z.eqb a b); [|discriminate]; pose proof (upd_ne found n a); destruct (upd_ub found n a); cbn [bind]; congruence) l s); destruct (foldM f s l) end; cbn [bind]; congruence.
  Qed.
  Lemma pair_ne i a j : pair_of i a j <> Err.
  Proof.
    unfold one_pair. pose proof (read_ne conn j (length a)). destruct (read_nodes _ _ _) as [b| |]; cbn [bind]; [|congruence|discriminate].
    match goal with |- context [if ?c then hex_interface ?x ?y ?z ?w else _] => pose proof (hex_ne x y z w); pose proof (other_ne x y z); destruct c end;
    match goal with |- context [bind ?t _] => destruct t end; cbn [bind]; congruence.
  Qed.
  Lemma construct_ne lists : construct_interfaces conn owned overlap (stored_lists lists) <> Err.
  Proof.
    rewrite construct_spec. pose proof (mapO_ne row_of (combine (seq 0 (length lists)) lists)) as H. destruct (mapO row_of _); cbn [bind]; try congruence. exfalso. apply H; [|reflexivity].
    intros (i & l) _. unfold row_of. cbn [fst snd]. pose proof (at_ne conn i). destruct (at_ub conn i) as [a| |]; cbn [bind]; [|congruence|congruence].
    pose proof (mapO_ne (pair_of i a) l (fun j _ => pair_ne i a j)). destruct (mapO (pair_of i a) l); cbn [bind]; congruence.
  Qed.
  Lemma in_lists (lists : list (list nat)) i l : nth_error lists i = Some l -> forall s, In (s + i, l) (combine (seq s (length lists)) lists).
  Proof.
    revert i; induction lists as [|l0 lists IH]; intros [|i] H s; try discriminate; cbn [length seq combine].
    - injection H as ->. left. f_equal. lia.
    - right. replace (s + S i) with (S s + i) by lia. now apply IH.
  Qed.
  Lemma lists_in (lists : list (list nat)) : forall s i l, In (i, l) (combine (seq s (length lists)) lists) -> s <= i /\ nth_error lists (i - s) = Some l.
  Proof.
    induction lists as [|l0 lists IH]; intros s i l H; [destruct H|]. cbn [length seq combine] in H. destruct H as [H|H].
    - injection H as <- <-. rewrite Nat.sub_diag. auto.
    - destruct (IH _ _ _ H) as (A & B). split; [lia|]. now replace (i - s) with (S (i - S s)) by lia.
  Qed.
  Lemma construct_ub lists i j a b : neighbours conn lists i j a b -> pair_of i a j = UB -> construct_interfaces conn owned overlap (stored_lists lists) = UB.
  Proof.
    intros ((l & L & J) & A & _) U. pose proof (construct_ne lists) as Ne. rewrite construct_spec in *. destruct (mapO row_of _) as [r| |] eqn:E; [|exfalso; apply Ne; reflexivity|reflexivity]. exfalso.
    destruct (mapO_all _ _ _ E _ (in_lists _ _ _ L 0)) as (x & X). unfold row_of in X. cbn [fst snd Nat.add] in X. unfold at_ub in X. rewrite A in X. cbn [bind] in X.
    destruct (mapO (pair_of i a) l) as [y| |] eqn:Y; try discriminate. destruct (mapO_all _ _ _ Y _ J) as (z & Q). rewrite U in Q. discriminate.
  Qed.

  (** All pairs listed, in order *)
  Definition all_pairs (s : nat) (lists : list (list nat)) : list (nat * nat) := flat_map (fun il : nat * list nat => map (@pair nat nat (fst il)) (snd il)) (combine (seq s (length lists)) lists).
  Lemma construct_ok lists (F : nat * nat -> list iface) : (forall i l, nth_error lists i = Some l -> exists a, nth_error conn i = Some a /\ forall j, In j l -> pair_of i a j = Ok (F (i, j))) ->
    construct_interfaces conn owned overlap (stored_lists lists) = Ok (flat_map F (all_pairs 0 lists)).
  Proof.
    intros H. rewrite construct_spec. rewrite mapO_ok with (g := fun il => flat_map (fun j => F (fst il, j)) (snd il)).
    - cbn [bind]. f_equal. unfold all_pairs. induction (combine _ _) as [|(i & l) r IH]; [reflexivity|]. cbn [map concat flat_map fst snd]. rewrite flat_map_app, IH. f_equal.
      clear. induction l as [|j l IH]; [reflexivity|]. cbn. now rewrite IH.
    - intros (i & l) I. apply lists_in in I. destruct I as (_ & I). rewrite Nat.sub_0_r in I. destruct (H _ _ I) as (a & A & Q). unfold row_of. cbn [fst snd]. unfold at_ub. rewrite A. cbn [bind].
      rewrite mapO_ok with (g := fun j => F (i, j)) by exact Q. cbn [bind]. f_equal. now rewrite flat_map_concat_map.
  Qed.
  Lemma in_pairs lists i j : In (i, j) (all_pairs 0 lists) <-> exists l, nth_error lists i = Some l /\ In j l.
  Proof.
    unfold all_pairs. rewrite in_flat_map. split.
    - intros ((k & l) & A & B). cbn [fst snd] in B. apply in_map_iff in B. destruct B as (j' & E & B). injection E as -> ->. apply lists_in in A. rewrite Nat.sub_0_r in A. exists l. tauto.
    - intros (l & A & B). exists (i, l). split; [exact (in_lists _ _ _ A 0)|]. cbn [fst snd]. now apply in_map.
  Qed.
  Lemma pairs_nodup lists : Forall (@NoDup nat) lists -> forall s, NoDup (all_pairs s lists).
  Proof.
    unfold all_pairs. induction 1 as [|l lists N F IH]; intros s; [constructor|]. cbn [length seq combine flat_map fst snd].
    specialize (IH (S s)). assert (Ge : forall p, In p (flat_map (fun il : nat * list nat => map (@pair nat nat (fst il)) (snd il)) (combine (seq (S s) (length lists)) lists)) -> S s <= fst p).
    { intros p H. apply in_flat_map in H. destruct H as ((i & l') & A & B). apply lists_in in A. apply in_map_iff in B. destruct B as (j & <- & _). cbn [fst]. lia. }
    revert Ge IH. generalize (flat_map (fun il : nat * list nat => map (@pair nat nat (fst il)) (snd il)) (combine (seq (S s) (length lists)) lists)). intros q Ge Q.
    induction N as [|j l I N IH]; [exact Q|]. cbn [map app]. constructor; [|exact IH]. rewrite in_app_iff, in_map_iff. intros [(j' & E & J)|J]; [injection E as ->; auto|]. apply Ge in J. cbn in J. lia.
  Qed.
End Walk.

(** ** One pair *)
Lemma filter_length_le {A} (f : A -> bool) l : length (filter f l) <= length l.
Proof. induction l as [|a l IH]; cbn; [lia|]. destruct (f a); cbn; lia. Qed.
Lemma count_in a b : NoDup b -> length (filter (Z.eqb a) b) = if in_dec Z.eq_dec a b then 1 else 0.
Proof.
  induction 1 as [|x b I N IH]; [reflexivity|]. cbn [filter]. destruct (Z.eqb_spec a x) as [->|E].
  - cbn [length]. rewrite IH. destruct (in_dec Z.eq_dec x b); [contradiction|]. destruct (in_dec Z.eq_dec x (x :: b)); [reflexivity|exfalso; apply n0; now left].
  - rewrite IH. destruct (in_dec Z.eq_dec a b), (in_dec Z.eq_dec a (x :: b)); try reflexivity; exfalso; cbn in *; intuition congruence.
Qed.
Lemma matches_shared q b : NoDup b -> matches q b = length (shared q b).
Proof.
  intros N. unfold matches, shared. induction q as [|a q IH]; [reflexivity|]. cbn [map filter]. change (list_sum (?x :: ?l)) with (x + list_sum l). rewrite IH, count_in by exact N.
  destruct (in_dec Z.eq_dec a b); reflexivity.
Qed.
Lemma shared_perm q q' b : Permutation q q' -> length (shared q b) = length (shared q' b).
Proof.
  unfold shared. induction 1; cbn [filter]; try reflexivity; try congruence.
  - destruct (in_dec Z.eq_dec x b); cbn [length]; congruence.
  - destruct (in_dec Z.eq_dec x b), (in_dec Z.eq_dec y b); reflexivity.
Qed.
Lemma polygon_perm {A} (l l' : list A) : same_polygon l l' -> Permutation l l'.
Proof.
  intros (k & [H|H]); subst.
  - rewrite Permutation_app_comm, firstn_skipn. reflexivity.
  - rewrite Permutation_app_comm, firstn_skipn. symmetry. apply Permutation_rev.
Qed.
Lemma polygon_map {A B} (g : A -> B) l l' : same_polygon l l' -> same_polygon (map g l) (map g l').
Proof.
  intros (k & [H|H]); exists k; subst.
  - left. now rewrite map_app, skipn_map, firstn_map.
  - right. now rewrite map_app, <- map_rev, skipn_map, firstn_map.
Qed.
Lemma faces_good f : In f faces -> Forall (fun k => k < 8) f /\ exists f', In f' hex_faces /\ same_polygon f f'.
Proof.
  unfold faces. cbn [In]. intros H. repeat (destruct H as [H|H]); subst; (split; [repeat constructor; lia|]); try contradiction.
  - exists [4; 5; 6; 7]. split; [cbn; tauto|]. exists 0. now left.
  - exists [2; 3; 7; 6]. split; [cbn; tauto|]. exists 2. now left.
  - exists [3; 0; 4; 7]. split; [cbn; tauto|]. exists 1. now left.
  - exists [0; 1; 2; 3]. split; [cbn; tauto|]. exists 0. now left.
  - exists [0; 1; 5; 4]. split; [cbn; tauto|]. exists 3. now right.
  - exists [1; 2; 6; 5]. split; [cbn; tauto|]. exists 3. now right.
Qed.
Lemma faces_all f : In f hex_faces -> Forall (fun k => k < 8) f /\ exists f', In f' faces /\ Permutation f f'.
Proof.
  intros H. assert (G : exists f', In f' faces /\ same_polygon f f').
  { unfold hex_faces in H. cbn [In] in H. repeat (destruct H as [H|H]); subst; try contradiction.
    - exists [0; 1; 2; 3]. split; [cbn; tauto|]. exists 0. now left.
    - exists [4; 5; 6; 7]. split; [cbn; tauto|]. exists 0. now left.
    - exists [0; 4; 5; 1]. split; [cbn; tauto|]. exists 3. now right.
    - exists [1; 5; 6; 2]. split; [cbn; tauto|]. exists 3. now right.
    - exists [7; 6; 2; 3]. split; [cbn; tauto|]. exists 2. now left.
    - exists [0; 4; 7; 3]. split; [cbn; tauto|]. exists 3. now left. }
  destruct G as (f' & I & P). apply polygon_perm in P. split; [|eauto]. destruct (faces_good _ I) as (B & _).
  rewrite Forall_forall in *. intros k K. apply B. now apply (Permutation_in _ P).
Qed.
Lemma corners (a : list Z) f : Forall (fun k => k < length a) f -> mapO (at_ub a) f = Ok (map (fun k => nth k a 0%Z) f) /\ Forall2 (fun k c => nth_error a k = Some c) f (map (fun k => nth k a 0%Z) f).
Proof.
  intros H. split.
  - apply mapO_ok. intros k K. rewrite Forall_forall in H. unfold at_ub. now rewrite (nth_error_nth' a 0%Z) by (now apply H).
  - induction H; constructor; auto. now apply nth_error_nth'.
Qed.
Lemma corners_fun (a : list Z) f p : Forall2 (fun k c => nth_error a k = Some c) f p -> p = map (fun k => nth k a 0%Z) f.
Proof. induction 1; [reflexivity|]. cbn [map]. f_equal; [symmetry; now apply nth_error_nth|assumption]. Qed.
Lemma hex_false a b : length a = 8 -> hex_interface false a b faces = Ok None.
Proof.
  intros L. assert (H : forall fs, (forall f, In f fs -> In f faces) -> hex_interface false a b fs = Ok None); [|now apply H].
  induction fs as [|f fs IH]; intros S; [reflexivity|]. cbn [hex_interface]. destruct (faces_good f (S _ (or_introl eq_refl))) as (B & _). rewrite <- L in B. rewrite (proj1 (corners a f B)). cbn [bind].
  rewrite Bool.andb_false_r. apply IH. intros; apply S; now right.
Qed.
Lemma hex_true a b : length a = 8 -> NoDup b -> exists r, hex_interface true a b faces = Ok r /\
  match r with Some (n, q) => face_of a q /\ n = length (shared q b) /\ 3 <= n | None => ~ hex_touch a b end.
Proof.
  intros L N. assert (H : forall fs, (forall f, In f fs -> In f faces) -> exists r, hex_interface true a b fs = Ok r /\
    match r with Some (n, q) => face_of a q /\ n = length (shared q b) /\ 3 <= n | None => forall f, In f fs -> length (shared (map (fun k => nth k a 0%Z) f) b) < 3 end).
  { induction fs as [|f fs IH]; intros S; [exists None; split; [reflexivity|intros f []]|]. cbn [hex_interface]. destruct (faces_good f (S _ (or_introl eq_refl))) as (B & f' & I & P). rewrite <- L in B.
    rewrite (proj1 (corners a f B)). cbn [bind]. rewrite Bool.andb_true_r, matches_shared by exact N.
    destruct (Nat.ltb_spec 2 (length (shared (map (fun k => nth k a 0%Z) f) b))) as [K|K].
    - eexists; split; [reflexivity|]. split; [|split; [reflexivity|lia]]. exists f', (map (fun k => nth k a 0%Z) f'). split; [exact I|]. split; [|now apply polygon_map].
      apply corners. destruct (faces_all _ I) as (B' & _). now rewrite L.
    - destruct (IH (fun g G => S g (or_intror G))) as (r & R & Q). exists r. split; [exact R|]. destruct r as [(n & q)|]; [exact Q|]. intros g [<-|G]; [lia|now apply Q]. }
  destruct (H faces (fun _ h => h)) as (r & R & Q). exists r. split; [exact R|]. destruct r as [(n & q)|]; [exact Q|].
  intros (q & (f & p & I & F & P) & K). destruct (faces_all _ I) as (_ & f' & I' & P'). specialize (Q f' I').
  rewrite (shared_perm q p b (polygon_perm _ _ P)) in K. apply corners_fun in F. subst p. rewrite (shared_perm _ _ b (Permutation_map _ P')) in K. lia.
Qed.

Lemma upd_pad (sh : list Z) k a : upd_ub (sh ++ repeat 0%Z (S k)) (length sh) a = Ok ((sh ++ [a]) ++ repeat 0%Z k).
Proof.
  unfold upd_ub. enough (H : upd (sh ++ repeat 0%Z (S k)) (length sh) a = Some ((sh ++ [a]) ++ repeat 0%Z k)) by now rewrite H.
  induction sh as [|x sh IH]; [reflexivity|]. cbn [app length upd]. now rewrite IH.
Qed.
Lemma upd_full (sh : list Z) a : upd_ub sh (length sh) a = UB.
Proof. unfold upd_ub. enough (H : upd sh (length sh) a = None) by now rewrite H. induction sh as [|x sh IH]; [reflexivity|]. cbn [length upd]. now rewrite IH. Qed.
Definition note (a : Z) (s : nat * list Z) (b : Z) : outcome (nat * list Z) :=
  let '(n, found) := s in if Z.eqb a b then let? found' := upd_ub found n a in Ok (S n, found') else Ok (n, found).
Lemma note_none a b : ~ In a b -> forall s, foldM (note a) s b = Ok s.
Proof.
  induction b as [|x b IH]; intros I (n & found); [reflexivity|]. cbn [foldM note]. destruct (Z.eqb_spec a x) as [->|E]; [exfalso; apply I; now left|]. cbn [bind]. apply IH. intros H. apply I. now right.
Qed.
Lemma note_in a b : NoDup b -> In a b -> forall n found, foldM (note a) (n, found) b = let? f := upd_ub found n a in Ok (S n, f).
Proof.
  induction 1 as [|x b I N IH]; intros H n found; [destruct H|]. cbn [foldM]. unfold note at 1. destruct (Z.eqb_spec a x) as [->|E].
  - destruct (upd_ub found n x); cbn [bind]; try reflexivity. now apply note_none.
  - cbn [bind]. apply IH. destruct H; congruence.
Qed.
Lemma other_fold b : NoDup b -> forall a sh, length sh <= 4 ->
  foldM (fun s x => foldM (note x) s b) (length sh, sh ++ repeat 0%Z (4 - length sh)) a
  = if (length (sh ++ shared a b) <=? 4)%nat then Ok (length (sh ++ shared a b), (sh ++ shared a b) ++ repeat 0%Z (4 - length (sh ++ shared a b))) else UB.
Proof.
  intros N. induction a as [|x a IH]; intros sh L.
  - cbn [foldM shared filter]. rewrite app_nil_r. destruct (Nat.leb_spec (length sh) 4); [reflexivity|lia].
  - cbn [foldM]. unfold shared. cbn [filter]. fold (shared a b). destruct (in_dec Z.eq_dec x b) as [I|I].
    + rewrite (note_in x b N I). destruct (Nat.eq_dec (length sh) 4) as [E|E].
      * replace (4 - length sh) with 0 by lia. cbn [repeat]. rewrite app_nil_r, upd_full. cbn [bind].
        destruct (Nat.leb_spec (length (sh ++ x :: shared a b)) 4) as [K|K]; [rewrite app_length in K; cbn [length] in K; lia|reflexivity].
      * replace (4 - length sh) with (S (4 - length (sh ++ [x]))) by (rewrite app_length; cbn [length]; lia). rewrite upd_pad. cbn [bind].
        replace (S (length sh)) with (length (sh ++ [x])) by (rewrite app_length; cbn [length]; lia). rewrite IH by (rewrite app_length; cbn [length]; lia).
        now replace ((sh ++ [x]) ++ shared a b) with (sh ++ x :: shared a b) by now rewrite <- app_assoc.
    + rewrite (note_none x b I). cbn [bind]. now apply IH.
Qed.
Lemma other_eq rec a b : NoDup b -> other_interface rec a b =
  if (length (shared a b) <=? 4)%nat then Ok (if ((2 <? length (shared a b))%nat && rec)%bool then Some (length (shared a b), shared a b ++ repeat 0%Z (4 - length (shared a b))) else None) else UB.
Proof.
  intros N. unfold other_interface. pose proof (other_fold b N a [] ltac:(cbn; lia)) as H. cbn [length app Nat.sub repeat] in H.
  change (foldM _ (0, [0%Z; 0%Z; 0%Z; 0%Z]) a) with (foldM (fun s x => foldM (note x) s b) (0, [0%Z; 0%Z; 0%Z; 0%Z]) a). rewrite H.
  destruct (_ <=? 4)%nat; reflexivity.
Qed.

(** ** All pairs *)
Lemma gid_some gids i g : nth_error gids i = Some g -> gid_at gids i = g. Proof. unfold gid_at. now intros ->. Qed.
Lemma gid_first n gids i g : i < n -> nth_error gids i = Some g -> gid_at (firstn n gids) i = g.
Proof.
  intros L H. unfold gid_at. enough (E : nth_error (firstn n gids) i = Some g) by now rewrite E. revert n i L H.
  induction gids as [|h gids IH]; intros [|n] [|i] L H; try discriminate; try lia; cbn in *; auto. apply IH; [lia|auto].
Qed.

Section Assemble.
  Variables (conn : list (list Z)) (gids : list Z) (lists : list (list nat)) (tch : list Z -> list Z -> Prop) (good : list Z -> list Z -> iface -> Prop).
  Hypothesis W : elements_wf conn gids lists.
  Hypothesis One : forall i j a b g h, neighbours conn lists i j a b -> nth_error gids i = Some g -> nth_error gids j = Some h ->
    exists r, one_pair conn gids g a j = Ok r /\
      ((r = [] /\ ~ ((g < h)%Z /\ tch a b)) \/ (exists f, r = [f] /\ if_left f = g /\ if_right f = h /\ (g < h)%Z /\ tch a b /\ good a b f)).
  Notation owned := (firstn (length lists) gids).
  Definition result_at (ij : nat * nat) : list iface :=
    match nth_error conn (fst ij), nth_error gids (fst ij) with
    | Some a, Some g => match one_pair conn gids g a (snd ij) with Ok r => r | _ => [] end
    | _, _ => []
    end.
  Lemma assemble : exists fs, construct_interfaces conn owned gids (stored_lists lists) = Ok fs /\ once fs /\ exactly tch conn gids lists fs /\
    forall f, In f fs -> exists i j a b, between gids f i j /\ neighbours conn lists i j a b /\ good a b f.
  Proof.
    destruct W as [Wg Wn Wo Wp Wl Wr Wd].
    assert (Nb : forall i j, In (i, j) (all_pairs 0 lists) -> i < length lists /\ exists a b g h, neighbours conn lists i j a b /\ nth_error gids i = Some g /\ nth_error gids j = Some h).
    { intros i j H. apply in_pairs in H. destruct H as (l & L & J). assert (I : i < length lists) by (apply nth_error_Some; congruence). split; [exact I|].
      assert (Jb : j < length conn). { rewrite Forall_forall in Wr. specialize (Wr l (nth_error_In _ _ L)). rewrite Forall_forall in Wr. now apply Wr. }
      destruct (nth_error conn i) as [a|] eqn:A; [|apply nth_error_None in A; lia]. destruct (nth_error conn j) as [b|] eqn:B; [|apply nth_error_None in B; lia].
      destruct (nth_error gids i) as [g|] eqn:G; [|apply nth_error_None in G; lia]. destruct (nth_error gids j) as [h|] eqn:H; [|apply nth_error_None in H; lia].
      exists a, b, g, h. split; [|auto]. split; [eauto|auto]. }
    exists (flat_map result_at (all_pairs 0 lists)).
    assert (Res : forall i j, In (i, j) (all_pairs 0 lists) -> exists a b g h, neighbours conn lists i j a b /\ nth_error gids i = Some g /\ nth_error gids j = Some h /\
       ((result_at (i, j) = [] /\ ~ ((g < h)%Z /\ tch a b)) \/ (exists f, result_at (i, j) = [f] /\ if_left f = g /\ if_right f = h /\ (g < h)%Z /\ tch a b /\ good a b f))).
    { intros i j H. destruct (Nb _ _ H) as (I & a & b & g & h & N & G & Hh). exists a, b, g, h. do 3 (split; [assumption|]). destruct (One _ _ _ _ _ _ N G Hh) as (r & R & Q).
      destruct N as (_ & A & _). unfold result_at. cbn [fst snd]. rewrite A, G, R. exact Q. }
    split; [|split; [|split]].
    - apply construct_ok. intros i l L. assert (I : i < length lists) by (apply nth_error_Some; congruence). destruct (nth_error conn i) as [a|] eqn:A; [|apply nth_error_None in A; lia]. exists a. split; [reflexivity|].
      intros j J. assert (P : In (i, j) (all_pairs 0 lists)) by (apply in_pairs; eauto). destruct (Nb _ _ P) as (_ & a' & b & g & h & N & G & Hh). destruct (One _ _ _ _ _ _ N G Hh) as (r & R & _).
      destruct N as (_ & A' & _). replace a' with a in * by congruence. rewrite (gid_first _ _ _ _ I G). unfold result_at. cbn [fst snd]. rewrite A, G, R. reflexivity.
    - unfold once. pose proof (pairs_nodup lists Wl 0) as N. revert N Res. generalize (all_pairs 0 lists). intros q. induction 1 as [|(i & j) q I N IH]; intros R; [constructor|].
      cbn [flat_map]. rewrite map_app. specialize (IH (fun i j h => R i j (or_intror h))). destruct (R i j (or_introl eq_refl)) as (a & b & g & h & _ & G & Hh & [(E & _)|(f & E & Lf & Rf & _)]); rewrite E; cbn [map app]; [exact IH|].
      constructor; [|exact IH]. rewrite Lf, Rf. intros K. apply in_map_iff in K. destruct K as (f' & Ef & K). apply in_flat_map in K. destruct K as ((i' & j') & P & K).
      destruct (R i' j' (or_intror P)) as (a' & b' & g' & h' & _ & G' & Hh' & [(E' & _)|(f2 & E' & Lf' & Rf' & _)]); rewrite E' in K; [destruct K|]. destruct K as [->|[]]. injection Ef as E1 E2.
      apply I. rewrite NoDup_nth_error in Wg. replace i with i'; [replace j with j'; [exact P|]|]; apply Wg; try congruence; apply nth_error_Some; congruence.
    - intros g h. rewrite in_map_iff. split.
      + intros (f & Ef & K). apply in_flat_map in K. destruct K as ((i & j) & P & K). destruct (Res i j P) as (a & b & g' & h' & Nn & G & Hh & [(E & _)|(f2 & E & Lf & Rf & Lt & Tc & _)]); rewrite E in K; [destruct K|].
        destruct K as [->|[]]. injection Ef as E1 E2. exists i, j, a, b. rewrite G, Hh, <- E1, <- E2, Lf, Rf. auto.
      + intros (i & j & a & b & Nn & G & Hh & Lt & Tc). assert (P : In (i, j) (all_pairs 0 lists)) by (apply in_pairs; destruct Nn; assumption).
        destruct (Res i j P) as (a' & b' & g' & h' & N' & G' & Hh' & Q). destruct Nn as (_ & A & B), N' as (_ & A' & B'). replace a' with a in * by congruence. replace b' with b in * by congruence. replace g' with g in * by congruence. replace h' with h in * by congruence.
        destruct Q as [(_ & Q)|(f & E & Lf & Rf & _)]; [exfalso; auto|]. exists f. rewrite Lf, Rf. split; [reflexivity|]. apply in_flat_map. exists (i, j). rewrite E. split; [exact P|now left].
    - intros f K. apply in_flat_map in K. destruct K as ((i & j) & P & K). destruct (Res i j P) as (a & b & g & h & Nn & G & Hh & [(E & _)|(f2 & E & Lf & Rf & Lt & Tc & Gd)]); rewrite E in K; [destruct K|].
      destruct K as [->|[]]. exists i, j, a, b. split; [split; congruence|]. auto.
  Qed.
End Assemble.

Lemma neigh_nodup conn gids lists i j a b : elements_wf conn gids lists -> neighbours conn lists i j a b -> NoDup a /\ NoDup b.
Proof. intros [_ _ _ _ _ _ D] (_ & A & B). rewrite Forall_forall in D. split; apply D; eapply nth_error_In; eauto. Qed.
Lemma rec_eq g h : ((negb (h =? -1) && (g <? h)) || (g <? h))%Z%bool = (g <? h)%Z.
Proof. destruct (g <? h)%Z; [apply Bool.orb_true_r|]. now rewrite Bool.andb_false_r. Qed.
Lemma pair_unfold conn gids g h a b j : nth_error conn j = Some b -> nth_error gids j = Some h -> length a = length b ->
  one_pair conn gids g a j = let? r := if (length a =? 8)%nat then hex_interface (g <? h)%Z a b faces else other_interface (g <? h)%Z a b in
    Ok (match r with Some (n, nodes) => [{| if_left := g; if_right := h; if_count := n; if_nodes := nodes |}] | None => [] end).
Proof. intros B H L. unfold one_pair. rewrite (gid_some _ _ _ H), rec_eq, L, (read_ok _ _ _ B). reflexivity. Qed.
