(** * Proofs about the file written by Bond_Visualization *)
From Coq Require Import String ZArith Sorted.
From Verif Require Import Base Num ModelScalar ModelNeigh ModelVtk ProofStep SpecVtk.
Local Open Scope list_scope.

Section Proofs.
  Context {N : Num}.
  Implicit Types (b : vblock N) (bs : list (vblock N)).

  Lemma map_at_in {A} (m : list (Z * A)) g : (exists a, In (g, a) m) -> exists a, map_at m g = Ok a /\ In (g, a) m.
  Proof.
    induction m as [|(h, a) m IH]; intros (x & I); [destruct I|]. cbn [map_at].
    destruct (Z.eqb_spec h g) as [->|NE]; [exists a; split; [reflexivity|now left]|].
    destruct I as [E|I]; [congruence|]. destruct IH as (y & E & I'); [eauto|]. exists y. split; [exact E|now right].
  Qed.

  (** ** Coordinates *)
  Lemma coords_block b m : length (vb_x b) = length (vb_gids b) ->
    exists m', foldM (fun m ig => let? x := at_ub (vb_x b) (fst ig) in Ok ((snd ig, x) :: m)) m (combine (seq 0 (length (vb_gids b))) (vb_gids b)) = Ok m' /\
    forall p, In p m' <-> In p m \/ exists i, named_at b i p.
  Proof.
    intros L.
    assert (H : forall (gids : list Z) (xs : list (V3 N)) k m, length xs = length gids -> (forall i, nth_error xs i = nth_error (vb_x b) (k + i)) ->
      exists m', foldM (fun m ig => let? x := at_ub (vb_x b) (fst ig) in Ok ((snd ig, x) :: m)) m (combine (seq k (length gids)) gids) = Ok m' /\
      forall p, In p m' <-> In p m \/ exists i, nth_error gids i = Some (fst p) /\ nth_error xs i = Some (snd p)).
    { clear. induction gids as [|g gids IH]; intros [|x xs] k m L A; try discriminate.
      - exists m. split; [reflexivity|]. intros p. split; [auto|intros [I|([|i] & E & _)]; [exact I|discriminate..]].
      - cbn [length seq combine foldM fst snd]. unfold at_ub at 1. pose proof (A 0) as A0. rewrite Nat.add_0_r in A0. cbn in A0. rewrite <- A0. cbn [bind].
        destruct (IH xs (S k) ((g, x) :: m)) as (m' & E & H).
        { now injection L. }
        { intros i. specialize (A (S i)). cbn in A. rewrite A. f_equal. lia. }
        exists m'. split; [exact E|]. intros p. rewrite H. split.
        + intros [[Q|I]|(i & E1 & E2)]; [right; exists 0; subst p; auto|now left|right; exists (S i); auto].
        + intros [I|([|i] & E1 & E2)]; [left; now right|cbn in E1, E2; left; left; destruct p; cbn in *; congruence|right; exists i; auto]. }
    destruct (H (vb_gids b) (vb_x b) 0 m L) as (m' & E & I); [reflexivity|]. exists m'. auto.
  Qed.
  Lemma coords_all bs : Forall (fun b => length (vb_x b) = length (vb_gids b)) bs -> exists m, coordinates bs = Ok m /\
    forall p, In p m <-> exists b i, In b bs /\ named_at b i p.
  Proof.
    unfold coordinates.
    assert (H : forall bs m, Forall (fun b => length (vb_x b) = length (vb_gids b)) bs -> exists m',
      foldM (fun m b => foldM (fun m ig => let? x := at_ub (vb_x b) (fst ig) in Ok ((snd ig, x) :: m)) m (combine (seq 0 (length (vb_gids b))) (vb_gids b))) m bs = Ok m' /\
      forall p, In p m' <-> In p m \/ exists b i, In b bs /\ named_at b i p).
    { clear. induction bs as [|b bs IH]; intros m F.
      - exists m. split; [reflexivity|]. intros p. split; [auto|intros [I|(? & ? & [] & _)]; exact I].
      - inversion F as [|? ? L F']; subst. cbn [foldM]. destruct (coords_block b m L) as (m1 & E1 & H1). rewrite E1. cbn [bind].
        destruct (IH m1 F') as (m2 & E2 & H2). exists m2. split; [exact E2|]. intros p. rewrite H2, H1. split.
        + intros [[I|(i & I)]|(b' & i & I & Q)]; [auto|right; exists b, i; split; [now left|exact I]|right; exists b', i; split; [now right|exact Q]].
        + intros [I|(b' & i & [->|I] & Q)]; [auto|left; right; eauto|right; eauto]. }
    intros F. destruct (H bs [] F) as (m & E & I). exists m. split; [exact E|]. intros p. rewrite I. split; [intros [[]|Q]; exact Q|auto].
  Qed.
  Lemma coords_at bs m : consistent bs -> (forall p, In p m <-> exists b i, In b bs /\ named_at b i p) ->
    forall b i p, In b bs -> named_at b i p -> map_at m (fst p) = Ok (snd p).
  Proof.
    intros C H b i p Ib Hp. destruct (map_at_in m (fst p)) as (a & E & I).
    { exists (snd p). apply H. exists b, i. split; [exact Ib|]. now destruct p. }
    rewrite E. f_equal. apply H in I as (b' & i' & Ib' & Hp'). symmetry. exact (C b b' i i' p (fst p, a) Ib Ib' Hp Hp' eq_refl).
  Qed.

  (** ** Bonds *)
  Definition gids_of (pq : named (N:=N) * named (N:=N)) : Z * Z := (fst (fst pq), fst (snd pq)).
  Lemma at_len (A : Type) (pre l : list A) a : at_ub (pre ++ a :: l) (length pre) = Ok a.
  Proof. unfold at_ub. rewrite nth_error_app2, Nat.sub_diag by lia. reflexivity. Qed.
  Lemma row_total b js : forall pre post g, exists r, bond_row (vb_gids b) (pre ++ js ++ post) (length js) (length pre) g = Ok r.
  Proof.
    induction js as [|j js IH]; intros pre post g; [now exists []|]. cbn [length bond_row app]. rewrite at_len. cbn [bind].
    destruct (IH (pre ++ [j]) post g) as (r & E). rewrite app_length, <- app_assoc in E. cbn [length app] in E. rewrite E. cbn [bind]. eauto.
  Qed.
  Lemma row_ok b js qs p : Forall2 (named_at b) js qs -> forall pre post,
    bond_row (vb_gids b) (pre ++ js ++ post) (length js) (length pre) (fst p) = Ok (map gids_of (map (pair p) qs)).
  Proof.
    induction 1 as [|j q js qs (H & _) _ IH]; intros pre post; [reflexivity|]. cbn [length bond_row app map]. rewrite at_len. cbn [bind].
    specialize (IH (pre ++ [j]) post). rewrite app_length, <- app_assoc in IH. cbn [length app] in IH. rewrite IH. cbn [bind].
    unfold gid. rewrite H. reflexivity.
  Qed.
  Lemma wanted_ok node g : store_data node g = true <-> wanted node g.
  Proof. destruct node as [k|]; cbn; [rewrite Z.eqb_eq; lia|tauto]. Qed.
  Lemma rows_ok node b i nbrs l : bonds_of_block node b i nbrs l -> forall pre,
    bond_rows node (vb_gids b) (pre ++ encode nbrs) (length nbrs) i (length pre) = Ok (map gids_of l).
  Proof.
    induction 1 as [i|i js nbrs l p Hp W B IH|i js nbrs qs l p Hp W F B IH]; intros pre; [reflexivity| |];
    cbn [length bond_rows encode flat_map app]; rewrite at_len; cbn [bind]; change (flat_map (fun l => length l :: l) nbrs) with (encode nbrs);
    specialize (IH (pre ++ length js :: js)); rewrite <- app_assoc, app_length in IH; cbn [length app] in IH;
    replace (length pre + 1 + length js) with (length pre + S (length js)) by lia; unfold gid at 1; rewrite (proj1 Hp), Nat.add_1_r.
    - destruct (row_total b js (pre ++ [length js]) (encode nbrs) (fst p)) as (r & E). rewrite <- app_assoc, app_length in E. cbn [length app] in E. rewrite Nat.add_1_r in E. rewrite E. cbn [bind].
      rewrite Nat.add_1_r, IH. cbn [bind]. unfold gid. rewrite (proj1 Hp). destruct (store_data node (fst p)) eqn:SD; [apply wanted_ok in SD; contradiction|reflexivity].
    - pose proof (row_ok b js qs p F (pre ++ [length js]) (encode nbrs)) as E. rewrite <- app_assoc, app_length in E. cbn [length app] in E. rewrite Nat.add_1_r in E. rewrite E. cbn [bind].
      rewrite Nat.add_1_r, IH. cbn [bind]. unfold gid. rewrite (proj1 Hp). rewrite (proj2 (wanted_ok node (fst p)) W). now rewrite map_app.
  Qed.
  Lemma named_ex b i : length (vb_x b) = length (vb_gids b) -> i < length (vb_gids b) -> exists p, named_at b i p.
  Proof.
    intros L H. destruct (nth_error (vb_gids b) i) as [g|] eqn:E1; [|apply nth_error_None in E1; lia].
    destruct (nth_error (vb_x b) i) as [x|] eqn:E2; [|apply nth_error_None in E2; lia]. now exists (g, x).
  Qed.
  Lemma bonds_ex node b nbrs : holds b nbrs -> exists l, bonds_of_block node b 0 nbrs l.
  Proof.
    intros (L & _ & _ & LN & F).
    assert (H : forall nbrs i, i + length nbrs <= length (vb_gids b) -> Forall (Forall (fun j => j < length (vb_gids b))) nbrs -> exists l, bonds_of_block node b i nbrs l).
    { clear - L. induction nbrs as [|js nbrs IH]; intros i LN F; [exists []; constructor|]. inversion F as [|? ? F1 F2]; subst.
      destruct (IH (S i)) as (l & B); [cbn in LN; lia|exact F2|]. destruct (named_ex b i L) as (p & Hp); [cbn in LN; lia|].
      destruct (store_data node (fst p)) eqn:SD.
      - assert (Q : exists qs, Forall2 (named_at b) js qs).
        { clear - F1 L. induction F1 as [|j js Hj F IH]; [exists []; constructor|]. destruct IH as (qs & IH). destruct (named_ex b j L Hj) as (q & Hq). exists (q :: qs). now constructor. }
        destruct Q as (qs & Q). eexists. eapply bb_take; eauto. now apply wanted_ok.
      - exists l. eapply bb_skip; eauto. intros W. apply wanted_ok in W. congruence. }
    apply (H nbrs 0); auto.
  Qed.
  Lemma conn_ok node bs nbrss lines : Forall2 holds bs nbrss -> all_bonds node bs nbrss lines -> connectivity node bs = Ok (map gids_of lines).
  Proof.
    intros H (ls & F & ->). unfold connectivity.
    assert (E : mapO (fun b => bond_rows node (vb_gids b) (vb_flat b) (vb_owned b) 0 0) bs = Ok (map (map gids_of) ls)).
    { revert ls F. induction H as [|b nbrs bs nbrss Hb H IH]; intros ls F; inversion F as [|? l ? ls' B F']; subst; [reflexivity|].
      cbn [mapO map]. destruct Hb as (_ & -> & -> & _). cbn [fst snd] in B. pose proof (rows_ok node b 0 nbrs l B []) as RO. cbn [app length] in RO. rewrite RO. cbn [bind]. rewrite (IH ls' F'). reflexivity. }
    rewrite E. cbn [bind]. now rewrite concat_map.
  Qed.
  Lemma all_bonds_ex node bs nbrss : Forall2 holds bs nbrss -> exists lines, all_bonds node bs nbrss lines.
  Proof.
    intros H. enough (exists ls, Forall2 (fun bn l => bonds_of_block node (fst bn) 0 (snd bn) l) (combine bs nbrss) ls) as (ls & F) by (exists (concat ls); now exists ls).
    induction H as [|b nbrs bs nbrss Hb H (ls & IH)]; [exists []; constructor|]. destruct (bonds_ex node b nbrs Hb) as (l & B). exists (l :: ls). now constructor.
  Qed.
  Lemma bonds_named node b i nbrs l : bonds_of_block node b i nbrs l -> forall pq, In pq l -> (exists k, named_at b k (fst pq)) /\ (exists k, named_at b k (snd pq)).
  Proof.
    induction 1 as [i|i js nbrs l p Hp W B IH|i js nbrs qs l p Hp W F B IH]; intros pq I; [destruct I|auto|].
    apply in_app_iff in I as [I|I]; [|auto]. apply in_map_iff in I as (q & <- & I). cbn. split; [eauto|].
    clear - F I. induction F as [|? ? ? ? ? F IHF]; [destruct I|destruct I as [->|I]; eauto].
  Qed.
  Lemma all_named node bs nbrss lines : all_bonds node bs nbrss lines -> forall pq, In pq lines ->
    (exists b k, In b bs /\ named_at b k (fst pq)) /\ (exists b k, In b bs /\ named_at b k (snd pq)).
  Proof.
    intros (ls & F & ->) pq I. apply in_concat in I as (l & I1 & I2). 
    assert (Q : exists bn, In bn (combine bs nbrss) /\ bonds_of_block node (fst bn) 0 (snd bn) l).
    { clear I2. induction F as [|? ? ? ? ? F IHF]; [destruct I1|]. destruct I1 as [->|I1]; [eexists; split; [now left|eassumption]|]. destruct (IHF I1) as (bn & A & B). exists bn. split; [now right|exact B]. }
    destruct Q as ((b, nbrs) & I3 & B). apply in_combine_l in I3. cbn [fst snd] in B.
    destruct (bonds_named _ _ _ _ _ B pq I2) as ((k & A1) & (k' & A2)). split; [exists b, k|exists b, k']; auto.
  Qed.

  (** ** Node ids *)
  Lemma insert_in g s x : In x (set_insert g s) <-> x = g \/ In x s.
  Proof.
    induction s as [|h s IH]; cbn [set_insert]; [cbn; intuition|]. destruct (Z.ltb_spec g h); [cbn; intuition|].
    destruct (Z.ltb_spec h g); [cbn; rewrite IH; intuition|]. assert (g = h) by lia. subst. cbn. intuition.
  Qed.
  Lemma insert_sorted g s : StronglySorted Z.lt s -> StronglySorted Z.lt (set_insert g s).
  Proof.
    induction 1 as [|h s S IH F]; cbn [set_insert]; [repeat constructor|]. destruct (Z.ltb_spec g h).
    - constructor; [now constructor|]. constructor; [assumption|]. eapply Forall_impl; [|exact F]. intros; lia.
    - destruct (Z.ltb_spec h g); [|now constructor]. constructor; [exact IH|]. apply Forall_forall. intros x I. apply insert_in in I as [->|I]; [assumption|].
      rewrite Forall_forall in F. auto.
  Qed.
  Lemma ids_ok conn : StronglySorted Z.lt (node_ids conn) /\ forall g, In g (node_ids conn) <-> exists ab, In ab conn /\ (g = fst ab \/ g = snd ab).
  Proof.
    unfold node_ids.
    assert (H : forall conn s, StronglySorted Z.lt s -> let r := fold_left (fun s ab => set_insert (snd ab) (set_insert (fst ab) s)) conn s in
      StronglySorted Z.lt r /\ forall g, In g r <-> In g s \/ exists ab : Z * Z, In ab conn /\ (g = fst ab \/ g = snd ab)).
    { clear. induction conn as [|ab conn IH]; intros s S r; [split; [exact S|intros g; split; [auto|intros [I|(? & [] & _)]; exact I]]|].
      cbn [fold_left] in r. destruct (IH (set_insert (snd ab) (set_insert (fst ab) s))) as (A & B); [now apply insert_sorted, insert_sorted|].
      split; [exact A|]. intros g. unfold r. rewrite B, !insert_in. split.
      - intros [[Q|[Q|Q]]|(cd & I & Q)]; [right; exists ab; split; [now left|auto]..|auto|right; exists cd; split; [now right|exact Q]].
      - intros [Q|(cd & [<-|I] & Q)]; [auto|destruct Q; auto|right; eauto]. }
    destruct (H conn []) as (A & B); [constructor|]. split; [exact A|]. intros g. rewrite B. split; [intros [[]|Q]; exact Q|auto].
  Qed.
  Lemma sorted_nodup l : StronglySorted Z.lt l -> NoDup l.
  Proof. induction 1 as [|a l S IH F]; constructor; [|exact IH]. intros I. rewrite Forall_forall in F. apply F in I. lia. Qed.

  Lemma vtk_at ids : NoDup ids -> forall g, In g ids -> exists i, map_at (vtk_ids ids) g = Ok i /\ nth_error ids i = Some g.
  Proof.
    intros ND g I. unfold vtk_ids.
    assert (H : forall l m (p : Z * nat), In p (fold_left (fun m ig => (snd ig, fst ig) :: m) l m) <-> In p m \/ In (snd p, fst p) l).
    { clear. induction l as [|(k, h) l IH]; intros m p; cbn [fold_left]; [cbn; intuition|]. rewrite IH. destruct p as (x, y). cbn. split.
      - intros [[Q|Q]|Q]; [injection Q as -> ->; auto|auto|auto].
      - intros [Q|[Q|Q]]; [auto|injection Q as -> ->; auto|auto]. }
    assert (C : forall k (ids : list Z) i g, In (i, g) (combine (seq k (length ids)) ids) <-> k <= i /\ nth_error ids (i - k) = Some g).
    { clear. intros k ids; revert k; induction ids as [|h ids IH]; intros k i g; cbn [length seq combine].
      - split; [intros []|intros (_ & E); destruct (i - k); discriminate].
      - cbn [In]. rewrite IH. split.
        + intros [Q|(Q1 & Q2)]; [injection Q as -> ->; split; [lia|now rewrite Nat.sub_diag]|split; [lia|]]. replace (i - k) with (S (i - S k)) by lia. exact Q2.
        + intros (Q1 & Q2). destruct (Nat.eq_dec i k) as [->|NE]; [left; rewrite Nat.sub_diag in Q2; cbn in Q2; congruence|right; split; [lia|]].
          replace (i - k) with (S (i - S k)) in Q2 by lia. exact Q2. }
    destruct (map_at_in (fold_left (fun m ig => (snd ig, fst ig) :: m) (combine (seq 0 (length ids)) ids) []) g) as (i & E & Q).
    { apply In_nth_error in I as (i & Ei). exists i. apply H. right. cbn. apply C. rewrite Nat.sub_0_r. split; [lia|exact Ei]. }
    exists i. split; [exact E|]. apply H in Q as [[]|Q]. cbn in Q. apply C in Q as (_ & Q). now rewrite Nat.sub_0_r in Q.
  Qed.

  (** ** Reading *)
  Lemma read_points_ok (pts : list (V3 N)) rest : read_points (length pts) (concat (map (fun x => [Dbl (vx x); Dbl (vy x); Dbl (vz x)]) pts) ++ rest) = Some (pts, rest).
  Proof. induction pts as [|[x y z] pts IH]; [reflexivity|]. cbn [length read_points map concat app]. now rewrite IH. Qed.
  Lemma read_cells_ok (cells : list (nat * nat)) (rest : list (token N)) :
    read_cells (length cells) (concat (map (fun ij => [Int 2; Int (Z.of_nat (fst ij)); Int (Z.of_nat (snd ij))]) cells) ++ rest) =
    Some (map (fun ij => [Z.of_nat (fst ij); Z.of_nat (snd ij)]) cells, rest).
  Proof.
    induction cells as [|(i, j) cells IH]; [reflexivity|]. cbn [length read_cells map concat app fst snd].
    change (Z.to_nat 2) with 2. cbn [read_ints]. now rewrite IH.
  Qed.
  Lemma read_types_ok {A} (l : list A) : read_ints (N:=N) (length l) (concat (map (fun _ => [Int 3]) l)) = Some (map (fun _ => 3%Z) l, []).
  Proof. induction l as [|a l IH]; [reflexivity|]. cbn [length read_ints map concat app]. now rewrite IH. Qed.
  Lemma size_ok (cells : list (nat * nat)) : fold_right Nat.add 0 (map (fun c : list Z => S (length c)) (map (fun ij => [Z.of_nat (fst ij); Z.of_nat (snd ij)]) cells)) = 3 * length cells.
  Proof. induction cells as [|c cells IH]; [reflexivity|]. cbn [map fold_right length] in *. rewrite IH. lia. Qed.

  Lemma file_ok node bs nbrss lines : Forall2 holds bs nbrss -> consistent bs -> all_bonds node bs nbrss lines ->
    exists file pts cells types ids, bond_file node bs = Ok file /\ read_vtk file = Some (pts, cells, types) /\
      picture pts cells types (map (fun pq => (snd (fst pq), snd (snd pq))) lines) /\
      NoDup ids /\ (forall g, In g ids <-> exists pq, In pq lines /\ (g = fst (fst pq) \/ g = fst (snd pq))) /\
      Forall2 (fun g x => exists b i, In b bs /\ named_at b i (g, x)) ids pts.
  Proof.
    intros H C AB. unfold bond_file.
    destruct (coords_all bs) as (m & Em & Hm). { clear - H. induction H as [|b n bs ns (L & _) H IH]; constructor; auto. }
    rewrite Em. cbn [bind]. rewrite (conn_ok node bs nbrss lines H AB). cbn [bind]. pose proof (all_named node bs nbrss lines AB) as AN.
    pose proof (coords_at bs m C Hm) as CA. set (conn := map gids_of lines). destruct (ids_ok conn) as (SS & IN). set (ids := node_ids conn) in *.
    assert (IN' : forall g, In g ids <-> exists pq, In pq lines /\ (g = fst (fst pq) \/ g = fst (snd pq))).
    { intros g. rewrite IN. unfold conn. split.
      - intros (ab & I & Q). apply in_map_iff in I as (pq & <- & I). eauto.
      - intros (pq & I & Q). exists (gids_of pq). split; [now apply in_map|exact Q]. }
    pose proof (sorted_nodup ids SS) as ND. unfold write_vtk.
    assert (NM : forall g, In g ids -> exists b i x, In b bs /\ named_at b i (g, x)).
    { intros g I. apply IN' in I as (pq & I & Q). destruct (AN pq I) as ((b & k & Ib & Hk) & (b' & k' & Ib' & Hk')).
      destruct Q as [->| ->]; [exists b, k, (snd (fst pq))|exists b', k', (snd (snd pq))]; (split; [assumption|]); [now destruct (fst pq)|now destruct (snd pq)]. }
    destruct (mapO_spec (map_at m) ids) as (pts & Ep & Fp). { intros g I. destruct (NM g I) as (b & i & x & Ib & Hx). exists x. exact (CA b i (g, x) Ib Hx). }
    rewrite Ep. cbn [bind].
    assert (CE : exists cells, mapO (fun ab => let? i := map_at (vtk_ids ids) (fst ab) in let? j := map_at (vtk_ids ids) (snd ab) in Ok (i, j)) conn = Ok cells /\
      Forall2 (fun pq ij => nth_error pts (fst ij) = Some (snd (fst pq)) /\ nth_error pts (snd ij) = Some (snd (snd pq))) lines cells).
    { assert (PT : forall i g b k x, nth_error ids i = Some g -> In b bs -> named_at b k (g, x) -> nth_error pts i = Some x).
      { intros i g b k x E Ib Hx. pose proof (CA b k (g, x) Ib Hx) as A. cbn [fst snd] in A. clear - E A Fp. revert i E. induction Fp as [|h y ids pts Q Fp IH]; intros [|i] E; cbn in *; try discriminate; [congruence|auto]. }
      unfold conn. assert (S : forall l, (forall pq, In pq l -> In pq lines) -> exists cells, mapO (fun ab => let? i := map_at (vtk_ids ids) (fst ab) in let? j := map_at (vtk_ids ids) (snd ab) in Ok (i, j)) (map gids_of l) = Ok cells /\
        Forall2 (fun pq ij => nth_error pts (fst ij) = Some (snd (fst pq)) /\ nth_error pts (snd ij) = Some (snd (snd pq))) l cells).
      { induction l as [|pq l IH]; intros SUB; [exists []; split; [reflexivity|constructor]|]. destruct IH as (cells & E & F); [intros; apply SUB; now right|].
        assert (I : In pq lines) by (apply SUB; now left). destruct (AN pq I) as ((b & k & Ib & Hk) & (b' & k' & Ib' & Hk')).
        destruct (vtk_at ids ND (fst (fst pq))) as (i & Ei & Ni). { apply IN'. exists pq. auto. }
        destruct (vtk_at ids ND (fst (snd pq))) as (j & Ej & Nj). { apply IN'. exists pq. auto. }
        cbn [map mapO gids_of fst snd]. rewrite Ei. cbn [bind]. rewrite Ej. cbn [bind]. rewrite E. cbn [bind].
        exists ((i, j) :: cells). split; [reflexivity|]. constructor; [|exact F]. cbn [fst snd]. split.
        - exact (PT i _ b k _ Ni Ib Hk).
        - exact (PT j _ b' k' _ Nj Ib' Hk'). }
      apply S. auto. }
    destruct CE as (cells & Ec & Fc). rewrite Ec. cbn [bind].
    assert (LP : length pts = length ids) by (clear - Fp; induction Fp; cbn; congruence).
    assert (LC : length cells = length conn) by (unfold conn; rewrite map_length; clear - Fc; induction Fc; cbn; congruence).
    eexists. exists pts, (map (fun ij => [Z.of_nat (fst ij); Z.of_nat (snd ij)]) cells), (map (fun _ => 3%Z) conn), ids.
    split; [reflexivity|]. split.
    - cbn [app read_vtk]. cbn [concat app]. rewrite concat_app. cbn [concat app]. rewrite concat_app. cbn [concat app].
      rewrite Nat2Z.id, <- LP, read_points_ok. rewrite Nat2Z.id, <- LC at 1. rewrite read_cells_ok. rewrite Nat2Z.id, read_types_ok. rewrite size_ok, Z.eqb_refl, LC.
      replace (3 * Z.of_nat (length conn) =? Z.of_nat (3 * length conn))%Z with true by (symmetry; apply Z.eqb_eq; lia). reflexivity.
    - split; [|split; [exact ND|split; [exact IN'|]]].
      + clear - Fc. unfold conn. clear conn. induction Fc as [|pq (i, j) lines cells (A & B) F IH]; [exact I|]. cbn [map picture]. split; [|exact IH].
        split; [reflexivity|]. exists i, j. auto.
      + assert (G : forall g x, In g ids -> map_at m g = Ok x -> exists b i, In b bs /\ named_at b i (g, x)).
        { intros g x I E. destruct (NM g I) as (b & i & y & Ib & Hy). pose proof (CA b i (g, y) Ib Hy) as Q. cbn [fst snd] in Q. rewrite Q in E. injection E as ->. eauto. }
        clear - Fp G. induction Fp as [|g x ids pts Q F IH]; constructor; [apply G; [now left|exact Q]|]. apply IH. intros; apply G; [now right|assumption].
  Qed.
End Proofs.
