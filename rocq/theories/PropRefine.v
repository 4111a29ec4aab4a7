(** * C73: neighbours by intersection of elements with the horizon *)
From Coq Require Import Reals Lra Sorting.Sorted SpecFloat.
From Verif Require Import Base Num ModelScalar ModelGeom ModelMesh ModelInterface ModelVtk ModelGlobal ModelRefine ProofMesh ProofInterface ProofVtk ProofGeom2 ProofGeom3 ProofSphere2 ProofSphere4 ProofGlobal
  ProofRefine PropGeom PropSphere SpecGeom SpecInterface SpecRefine.
Local Open Scope R_scope.

(** ** The search radius is enlarged by the largest dimension of an element *)
Theorem C73_dimension (procs : list (list (list point))) : procs <> [] ->
  (Forall (Forall known) procs -> exists D, max_dimension (N:=RN) procs = Ok D /\ largest_dimension (concat procs) D) /\
  (~ Forall (Forall known) procs -> max_dimension (N:=RN) procs = Err).
Proof.
  intros Ne. split.
  - intros K. assert (L : exists l, mapO (local_dimension (N:=RN)) procs = Ok l /\ Forall2 largest_dimension procs l).
    { clear Ne. induction K as [|els procs Ke K IH]; [exists []; split; [reflexivity|constructor]|]. destruct IH as (l & E & F). destruct (local_good els Ke) as (D & ED & LD). exists (D :: l).
      cbn [mapO]. rewrite ED. cbn [bind]. rewrite E. split; [reflexivity|now constructor]. }
    destruct L as (l & E & F). unfold max_dimension. rewrite E. cbn [bind]. destruct F as [|els D procs l LD F]; [contradiction|]. cbn [all_reduce]. eexists. split; [reflexivity|]. cbn [concat].
    clear - F LD. revert D els LD. induction F as [|els2 D2 procs l L2 F IH]; intros D els LD; cbn [fold_left concat]; [now rewrite app_nil_r|].
    assert (M : largest_dimension (els ++ els2) (nmax (N:=RN) D D2)).
    { destruct LD as (A & B), L2 as (A2 & B2). change (nmax (N:=RN) D D2) with (if Rltb D D2 then D2 else D). unfold Rltb. destruct (Rlt_dec D D2) as [Lt|Ge].
      - split; [intros e p q I P Q; apply in_app_iff in I; destruct I as [I|I]; [specialize (A e p q I P Q); lra|now apply (A2 e)]|].
        destruct B2 as [B2|(e & p & q & I & K)]; [now left|]. right. exists e, p, q. split; [apply in_app_iff; now right|exact K].
      - split; [intros e p q I P Q; apply in_app_iff in I; destruct I as [I|I]; [now apply (A e)|specialize (A2 e p q I P Q); lra]|].
        destruct B as [B|(e & p & q & I & K)]; [now left|]. right. exists e, p, q. split; [apply in_app_iff; now left|exact K]. }
    rewrite app_assoc. exact (IH _ _ M).
  - intros K. unfold max_dimension. assert (H : mapO (local_dimension (N:=RN)) procs = Err); [|now rewrite H].
    clear Ne. induction procs as [|els procs IH]; [exfalso; apply K; constructor|]. cbn [mapO].
    assert (De : {Forall known els} + {~ Forall known els}) by (apply Forall_dec; intros e; apply in_dec, Nat.eq_dec).
    destruct De as [Ke|Ke].
    + destruct (local_good els Ke) as (D & -> & _). cbn [bind]. rewrite IH; [reflexivity|]. intros F. apply K. now constructor.
    + enough (H : forall m, 0 <= m -> foldM (element_dimension (N:=RN)) m els = Err). { assert (H0 := H 0 (Rle_refl 0)). unfold local_dimension. exact (f_equal (fun r => let? b := (let? m := r in Ok (sqrt m)) in let? bs := mapO (local_dimension (N:=RN)) procs in Ok (b :: bs)) H0). }
      clear IH K. induction els as [|e els IH]; intros m M; [exfalso; apply Ke; constructor|]. cbn [foldM]. destruct (in_dec Nat.eq_dec (length e) [1; 4; 8; 10; 20]%nat) as [I|I].
      * destruct (element_good e m I M) as (m' & -> & G & _). cbn [bind]. apply IH; [|lra]. intros F. apply Ke. now constructor.
      * now rewrite (element_unknown e m I).
Qed.
Print Assumptions C73_dimension.

(** ** That is enough: an element with any point within the horizon has its centroid within the
    enlarged radius. *)
Lemma hull_ball l (c : point) D : (forall p, In p l -> distance p c <= D) -> forall y, hull l y -> distance y c <= D.
Proof.
  intros H y Y. induction Y as [p I|s x y S X IHx Y IHy]; [now apply H|].
  assert (E : vsub (mix2 (1 - s) s x y) c = vadd (vscale (N:=RN) (1 - s) (vsub x c)) (vscale (N:=RN) s (vsub y c))) by (destruct x, y, c; unfold mix2, vsub, vadd, vscale; cbn; to_R; f_equal; ring).
  unfold distance in *. rewrite E. apply Rle_trans with (vlen (vscale (N:=RN) (1 - s) (vsub x c)) + vlen (vscale (N:=RN) s (vsub y c)))%R; [apply ProofGlobal.triangle|].
  rewrite !ProofGeom3.vlen_scale. rewrite !Rabs_pos_eq by lra.
  assert ((1 - s) * vlen (vsub x c) <= (1 - s) * D) by (apply Rmult_le_compat_l; lra). assert (s * vlen (vsub y c) <= s * D) by (apply Rmult_le_compat_l; lra). change (T RN) with R in *. lra.
Qed.
Lemma distance_swap (p q : point) : distance p q = distance q p.
Proof. rewrite !distance_sqrt. f_equal. apply dist2_sym. Qed.
Lemma distance_tri (p q r : point) : distance p r <= distance p q + distance q r.
Proof.
  unfold distance. replace (vsub p r) with (vadd (vsub p q) (vsub q r)) by (destruct p, q, r; unfold vsub, vadd; cbn; to_R; f_equal; ring). apply ProofGlobal.triangle.
Qed.
Theorem C73_radius_suffices (elements : list (list point)) D (h : hexa RN) m (v : R) x y r :
  largest_dimension elements D -> In (hex_nodes h) elements -> hex_centroid_and_volume h = Ok (m, v) -> 0 < v ->
  hull (hex_nodes h) y -> distance y x <= r -> distance m x <= r + D.
Proof.
  intros (L & _) I C V Y Yx. pose proof (C44_hexahedron_centroid h m v C V) as M.
  assert (Dm : distance m y <= D).
  { apply (hull_ball (hex_nodes h)); [|exact M]. intros p P. rewrite distance_swap. apply (hull_ball (hex_nodes h)); [|exact Y]. intros q Q. apply (L (hex_nodes h)); assumption. }
  pose proof (distance_tri m y x). lra.
Qed.
Print Assumptions C73_radius_suffices.

(** ** The lists: every list keeps, in order, exactly the elements for which the test says so; the
    new local numbers name the same elements; the owned elements stay first, then come the ghosts
    that are still needed, in increasing order. *)
Lemma filter_row_ok (overlap : list Z) (kp : Z -> outcome bool) (kf : Z -> bool) l gl : listed_gids overlap l gl -> (forall g, In g gl -> kp g = Ok (kf g)) ->
  filter_row overlap kp l = Ok (filter kf gl).
Proof.
  intros F H. unfold filter_row. rewrite mapO_ok with (g := fun j => if kf (gid_at overlap j) then [gid_at overlap j] else []).
  - cbn [bind]. f_equal. clear H. induction F as [|j g l gl E F IH]; [reflexivity|]. cbn [map concat filter]. rewrite IH, (gid_some _ _ _ E). destruct (kf g); reflexivity.
  - intros j J. assert (K : In (gid_at overlap j) gl). { clear H. induction F as [|j0 g l gl E F IH]; [destruct J|]. destruct J as [<-|J]; [left; symmetry; now apply gid_some|right; auto]. }
    rewrite (H _ K). reflexivity.
Qed.
Lemma nodup_firstn {A} n (l : list A) : NoDup l -> NoDup (firstn n l).
Proof.
  intros D. revert n. induction D as [|a l I D IH]; intros [|n]; cbn [firstn]; try constructor; [|apply IH]. intros K. apply I. rewrite <- (firstn_skipn n l). apply in_app_iff. now left.
Qed.
Theorem C73_lists (N : Num) (corners : Z -> list (V3 N)) (x : list (V3 N)) (horizon : list N) gids lists glists (kf : nat -> Z -> bool) :
  NoDup gids -> (length lists <= length gids)%nat -> (length lists <= length x)%nat -> (length lists <= length horizon)%nat -> Forall2 (listed_gids gids) lists glists ->
  (forall i gl xi hi g, nth_error glists i = Some gl -> nth_error x i = Some xi -> nth_error horizon i = Some hi -> In g gl -> keep corners xi hi g = Ok (kf i g)) ->
  exists ghosts lists', remove_nonintersecting corners x horizon (firstn (length lists) gids) gids (stored_lists lists) = Ok (firstn (length lists) gids ++ ghosts, stored_lists lists') /\
    length lists' = length lists /\
    (forall i gl, nth_error glists i = Some gl -> exists l', nth_error lists' i = Some l' /\ listed_gids (firstn (length lists) gids ++ ghosts) l' (filter (kf i) gl)) /\
    StronglySorted Z.lt ghosts /\
    (forall g, In g ghosts <-> ~ In g (firstn (length lists) gids) /\ exists i gl, nth_error glists i = Some gl /\ In g (filter (kf i) gl)) /\
    NoDup (firstn (length lists) gids ++ ghosts).
Proof.
  intros D Lo Lx Lh F K. set (owned := firstn (length lists) gids).
  set (rows := map (fun ig => filter (kf (fst ig)) (snd ig)) (combine (seq 0 (length glists)) glists)).
  assert (LF : length lists = length glists) by (eapply F2_length; eauto).
  assert (Rows : mapO (row_at corners x horizon gids) (combine (seq 0 (length lists)) lists) = Ok rows).
  { unfold rows. assert (G : forall s, (forall i gl xi hi g, nth_error glists i = Some gl -> nth_error x (s + i) = Some xi -> nth_error horizon (s + i) = Some hi -> In g gl -> keep corners xi hi g = Ok (kf (s + i)%nat g)) ->
      (s + length lists <= length x)%nat -> (s + length lists <= length horizon)%nat ->
      mapO (row_at corners x horizon gids) (combine (seq s (length lists)) lists) = Ok (map (fun ig => filter (kf (fst ig)) (snd ig)) (combine (seq s (length glists)) glists))).
    { clear K LF Lx Lh Lo rows owned. induction F as [|l gl lists glists E F IH]; intros s K Lx Lh; [reflexivity|]. cbn [length seq combine mapO map fst snd] in *.
      assert (R : row_at corners x horizon gids (s, l) = Ok (filter (kf s) gl)).
      { unfold row_at. cbn [fst snd]. destruct l as [|j l]; [inversion E; subst; reflexivity|]. destruct (nth_error x s) as [xi|] eqn:X; [|apply nth_error_None in X; lia]. destruct (nth_error horizon s) as [hi|] eqn:H; [|apply nth_error_None in H; lia].
        unfold at_ub. rewrite X, H. cbn [bind]. apply filter_row_ok; [exact E|]. intros g G. specialize (K 0%nat gl xi hi g eq_refl). rewrite Nat.add_0_r in K. apply K; auto. }
      rewrite R. cbn [bind]. rewrite IH; [reflexivity| |lia|lia]. intros i gl' xi hi g A B C I. specialize (K (S i) gl' xi hi g A). replace (s + S i)%nat with (S s + i)%nat in K by lia. auto. }
    apply (G 0%nat); cbn [Nat.add]; auto. }
  assert (Do : NoDup owned) by (now apply nodup_firstn).
  destruct (overlap_shape owned rows Do) as (ghosts & E & S & I & ND).
  assert (InR : forall row, In row rows <-> exists i gl, nth_error glists i = Some gl /\ row = filter (kf i) gl).
  { intros row. unfold rows. rewrite in_map_iff. split.
    - intros ((i & gl) & <- & J). exists i, gl. split; [|reflexivity]. clear - J. revert J. assert (forall s, In (i, gl) (combine (seq s (length glists)) glists) -> (s <= i)%nat /\ nth_error glists (i - s) = Some gl).
      { induction glists as [|g0 gs IH]; intros s J; [destruct J|]. cbn [length seq combine] in J. destruct J as [J|J]; [injection J as <- <-; rewrite Nat.sub_diag; auto|]. destruct (IH _ J) as (A & B). split; [lia|]. now replace (i - s)%nat with (S (i - S s)) by lia. }
      intros J. destruct (H 0%nat J) as (_ & B). now rewrite Nat.sub_0_r in B.
    - intros (i & gl & A & ->). exists (i, gl). split; [reflexivity|]. assert (G : forall s, In ((s + i)%nat, gl) (combine (seq s (length glists)) glists)).
      { clear - A. revert i A. induction glists as [|g0 gs IH]; intros [|i] A s; try discriminate; cbn [length seq combine]; [left; cbn in A; f_equal; [lia|congruence]|]. right. replace (s + S i)%nat with (S s + i)%nat by lia. now apply IH. }
      exact (G 0%nat). }
  destruct (new_list_ok (owned ++ ghosts) rows ND) as (ls & EL & FL).
  { intros row g Rr G. apply in_app_iff. destruct (in_dec Z.eq_dec g owned) as [Y|Nn]; [now left|]. right. apply I. eauto. }
  exists ghosts, ls. split; [|split; [|split; [|split; [exact S|split; [|exact ND]]]]].
  - rewrite remove_spec, Rows. cbn [bind]. rewrite E, EL. reflexivity.
  - rewrite (F2_length _ _ _ FL). unfold rows. rewrite map_length, combine_length, seq_length. lia.
  - intros i gl A. assert (Ri : nth_error rows i = Some (filter (kf i) gl)).
    { unfold rows. rewrite nth_error_map. assert (G : forall s, nth_error (combine (seq s (length glists)) glists) i = Some ((s + i)%nat, gl)).
      { clear - A. revert i A. induction glists as [|g0 gs IH]; intros [|i] A s; try discriminate; cbn [length seq combine nth_error] in *; [injection A as ->; now rewrite Nat.add_0_r|]. rewrite (IH i A (S s)). do 2 f_equal. lia. }
      rewrite (G 0%nat). reflexivity. }
    revert Ri. generalize (filter (kf i) gl) as w. clear - FL. revert i. induction FL as [|l r ls rs H FL IH]; intros [|i] w Ri; try discriminate; [injection Ri as ->; exists l; auto|]. cbn [nth_error] in *. now apply IH.
  - intros g. rewrite I. split; intros (A & B); (split; [exact A|]).
    + destruct B as (row & B1 & B2). apply InR in B1. destruct B1 as (i & gl & B1 & ->). eauto.
    + destruct B as (i & gl & B1 & B2). exists (filter (kf i) gl). split; [apply InR; eauto|exact B2].
Qed.
Print Assumptions C73_lists.

(** ** Together: if the lists found by the enlarged search contain every element within the enlarged
    radius, the refined lists contain every element whose surface meets the inside of the horizon,
    and only elements that meet the horizon. *)
Lemma keep_spec (corners : Z -> list point) (h : hexa RN) g x r : corners g = hex_nodes h -> 0 <= r -> (forall p q s, In (p, q, s) (hex_triangles h) -> proper_triangle p q s) ->
  exists b, keep (N:=RN) corners x r g = Ok b /\ (b = true -> meets h x r) /\ (b = false -> ~ meets_inside h x r).
Proof.
  intros C R0 P. unfold keep. rewrite C. replace (hex_of (hex_nodes h)) with (Ok h) by (destruct h; reflexivity). cbn [bind].
  destruct (C45_hexahedron h x r R0 P) as (s & E & Q). rewrite E. cbn [bind]. eexists. split; [reflexivity|]. destruct s.
  - split; [intros _|discriminate]. destruct Q as (Q & _). assert (S : on_surface (hex_triangles h) (h1 h)).
    { exists (h1 h), (h0 h), (f0 h). split; [now left|]. exists 1, 0, 0. repeat split; try lra. destruct h as [a b c d e f g' h']. cbn. destruct b, a. unfold mix3, mix2, vadd, vscale. cbn. to_R. f_equal; ring. }
    exists (h1 h). split; [exact S|]. apply Rlt_le. now apply Q.
  - split; [intros _|discriminate]. destruct Q as (Q & _). exact Q.
  - split; [discriminate|]. intros _ (y & Y & K). specialize (Q y Y). lra.
Qed.
Theorem C73_neighbours (corners : Z -> list point) (hx : Z -> hexa RN) (centroid : Z -> point) (volume : Z -> R) (x : list point) (horizon : list R) gids lists (elements : list (list point)) D :
  hex_elements gids corners hx lists -> (length lists <= length x)%nat -> (length lists <= length horizon)%nat -> Forall (fun r => 0 <= r) horizon ->
  largest_dimension elements D -> (forall g, In g gids -> In (hex_nodes (hx g)) elements) ->
  (forall g, In g gids -> hex_centroid_and_volume (hx g) = Ok (centroid g, volume g) /\ 0 < volume g) ->
  (forall i l xi hi k g, nth_error lists i = Some l -> nth_error x i = Some xi -> nth_error horizon i = Some hi -> nth_error gids k = Some g -> k <> i -> distance (centroid g) xi <= hi + D -> In k l) ->
  exists gids' lists', remove_nonintersecting (N:=RN) corners x horizon (firstn (length lists) gids) gids (stored_lists lists) = Ok (gids', stored_lists lists') /\
    length lists' = length lists /\ NoDup gids' /\ firstn (length lists) gids' = firstn (length lists) gids /\
    forall i l l' xi hi, nth_error lists i = Some l -> nth_error lists' i = Some l' -> nth_error x i = Some xi -> nth_error horizon i = Some hi ->
      (forall k g, nth_error gids k = Some g -> k <> i -> meets_inside (hx g) xi hi -> exists k', nth_error gids' k' = Some g /\ In k' l') /\
      (forall k', In k' l' -> exists g k, nth_error gids' k' = Some g /\ nth_error gids k = Some g /\ In k l /\ meets (hx g) xi hi).
Proof.
  intros [Dg Lo Rg Co Pr] Lx Lh Hp LD Ie Ce Search.
  assert (G : exists glists, Forall2 (listed_gids gids) lists glists).
  { clear - Rg. induction Rg as [|l lists B Rg IH]; [exists []; constructor|]. destruct IH as (gs & F). assert (exists gl, listed_gids gids l gl).
    { clear - B. induction B as [|j l Hj B IH]; [exists []; constructor|]. destruct IH as (gl & F). destruct (nth_error gids j) as [g|] eqn:E; [|apply nth_error_None in E; lia]. exists (g :: gl). now constructor. }
    destruct H as (gl & H). exists (gl :: gs). now constructor. }
  destruct G as (glists & F).
  set (kf := fun i g => match nth_error x i, nth_error horizon i with Some xi, Some hi => match keep (N:=RN) corners xi hi g with Ok b => b | _ => false end | _, _ => false end).
  assert (Hi0 : forall i hi, nth_error horizon i = Some hi -> 0 <= hi) by (intros i hi H; rewrite Forall_forall in Hp; apply Hp; eapply nth_error_In; eauto).
  assert (Kf : forall i xi hi g, In g gids -> nth_error x i = Some xi -> nth_error horizon i = Some hi -> keep (N:=RN) corners xi hi g = Ok (kf i g) /\ (kf i g = true -> meets (hx g) xi hi) /\ (kf i g = false -> ~ meets_inside (hx g) xi hi)).
  { intros i xi hi g Ig X H. unfold kf. rewrite X, H. destruct (keep_spec corners (hx g) g xi hi (Co g Ig) (Hi0 _ _ H) (fun p q s => Pr g p q s Ig)) as (b & -> & Q). auto. }
  assert (Mem : forall gs l gl, listed_gids gs l gl -> (forall g, In g gl -> exists k, In k l /\ nth_error gs k = Some g) /\ (forall k, In k l -> exists g, In g gl /\ nth_error gs k = Some g)).
  { intros gs l gl H. induction H as [|j g l gl Ej H (IH1 & IH2)]; [split; intros ? []|]. split.
    - intros g' [<-|I]; [exists j; split; [now left|exact Ej]|]. destruct (IH1 _ I) as (k & K1 & K2). exists k. split; [now right|exact K2].
    - intros k [<-|I]; [exists g; split; [now left|exact Ej]|]. destruct (IH2 _ I) as (g' & K1 & K2). exists g'. split; [now right|exact K2]. }
  destruct (C73_lists RN corners x horizon gids lists glists kf Dg Lo Lx Lh F) as (ghosts & lists' & E & L' & Q & _ & _ & ND).
  { intros i gl xi hi g Gl X H Ig. apply Kf; auto.
    assert (Gi : exists l, listed_gids gids l gl).
    { clear - F Gl. revert i Gl. induction F as [|a b ls gs H F IH]; intros [|i] Gl; try discriminate; [injection Gl as ->; eauto|]. cbn [nth_error] in *. now apply (IH i). }
    destruct Gi as (l & Gi). destruct (Mem _ _ _ Gi) as (M1 & _). destruct (M1 g Ig) as (k & _ & K). eapply nth_error_In; eauto. }
  exists (firstn (length lists) gids ++ ghosts), lists'. split; [exact E|]. split; [exact L'|]. split; [exact ND|]. split.
  { assert (Le : length (firstn (length lists) gids) = length lists) by (rewrite firstn_length; lia). rewrite <- Le at 1. rewrite firstn_app, Nat.sub_diag, firstn_all. cbn [firstn]. apply app_nil_r. }
  intros i l l' xi hi Li Li' X H.
  assert (Gi : exists gl, nth_error glists i = Some gl /\ listed_gids gids l gl).
  { clear - F Li. revert i Li. induction F as [|a b ls gs H F IH]; intros [|i] Li; try discriminate; [injection Li as ->; exists b; auto|]. cbn [nth_error] in *. now apply IH. }
  destruct Gi as (gl & Gi & Fi). destruct (Q i gl Gi) as (l2 & L2 & F2). replace l2 with l' in * by congruence. destruct (Mem _ _ _ Fi) as (M1 & M2), (Mem _ _ _ F2) as (M3 & M4). split.
  - intros k g K Ne Me. destruct (Kf i xi hi g (nth_error_In _ _ K) X H) as (_ & _ & K0).
    assert (Kt : kf i g = true) by (destruct (kf i g); [reflexivity|exfalso; now apply K0]).
    assert (In g gl).
    { destruct Me as (y & Y & Dy). assert (Ik : In k l).
      { apply (Search i l xi hi k g); auto. destruct (Ce g (nth_error_In _ _ K)) as (C1 & C2). apply (C73_radius_suffices elements D (hx g) (centroid g) (volume g) xi y hi); auto; [apply Ie; eapply nth_error_In; eauto|now apply hex_surface_hull|lra]. }
      destruct (M2 k Ik) as (g' & I' & K'). congruence. }
    destruct (M3 g) as (k' & K1 & K2); [apply filter_In; auto|]. eauto.
  - intros k' I. destruct (M4 k' I) as (g & I' & K'). apply filter_In in I'. destruct I' as (Ig & Kt). destruct (M1 g Ig) as (k & K1 & K2). exists g, k. split; [exact K'|]. split; [exact K2|]. split; [exact K1|]. now apply (Kf i xi hi g (nth_error_In _ _ K2) X H).
Qed.
Print Assumptions C73_neighbours.

(** ** The options: asking for intersections stores the mesh, as does asking for interfaces ... *)
Definition wanted (o : option bool) : bool := match o with Some b => b | None => false end.
Theorem C73_options store intersections interfaces : ~ (intersections = Some true /\ interfaces = Some false) ->
  exists s, read_options store intersections interfaces = Ok (s, wanted intersections, wanted interfaces) /\
    (wanted intersections = true \/ wanted interfaces = true -> s = true).
Proof. intros H. destruct store as [[]|], intersections as [[]|], interfaces as [[]|]; cbn; try (exfalso; apply H; auto; fail); eexists; (split; [reflexivity|]); intuition congruence. Qed.
Print Assumptions C73_options.
(** ... but saying that no interfaces are wanted forgets that the mesh was to be stored, and the
    program stops if intersections are wanted. *)
Theorem C73_options_refuted store : read_options store (Some true) (Some false) = Err /\ read_options (Some true) None (Some false) = Ok (false, false, false).
Proof. destruct store as [[]|]; auto. Qed.
Print Assumptions C73_options_refuted.

(** ** With ghosts the removal renumbers the elements, but the stored connectivity keeps the old
    numbers: the interfaces constructed afterwards are wrong.  Two neighbours with a common face
    and no interface *)
Definition cube_at (k : Z) : list (V3 FN) :=
  let p (x y z : Z) : V3 FN := v3 (N:=FN) (ofZ x) (ofZ y) (ofZ z) in
  let a := (2 * k)%Z in let b := (2 * k + 2)%Z in [p a 0 0; p b 0 0; p b 2 0; p a 2 0; p a 0 2; p b 0 2; p b 2 2; p a 2 2]%Z.
Definition ex_corners (g : Z) : list (V3 FN) := if (g =? 0)%Z then cube_at 0 else if (g =? 2)%Z then cube_at 1 else cube_at 2.
Definition ex_stale : list (list Z) := [[0; 1; 2; 3; 4; 5; 6; 7]; [8; 12; 13; 9; 10; 14; 15; 11]; [1; 8; 9; 2; 5; 10; 11; 6]]%Z.
Theorem C73_interfaces_refuted : exists (corners : Z -> list (V3 FN)) x horizon gids lists conn gids' lists' a b,
  elements_wf conn gids lists /\
  remove_nonintersecting (N:=FN) corners x horizon (firstn (length lists) gids) gids (stored_lists lists) = Ok (gids', stored_lists lists') /\
  (* elements 0 and 2 are neighbours, owned or not, and share a face *)
  listed_gids gids' (nth 0 lists' []) [2]%Z /\ nth_error gids 0 = Some 0%Z /\ nth_error gids 2 = Some 2%Z /\ nth_error conn 0 = Some a /\ nth_error conn 2 = Some b /\ hex_touch a b /\
  construct_interfaces conn (firstn (length lists) gids) gids' (stored_lists lists') = Ok [].
Proof.
  exists ex_corners, [v3 (N:=FN) (ofZ 1) (ofZ 1) (ofZ 1)], [(ofZ 2 : T FN)], [0; 1; 2]%Z, [[1; 2]%nat], ex_stale, [0; 2]%Z, [[1]%nat], [0; 1; 2; 3; 4; 5; 6; 7]%Z, [1; 8; 9; 2; 5; 10; 11; 6]%Z.
  split; [constructor; try reflexivity; try (repeat constructor; cbn; intuition lia); cbn; lia|]. split; [vm_compute; reflexivity|].
  split; [repeat constructor|]. do 4 (split; [reflexivity|]). split; [|reflexivity].
  exists [1; 2; 6; 5]%Z. split; [|vm_compute; lia]. exists [1; 2; 6; 5]%nat, [1; 2; 6; 5]%Z. split; [cbn; tauto|]. split; [repeat constructor|]. exists 0%nat. now left.
Qed.
Print Assumptions C73_interfaces_refuted.

(** ** A concrete case of C73_neighbours: two cubes side by side *)
Definition ex_block (g : Z) : hexa RN := block (v3 (N:=RN) (2 * IZR g) 0 0) (v3 (N:=RN) 2 0 0) (v3 (N:=RN) 0 2 0) (v3 (N:=RN) 0 0 2).
Lemma ex_det : det3 (v3 (N:=RN) 2 0 0) (v3 (N:=RN) 0 2 0) (v3 (N:=RN) 0 0 2) = 8.
Proof. unfold det3, vdot, vcross. cbn. to_R. ring. Qed.
Example C73_neighbours_met : exists D (centroid : Z -> point) (volume : Z -> R),
  hex_elements [0; 1]%Z (fun g => hex_nodes (ex_block g)) ex_block [[1]; [0]]%nat /\ Forall (fun r => 0 <= r) [2; 2] /\
  largest_dimension [hex_nodes (ex_block 0); hex_nodes (ex_block 1)] D /\ (forall g, In g [0; 1]%Z -> In (hex_nodes (ex_block g)) [hex_nodes (ex_block 0); hex_nodes (ex_block 1)]) /\
  (forall g, In g [0; 1]%Z -> hex_centroid_and_volume (ex_block g) = Ok (centroid g, volume g) /\ 0 < volume g) /\
  (forall i l xi hi k g, nth_error [[1]; [0]]%nat i = Some l -> nth_error [centroid 0%Z; centroid 1%Z] i = Some xi -> nth_error [2; 2] i = Some hi -> nth_error [0; 1]%Z k = Some g -> k <> i -> distance (centroid g) xi <= hi + D -> In k l).
Proof.
  destruct (local_good [hex_nodes (ex_block 0); hex_nodes (ex_block 1)]) as (D & _ & L); [repeat constructor; cbn; tauto|].
  exists D, (fun g => vadd (v3 (N:=RN) (2 * IZR g) 0 0) (vscale (N:=RN) (/ 2) (vadd (vadd (v3 (N:=RN) 2 0 0) (v3 (N:=RN) 0 2 0)) (v3 (N:=RN) 0 0 2)))), (fun _ => 8).
  split; [constructor|].
  - repeat constructor; cbn; intuition discriminate.
  - cbn; lia.
  - repeat constructor; cbn; lia.
  - reflexivity.
  - intros g p q r _ I. assert (F : Forall (fun t : point * point * point => let '(p, q, r) := t in proper_triangle p q r) (hex_triangles (ex_block g))) by (apply block_proper; rewrite ex_det; lra).
    rewrite Forall_forall in F. exact (F _ I).
  - split; [repeat constructor; lra|]. split; [exact L|]. split; [intros g [<-|[<-|[]]]; cbn; tauto|]. split.
    + intros g _. split; [|lra]. rewrite <- ex_det. apply C44_parallelepiped. rewrite ex_det. lra.
    + intros [|[|i]] l xi hi [|[|k]] g Li _ _ K Ne _; try (exfalso; apply Ne; reflexivity); cbn in Li; try (destruct i; discriminate); try (destruct k; discriminate); injection Li as <-; now left.
Qed.
