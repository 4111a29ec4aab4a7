(** * Proofs about the output fields *)
From Coq Require Import String Reals Lra Permutation.
From Verif Require Import Base Num ModelScalar ModelGlobal ModelNeigh ModelForce ModelCorr ModelExplicit ModelOutput SpecForce SpecCorr ProofBC2 ProofCorr3 SpecGlobal ProofGlobal SpecOutput ProofError ProofCubic.
Local Open Scope R_scope.
Local Open Scope list_scope.

(** ** Node_Set_Data *)
Definition rank_values (r : nrank RN) : list R :=
  map snd (filter (fun gv => existsb (Z.eqb (fst gv)) (nr_set r)) (owned_points r)).

Lemma local_fold c set (gids : list Z) (data : list R) : (length gids <= length data)%nat -> forall acc : R,
  foldM (fun acc i => let? d := at_ub data i in Ok (bd_take (N:=RN) c acc d)) acc (local_ids set gids) =
  Ok (fold_left (bd_take (N:=RN) c) (map snd (filter (fun gv => existsb (Z.eqb (fst gv)) set) (combine gids data))) acc).
Proof.
  intros L. unfold local_ids.
  assert (H : forall gids data k (all : list R), (length gids <= length data)%nat -> (forall i d, nth_error data i = Some d -> nth_error all (k + i) = Some d) ->
    forall acc : R, foldM (fun acc i => let? d := at_ub all i in Ok (bd_take (N:=RN) c acc d)) acc
      (map fst (filter (fun ig => existsb (Z.eqb (snd ig)) set) (combine (seq k (length gids)) gids))) =
    Ok (fold_left (bd_take (N:=RN) c) (map snd (filter (fun gv => existsb (Z.eqb (fst gv)) set) (combine gids data))) acc)).
  { clear. induction gids as [|g gids IH]; intros data k all L A acc; [reflexivity|].
    destruct data as [|d data]; [cbn in L; lia|]. cbn [length seq combine filter fst snd].
    assert (A' : forall i e, nth_error data i = Some e -> nth_error all (S k + i) = Some e).
    { intros i e E. replace (S k + i)%nat with (k + S i)%nat by lia. now apply A. }
    assert (L' : (length gids <= length data)%nat) by (cbn in L; lia).
    destruct (existsb (Z.eqb g) set); cbn [map fst snd foldM fold_left]; [|now apply IH].
    unfold at_ub at 1. pose proof (A 0%nat d eq_refl) as A0. rewrite Nat.add_0_r in A0. rewrite A0. cbn [bind]. now apply IH. }
  apply H; [exact L|]. intros i d E. exact E.
Qed.

Lemma name_at_fold (r0 : nrank RN) (bs : list (nblock RN)) m b : NoDup (map nb_name bs) -> In b bs ->
  name_at (fold_left (fun m (b : nblock RN) => (nb_name b, local_ids (nr_set r0) (nb_gids b)) :: m) bs m) (nb_name b) = Ok (local_ids (nr_set r0) (nb_gids b)).
Proof.
  intros ND I.
  assert (F : forall bs m s, name_at (fold_left (fun m (b : nblock RN) => (nb_name b, local_ids (nr_set r0) (nb_gids b)) :: m) bs m) s =
             match find (fun b : nblock RN => String.eqb (nb_name b) s) (rev bs) with Some b => Ok (local_ids (nr_set r0) (nb_gids b)) | None => name_at m s end).
  { clear. induction bs as [|b bs IH] using rev_ind; intros m s; [reflexivity|]. rewrite fold_left_app, rev_app_distr. cbn [fold_left rev app find name_at].
    destruct (String.eqb (nb_name b) s); [reflexivity|apply IH]. }
  rewrite F. destruct (find _ (rev bs)) as [b'|] eqn:E.
  - apply find_some in E as [I' E]. apply String.eqb_eq in E. apply in_rev in I'.
    enough (b' = b) by congruence. clear F m. revert b b' I I' E ND. induction bs as [|a bs IH]; intros b b' I I' E ND; [destruct I|].
    cbn in ND. inversion ND as [|? ? NI ND']; subst. destruct I as [->|I], I' as [->|I']; auto.
    + destruct NI. rewrite <- E. now apply in_map.
    + destruct NI. rewrite E. now apply in_map.
  - exfalso. apply in_rev in I. apply (find_none _ _ E) in I. rewrite String.eqb_refl in I. discriminate.
Qed.

Lemma nsd_local_ok c (r0 r : nrank RN) : same_layout r0 r -> proper r ->
  nsd_local c (block_local_ids r0) r = Ok (fold_left (bd_take (N:=RN) c) (rank_values r) (bd_start c)).
Proof.
  intros (S1 & S2 & S3) (ND & L). unfold nsd_local, block_local_ids, rank_values, owned_points. rewrite S1.
  assert (E : forall m, fold_left (fun m (b : nblock RN) => (nb_name b, local_ids (nr_set r) (nb_gids b)) :: m) (nr_blocks r0) m =
              fold_left (fun m (b : nblock RN) => (nb_name b, local_ids (nr_set r) (nb_gids b)) :: m) (nr_blocks r) m).
  { clear - S2 S3. revert S2 S3. generalize (nr_blocks r0), (nr_blocks r). induction l as [|a l IH]; intros [|b l'] A B m; try discriminate; [reflexivity|].
    cbn in A, B |- *. injection A as A1 A2. injection B as B1 B2. rewrite A1, B1. now apply IH. }
  rewrite E. clear E S1 S2 S3 r0.
  assert (H : forall bs, (forall b, In b bs -> In b (nr_blocks r)) -> forall acc : R,
    foldM (fun acc b => let? l := name_at (fold_left (fun m (b : nblock RN) => (nb_name b, local_ids (nr_set r) (nb_gids b)) :: m) (nr_blocks r) []) (nb_name b) in
             foldM (fun acc i => let? d := at_ub (nb_data b) i in Ok (bd_take (N:=RN) c acc d)) acc l) acc bs =
    Ok (fold_left (bd_take (N:=RN) c) (map snd (filter (fun gv => existsb (Z.eqb (fst gv)) (nr_set r)) (concat (map (fun b => combine (nb_gids b) (nb_data b)) bs)))) acc)).
  { induction bs as [|b bs IH]; intros I acc; [reflexivity|]. cbn [foldM map concat]. rewrite name_at_fold by (auto; apply I; now left). cbn [bind].
    rewrite Forall_forall in L. rewrite local_fold by (apply L, I; now left). cbn [bind].
    rewrite filter_app, map_app, fold_left_app. apply IH. intros b' I'. apply I. now right. }
  apply H. auto.
Qed.

Lemma rank_values_G G r : lists_part G r -> rank_values r = map snd (filter (fun gv => existsb (Z.eqb (fst gv)) G) (owned_points r)).
Proof.
  intros H. unfold rank_values. apply f_equal. apply filter_ext_in. intros gv I. specialize (H gv I).
  apply Bool.eq_iff_eq_true. rewrite !existsb_exists. split; intros (g & I' & E); apply Z.eqb_eq in E; subst g; exists (fst gv); split; try apply Z.eqb_refl; now apply H.
Qed.

Lemma values_concat_gen G w : Forall (lists_part G) w -> set_values G w = concat (map rank_values w).
Proof.
  unfold set_values. induction 1 as [|r w H F IH]; [reflexivity|]. cbn [map concat]. rewrite filter_app, map_app, IH.
  now rewrite (rank_values_G G r H).
Qed.
Lemma locals_gen c init w : Forall2 same_layout init w -> Forall proper w ->
  mapO (fun ir => nsd_local (N:=RN) c (block_local_ids (fst ir)) (snd ir)) (combine init w) =
  Ok (map (fun r => fold_left (bd_take (N:=RN) c) (rank_values r) (bd_start c)) w).
Proof.
  intros SL. induction SL as [|r0 r i w H F IH]; intros PR; [reflexivity|]. inversion PR; subst. cbn [combine mapO map fst snd].
  rewrite nsd_local_ok by assumption. cbn [bind]. rewrite IH by assumption. reflexivity.
Qed.

Section World.
  Context (G : list Z) (init w : list (nrank RN)).
  Hypothesis (SL : Forall2 same_layout init w) (PR : Forall proper w) (LP : Forall (lists_part G) w) (NE : w <> []).

  Lemma values_concat : set_values G w = concat (map rank_values w).
  Proof using LP.
    now apply values_concat_gen.
  Qed.
  Lemma locals c : mapO (fun ir => nsd_local (N:=RN) c (block_local_ids (fst ir)) (snd ir)) (combine init w) =
    Ok (map (fun r => fold_left (bd_take (N:=RN) c) (rank_values r) (bd_start c)) w).
  Proof using SL PR.
    now apply locals_gen.
  Qed.

  Lemma sum_ok : node_set_value Sum init w = Ok (Rsum (set_values G w)).
  Proof using All.
    unfold node_set_value. rewrite locals. cbn [bind]. rewrite values_concat.
    rewrite reduce_add by (destruct w; [now destruct NE|discriminate]). apply f_equal. clear.
    induction w as [|r w' IH]; [reflexivity|]. cbn [map concat]. rewrite Rsum_cons, Rsum_app, IH. apply f_equal2; [|reflexivity].
    etransitivity; [apply (fold_add (rank_values r))|]. cbn [bd_start]. to_R. apply Rplus_0_l.
  Qed.

  Lemma extreme_min (l : list R) : forall a : R, let m := fold_left (bd_take (N:=RN) Minimum) l a in
    m <= a /\ (forall x, In x l -> m <= x) /\ (m = a \/ In m l).
  Proof.
    induction l as [|x l IH]; intros a m; [cbn in m; subst m; split; [lra|split; [intros ? []|now left]]|].
    cbn [fold_left] in m. destruct (IH (bd_take (N:=RN) Minimum a x)) as (A & B & C). fold m in A, B, C.
    assert (D : bd_take (N:=RN) Minimum a x <= a /\ bd_take (N:=RN) Minimum a x <= x /\ (bd_take (N:=RN) Minimum a x = a \/ bd_take (N:=RN) Minimum a x = x)).
    { cbn [bd_take]. unfold nmin. to_R. unfold Rltb. destruct (Rlt_dec _ _); repeat split; try lra; auto. }
    destruct D as (D1 & D2 & D3). split; [exact (Rle_trans _ _ _ A D1)|]. split.
    - intros y [<-|I]; [exact (Rle_trans _ _ _ A D2)|now apply B].
    - destruct C as [C|C]; [|right; now right]. destruct D3 as [D3|D3]; [left; exact (eq_trans C D3)|right; left; exact (eq_sym (eq_trans C D3))].
  Qed.
  Lemma extreme_max (l : list R) : forall a : R, let m := fold_left (bd_take (N:=RN) Maximum) l a in
    a <= m /\ (forall x, In x l -> x <= m) /\ (m = a \/ In m l).
  Proof.
    induction l as [|x l IH]; intros a m; [cbn in m; subst m; split; [lra|split; [intros ? []|now left]]|].
    cbn [fold_left] in m. destruct (IH (bd_take (N:=RN) Maximum a x)) as (A & B & C). fold m in A, B, C.
    assert (D : a <= bd_take (N:=RN) Maximum a x /\ x <= bd_take (N:=RN) Maximum a x /\ (bd_take (N:=RN) Maximum a x = a \/ bd_take (N:=RN) Maximum a x = x)).
    { cbn [bd_take]. unfold nmax. to_R. unfold Rltb. destruct (Rlt_dec _ _); repeat split; try lra; auto. }
    destruct D as (D1 & D2 & D3). split; [exact (Rle_trans _ _ _ D1 A)|]. split.
    - intros y [<-|I]; [exact (Rle_trans _ _ _ D2 A)|now apply B].
    - destruct C as [C|C]; [|right; now right]. destruct D3 as [D3|D3]; [left; exact (eq_trans C D3)|right; left; exact (eq_sym (eq_trans C D3))].
  Qed.

  Lemma min_ok : exists m : R, node_set_value Minimum init w = Ok (m : T RN) /\
    m <= dbl_max (N:=RN) /\ (forall x, In x (set_values G w) -> m <= x) /\ (m = dbl_max (N:=RN) \/ In m (set_values G w)).
  Proof using All.
    unfold node_set_value. rewrite locals. cbn [bind]. rewrite values_concat. clear - NE. destruct w as [|r w']; [now destruct NE|]. clear NE.
    cbn [map all_reduce]. eexists. split; [reflexivity|]. change (@nmin RN) with (fun a b : R => bd_take (N:=RN) Minimum a b).
    destruct (extreme_min (rank_values r) (dbl_max (N:=RN))) as (A & B & C).
    change (bd_start (N:=RN) Minimum) with (dbl_max (N:=RN)) in *.
    set (l := map (fun r => fold_left (bd_take (N:=RN) Minimum) (rank_values r) (dbl_max (N:=RN))) w').
    destruct (extreme_min l (fold_left (bd_take (N:=RN) Minimum) (rank_values r) (dbl_max (N:=RN)))) as (A' & B' & C').
    change (fun a b : R => bd_take (N:=RN) Minimum a b) with (@bd_take RN Minimum).
    split; [exact (Rle_trans _ _ _ A' A)|]. split.
    - intros x I. cbn [concat] in I. apply in_app_iff in I. destruct I as [I|I]; [exact (Rle_trans _ _ _ A' (B x I))|].
      apply in_concat in I as (vs & I1 & I2). apply in_map_iff in I1 as (r' & <- & I1).
      destruct (extreme_min (rank_values r') (dbl_max (N:=RN))) as (_ & D & _).
      refine (Rle_trans _ _ _ (B' _ _) (D x I2)). unfold l. exact (in_map (fun r => fold_left (bd_take (N:=RN) Minimum) (rank_values r) (dbl_max (N:=RN))) _ _ I1).
    - destruct C' as [C'|C'].
      + rewrite C'. destruct C as [C|C]; [left; exact C|right; cbn [concat]; apply in_app_iff; now left].
      + apply in_map_iff in C' as (r' & E & I1). rewrite <- E.
        destruct (extreme_min (rank_values r') (dbl_max (N:=RN))) as (_ & _ & [D|D]); [left; exact D|].
        right. cbn [concat]. apply in_app_iff. right. apply in_concat. exists (rank_values r'). split; [now apply in_map|exact D].
  Qed.
  Lemma max_ok : exists m : R, node_set_value Maximum init w = Ok (m : T RN) /\
    dbl_min (N:=RN) <= m /\ (forall x, In x (set_values G w) -> x <= m) /\ (m = dbl_min (N:=RN) \/ In m (set_values G w)).
  Proof using All.
    unfold node_set_value. rewrite locals. cbn [bind]. rewrite values_concat. clear - NE. destruct w as [|r w']; [now destruct NE|]. clear NE.
    cbn [map all_reduce]. eexists. split; [reflexivity|]. change (@nmax RN) with (fun a b : R => bd_take (N:=RN) Maximum a b).
    destruct (extreme_max (rank_values r) (dbl_min (N:=RN))) as (A & B & C).
    change (bd_start (N:=RN) Maximum) with (dbl_min (N:=RN)) in *.
    set (l := map (fun r => fold_left (bd_take (N:=RN) Maximum) (rank_values r) (dbl_min (N:=RN))) w').
    destruct (extreme_max l (fold_left (bd_take (N:=RN) Maximum) (rank_values r) (dbl_min (N:=RN)))) as (A' & B' & C').
    change (fun a b : R => bd_take (N:=RN) Maximum a b) with (@bd_take RN Maximum).
    split; [exact (Rle_trans _ _ _ A A')|]. split.
    - intros x I. cbn [concat] in I. apply in_app_iff in I. destruct I as [I|I]; [exact (Rle_trans _ _ _ (B x I) A')|].
      apply in_concat in I as (vs & I1 & I2). apply in_map_iff in I1 as (r' & <- & I1).
      destruct (extreme_max (rank_values r') (dbl_min (N:=RN))) as (_ & D & _).
      refine (Rle_trans _ _ _ (D x I2) (B' _ _)). unfold l. exact (in_map (fun r => fold_left (bd_take (N:=RN) Maximum) (rank_values r) (dbl_min (N:=RN))) _ _ I1).
    - destruct C' as [C'|C'].
      + rewrite C'. destruct C as [C|C]; [left; exact C|right; cbn [concat]; apply in_app_iff; now left].
      + apply in_map_iff in C' as (r' & E & I1). rewrite <- E.
        destruct (extreme_max (rank_values r') (dbl_min (N:=RN))) as (_ & _ & [D|D]); [left; exact D|].
        right. cbn [concat]. apply in_app_iff. right. apply in_concat. exists (rank_values r'). split; [now apply in_map|exact D].
  Qed.
End World.

(** ** Fields *)
Lemma nth_skip (A : Type) (pre l : list A) i : nth_error (pre ++ l) (length pre + i) = nth_error l i.
Proof. rewrite nth_error_app2 by lia. f_equal. lia. Qed.

Lemma at_len (A : Type) (pre l : list A) a : at_ub (pre ++ a :: l) (length pre) = Ok a.
Proof. unfold at_ub. rewrite <- (Nat.add_0_r (length pre)) at 1. now rewrite nth_skip. Qed.
Lemma at_R (l : list R) i x : nth_error l i = Some x -> at_ub (A:=T RN) l i = Ok (x : T RN).
Proof. intros E. unfold at_ub. change (T RN) with R. now rewrite E. Qed.

Lemma counts_from nbrs : forall pre, number_of_neighbors (N:=RN) (pre ++ encode nbrs) (length nbrs) (length pre) = Ok (map (fun js => INR (length js)) nbrs).
Proof.
  induction nbrs as [|js nbrs IH]; intros pre; [reflexivity|]. cbn [length number_of_neighbors encode flat_map].
  unfold at_ub. rewrite <- (Nat.add_0_r (length pre)) at 1. rewrite nth_skip. cbn [nth_error app bind].
  specialize (IH (pre ++ length js :: js)). rewrite <- app_assoc, app_length in IH. cbn [length app] in IH.
  replace (length pre + 1 + length js)%nat with (length pre + S (length js))%nat by lia.
  change (flat_map (fun l => length l :: l) nbrs) with (encode nbrs). cbn [app] in IH |- *. rewrite IH. cbn [bind map]. to_R. now rewrite <- INR_IZR_INZ.
Qed.

Lemma add_volumes_from (vol : list R) js : forall pre post bond (acc : R) vs, picks vol js vs ->
  add_volumes (N:=RN) (pre ++ js ++ post) vol None (length js) (length pre) bond acc = Ok (acc + Rsum vs).
Proof.
  induction js as [|j js IH]; intros pre post bond acc vs P; inversion P as [|? v ? vs' E P']; subst; cbn [length add_volumes].
  - apply f_equal. cbn. exact (eq_sym (Rplus_0_r acc)).
  - unfold at_ub at 1. rewrite <- (Nat.add_0_r (length pre)) at 1. rewrite nth_skip. cbn [nth_error app bind].
    rewrite (at_R _ _ _ E). cbn [bind].
    specialize (IH (pre ++ [j]) post (bond + 1)%nat (acc + v) vs' P'). rewrite app_length, <- app_assoc in IH. cbn [length app] in IH |- *.
    refine (eq_trans IH _). apply f_equal. rewrite Rsum_cons. exact (Rplus_assoc _ _ _).
Qed.
Lemma add_partial_from (vol part : list R) js : forall pre post bond (acc : R) vs, bond_slice part bond (length js) vs ->
  add_volumes (N:=RN) (pre ++ js ++ post) vol (Some part) (length js) (length pre) bond acc = Ok (acc + Rsum vs).
Proof.
  induction js as [|j js IH]; intros pre post bond acc vs (L & B); cbn [length add_volumes].
  - destruct vs; [|discriminate]. apply f_equal. cbn. exact (eq_sym (Rplus_0_r acc)).
  - destruct vs as [|v vs]; [discriminate|].
    unfold at_ub at 1. rewrite <- (Nat.add_0_r (length pre)) at 1. rewrite nth_skip. cbn [nth_error app bind].
    pose proof (B 0%nat v eq_refl) as B0. rewrite Nat.add_0_r in B0. rewrite (at_R _ _ _ B0). cbn [bind].
    assert (BS : bond_slice part (bond + 1) (length js) vs).
    { split; [cbn in L; lia|]. intros i w H. replace (bond + 1 + i)%nat with (bond + S i)%nat by lia. now apply B. }
    specialize (IH (pre ++ [j]) post (bond + 1)%nat (acc + v) vs BS). rewrite app_length, <- app_assoc in IH. cbn [length app] in IH |- *.
    refine (eq_trans IH _). apply f_equal. rewrite Rsum_cons. exact (Rplus_assoc _ _ _).
Qed.

(** what the loop has to add for the neighbours of a point *)
Definition shares (vol : list R) (part : option (list R)) (bond : nat) (js : list nat) (vs : list R) : Prop :=
  match part with None => picks vol js vs | Some l => bond_slice l bond (length js) vs end.
Lemma shares_fun vol part bond js vs ws : shares vol part bond js vs -> shares vol part bond js ws -> vs = ws.
Proof.
  destruct part as [l|]; cbn [shares].
  - intros (L1 & B1) (L2 & B2). apply nth_ext with (d := 0) (d' := 0); [congruence|]. intros n Hn.
    assert (E1 : nth_error vs n = Some (nth n vs 0)) by now apply nth_error_nth'. assert (E2 : nth_error ws n = Some (nth n ws 0)) by (apply nth_error_nth'; congruence).
    apply B1 in E1. apply B2 in E2. congruence.
  - intros P. revert ws. induction P as [|j v js vs H P IH]; intros ws Q; inversion Q; subst; [reflexivity|]. f_equal; [congruence|auto].
Qed.
Lemma add_shares vol part js pre post bond (acc : R) vs : shares vol part bond js vs ->
  add_volumes (N:=RN) (pre ++ js ++ post) vol part (length js) (length pre) bond acc = Ok (acc + Rsum vs).
Proof. destruct part; [apply add_partial_from|apply add_volumes_from]. Qed.

Lemma volumes_from (vol : list R) part nbrs : forall pre i bond,
  (i + length nbrs <= length vol)%nat ->
  (forall p js, nth_error nbrs p = Some js -> exists vs, shares vol part (bond + first_bond nbrs p) js vs) ->
  exists out : list R, neighborhood_volume (N:=RN) (pre ++ encode nbrs) vol part (length nbrs) i (length pre) bond = Ok out /\ length out = length nbrs /\
  forall p js V vs, nth_error nbrs p = Some js -> nth_error vol (i + p) = Some V -> shares vol part (bond + first_bond nbrs p) js vs ->
    nth_error out p = Some (V + Rsum vs).
Proof.
  induction nbrs as [|js nbrs IH]; intros pre i bond L SH.
  - exists []. split; [reflexivity|]. split; [reflexivity|]. intros [|p]; discriminate.
  - cbn [length neighborhood_volume encode flat_map].
    destruct (nth_error vol i) as [V|] eqn:EV; [|apply nth_error_None in EV; cbn in L; change (T RN) with R in *; lia].
    rewrite (at_R _ _ _ EV). cbn [bind].
    cbn [app]. rewrite at_len. cbn [bind].
    destruct (SH 0%nat js eq_refl) as (vs & HV). unfold first_bond in HV. cbn [firstn map fold_right] in HV. rewrite Nat.add_0_r in HV.
    assert (EA := add_shares vol part js (pre ++ [length js]) (encode nbrs) bond V vs HV). rewrite app_length, <- app_assoc in EA. cbn [length app] in EA.
    change (flat_map (fun l => length l :: l) nbrs) with (encode nbrs). rewrite EA. cbn [bind].
    destruct (IH (pre ++ length js :: js) (i + 1)%nat (bond + length js)%nat) as (out & EO & LO & HO).
    { cbn in L. lia. }
    { intros p js' Hp. destruct (SH (S p) js' Hp) as (ws & HW). exists ws. unfold first_bond in HW |- *. cbn [firstn map fold_right] in HW. now rewrite <- Nat.add_assoc. }
    rewrite <- app_assoc, app_length in EO. cbn [length app] in EO. replace (length pre + 1 + length js)%nat with (length pre + S (length js))%nat by lia.
    rewrite EO. cbn [bind]. exists (V + Rsum vs :: out). split; [reflexivity|]. split; [cbn; now rewrite LO|].
    intros [|p] js' V' ws Hp EV' HW.
    + cbn in Hp. injection Hp as <-. rewrite Nat.add_0_r in EV'. unfold first_bond in HW. cbn [firstn map fold_right] in HW. rewrite Nat.add_0_r in HW.
      cbn. rewrite (shares_fun _ _ _ _ _ _ HW HV). congruence.
    + cbn in Hp |- *. apply (HO p js' V' ws Hp); [now replace (i + 1 + p)%nat with (i + S p)%nat by lia|].
      unfold first_bond in HW |- *. cbn [firstn map fold_right] in HW. now rewrite <- Nat.add_assoc.
Qed.

Lemma forces_ok bs : (forall vol dens old, In (vol, dens, old) bs -> length dens = length vol /\ length old = length vol) ->
  force_fields (N:=RN) bs = (0%Z, map (fun b => map (fun vf => vscale (N:=RN) (fst vf) (snd vf)) (combine (fst (fst b)) (snd (fst b)))) bs).
Proof.
  induction bs as [|[[vol dens] old] bs IH]; intros H; [reflexivity|]. cbn [force_fields map fst snd].
  destruct (H vol dens old) as (H1 & H2); [now left|]. unfold force_field. change (T RN) with R in *. rewrite H1, H2, !Nat.eqb_refl. cbn [negb orb Z.eqb].
  rewrite IH by (intros; apply (H vol0 dens0 old0); now right). reflexivity.
Qed.

Lemma concat3_nth (A : Type) (ls : list (list A)) : Forall (fun l => length l = 3%nat) ls -> forall k c l, (c < 3)%nat -> nth_error ls k = Some l ->
  nth_error (concat ls) (3 * k + c) = nth_error l c.
Proof.
  induction 1 as [|a ls La _ IH]; intros k c l Hc Hk; [destruct k; discriminate|]. cbn [concat].
  destruct k as [|k]; cbn in Hk.
  - injection Hk as ->. replace (3 * 0 + c)%nat with c by lia. apply nth_error_app1. lia.
  - replace (3 * S k + c)%nat with (length a + (3 * k + c))%nat by lia. rewrite nth_skip. eapply IH; eauto.
Qed.

Lemma map2_nth {A B C} (f : A -> B -> C) l : forall m r, map2_ub f l m = Ok r -> forall i a b, nth_error l i = Some a -> nth_error m i = Some b -> nth_error r i = Some (f a b).
Proof.
  induction l as [|a l IH]; intros [|b m] r H i a' b' Ha Hb; cbn in H; try discriminate; [destruct i; discriminate|].
  destruct (map2_ub f l m) as [r'| |] eqn:E; cbn [bind] in H; try discriminate. injection H as <-.
  destruct i as [|i]; cbn in Ha, Hb |- *; [congruence|]. eapply IH; eauto.
Qed.
Lemma map2_dom {A B C} (f : A -> B -> C) l : forall m r, map2_ub f l m = Ok r -> length l = length m.
Proof.
  induction l as [|a l IH]; intros [|b m] r H; cbn in H; try discriminate; [reflexivity|].
  destruct (map2_ub f l m) as [r'| |] eqn:E; cbn [bind] in H; try discriminate. cbn. f_equal. eauto.
Qed.

Lemma synch_nth ids (f g : list R) : synch (N:=RN) ids f = Ok (g : list (T RN)) -> forall k i c, nth_error ids k = Some i -> (c < 3)%nat ->
  exists x : R, nth_error g (3 * k + c) = Some x /\ nth_error f (3 * i + c) = Some x.
Proof.
  unfold synch. intros H k i c Hk Hc.
  destruct (mapO _ ids) as [l| |] eqn:E; cbn [bind] in H; try discriminate. injection H as <-. apply mapO_inv in E.
  assert (L : Forall (fun l => length l = 3%nat) l /\ forall k i, nth_error ids k = Some i -> exists a b d, nth_error l k = Some [a; b; d] /\
    at_ub f (i * 3) = Ok (a : R) /\ at_ub f (i * 3 + 1) = Ok (b : R) /\ at_ub f (i * 3 + 2) = Ok (d : R)).
  { clear - E. induction E as [|i ls ids l H E (I1 & I2)]; [split; [constructor|intros [|k] ? ?; discriminate]|].
    change (T RN) with R in *.
    destruct (at_ub f (i * 3)) as [a| |] eqn:Ea; cbn [bind] in H; try discriminate.
    destruct (at_ub f (i * 3 + 1)) as [b| |] eqn:Eb; cbn [bind] in H; try discriminate.
    destruct (at_ub f (i * 3 + 2)) as [d| |] eqn:Ed; cbn [bind] in H; try discriminate.
    injection H as <-. split; [now constructor|]. intros [|k] j Hk; [|now apply I2]. cbn in Hk. injection Hk as <-. exists a, b, d. auto. }
  destruct L as (L1 & L2). destruct (L2 k i Hk) as (a & b & d & El & Ea & Eb & Ed).
  assert (AT : forall j x, at_ub f j = Ok (x : R) -> nth_error f j = Some x). { intros j x. unfold at_ub. destruct (nth_error f j); congruence. }
  apply AT in Ea, Eb, Ed. rewrite Nat.mul_comm in Ea, Eb, Ed. change (T RN) with R in *. rewrite (concat3_nth R l L1 k c _ Hc El).
  destruct c as [|[|[|c]]]; [exists a|exists b|exists d|lia]; cbn [nth_error]; split; auto. now rewrite Nat.add_0_r.
Qed.
Lemma accel_nth (rho f ext a : list R) : ModelExplicit.acceleration (N:=RN) rho f ext = Ok (a : list (T RN)) ->
  forall i c d (x e : R), (c < 3)%nat -> nth_error rho i = Some d -> nth_error f (3 * i + c) = Some x -> nth_error ext (3 * i + c) = Some e ->
  nth_error a (3 * i + c) = Some ((x + e) / d).
Proof.
  unfold ModelExplicit.acceleration. intros H i c d x e Hc Hd Hx He.
  destruct (map2_ub (@add RN) f ext) as [s| |] eqn:E; cbn [bind] in H; try discriminate. change (T RN) with R in *.
  assert (Es := map2_nth _ _ _ _ E _ _ _ Hx He).
  refine (map2_nth _ _ _ _ H _ _ _ Es _).
  change (T RN) with R. rewrite (concat3_nth R _ ) with (l := [d; d; d]); [destruct c as [|[|[|c]]]; [reflexivity..|lia]| |exact Hc|].
  - apply Forall_forall. intros l I. apply in_map_iff in I as (? & <- & _). reflexivity.
  - rewrite nth_error_map, Hd. reflexivity.
Qed.

(** ** Deformation gradient *)
Lemma gradient_stuck omega (bs : list (gblock RN)) : gradient_blocks (N:=RN) omega 1%Z bs = Ok (1%Z, map gb_old bs).
Proof. induction bs as [|b bs IH]; [reflexivity|]. cbn [gradient_blocks gradient_block Z.eqb bind map]. now rewrite IH. Qed.
Lemma gradient_total omega (bs : list (gblock RN)) : Forall whole bs -> forall rc, (rc = 0%Z \/ rc = 1%Z) ->
  exists rc' fs, gradient_blocks (N:=RN) omega rc bs = Ok (rc', fs) /\ length fs = length bs /\ (rc' = 0%Z \/ rc' = 1%Z).
Proof.
  induction 1 as [|b bs (n & HI) _ IH]; intros rc Hrc; [exists rc, []; auto|]. cbn [gradient_blocks]. unfold gradient_block.
  destruct Hrc as [Hrc|Hrc]; subst rc; cbn [Z.eqb].
  - destruct (deformation_ok omega _ _ _ _ _ _ HI) as (code & geo & E & _). rewrite E. cbn [bind].
    destruct (IH (if Z.eqb code 0 then 0%Z else 1%Z)) as (rc' & fs & E' & L & Q); [destruct (Z.eqb code 0); auto|]. rewrite E'. cbn [bind].
    do 2 eexists. split; [reflexivity|]. split; [cbn; now rewrite L|exact Q].
  - cbn [bind]. destruct (IH 1%Z) as (rc' & fs & E' & L & Q); [auto|]. rewrite E'. cbn [bind].
    do 2 eexists. split; [reflexivity|]. split; [cbn; now rewrite L|exact Q].
Qed.
Lemma gradient_app omega (pre post : list (gblock RN)) rc rc1 f1 rc2 f2 : gradient_blocks (N:=RN) omega rc pre = Ok (rc1, f1) ->
  gradient_blocks (N:=RN) omega rc1 post = Ok (rc2, f2) -> gradient_blocks (N:=RN) omega rc (pre ++ post) = Ok (rc2, f1 ++ f2).
Proof.
  revert rc rc1 f1. induction pre as [|b pre IH]; intros rc rc1 f1 H1 H2; cbn [gradient_blocks app] in *; [injection H1 as -> <-; exact H2|].
  destruct (gradient_block omega rc b) as [[r f]| |]; cbn [bind] in H1 |- *; try discriminate.
  destruct (gradient_blocks omega r pre) as [[r' f']| |] eqn:E; cbn [bind] in H1; try discriminate. injection H1 as -> <-.
  rewrite (IH _ _ _ E H2). reflexivity.
Qed.
