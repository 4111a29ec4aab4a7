(** * Proofs about the contact search *)
From Coq Require Import ZArith Lia Sorting.Sorted.
From Verif Require Import Base Num ModelNeigh ModelBlock ModelScalar ModelContactSearch SpecBlock SpecContactSearch ProofData ProofBlock ProofNeigh.
Local Open Scope Z_scope.

Definition nonempty (l : list Z) : bool := match l with [] => false | _ => true end.
Definition sizes (nbrs : list (list Z)) : list Z := map (fun l => Z.of_nat (length l)) nbrs.
Lemma pos_nonempty l : (0 <? Z.of_nat (length l)) = nonempty l.
Proof. destruct l; [reflexivity|]. cbn [length nonempty]. apply Z.ltb_lt. lia. Qed.
Lemma bond_map_form : forall t gs, length gs = length t ->
  bond_map t (sizes gs) = map (fun e => (fst e, Z.of_nat (length (snd e)))) (List.filter (fun e => nonempty (snd e)) (combine t gs)).
Proof.
  unfold bond_map, sizes. induction t as [|g t IH]; intros [|l gs] L; try discriminate; [reflexivity|].
  cbn [map combine List.filter snd]. rewrite pos_nonempty. destruct (nonempty l); cbn [map fst snd]; rewrite IH by (cbn in L; lia); reflexivity.
Qed.
Lemma kept_fst : forall t gs, length gs = length t -> map fst (bond_map t (sizes gs)) = map fst (List.filter (fun e => nonempty (snd e)) (combine t gs)).
Proof. intros. rewrite bond_map_form, map_map by assumption. reflexivity. Qed.
Lemma kept_snd : forall t gs, length gs = length t -> map snd (bond_map t (sizes gs)) = sizes (List.filter nonempty gs).
Proof.
  intros t gs L. rewrite bond_map_form, map_map by assumption. unfold sizes. revert gs L. induction t as [|g t IH]; intros [|l gs] L; try discriminate; [reflexivity|].
  cbn [combine List.filter snd map]. destruct (nonempty l); cbn [map snd]; rewrite <- IH by (cbn in L; lia); reflexivity.
Qed.
Lemma kept_rows : forall (t : list Z) gs, length gs = length t -> map snd (List.filter (fun e => nonempty (snd e)) (combine t gs)) = List.filter nonempty gs.
Proof.
  induction t as [|g t IH]; intros [|l gs] L; try discriminate; [reflexivity|].
  cbn [combine List.filter snd map]. destruct (nonempty l); cbn [map snd]; rewrite <- IH by (cbn in L; lia); reflexivity.
Qed.
Lemma filter_fst_in {B} (f : Z * B -> bool) l x : In x (map fst (List.filter f l)) -> In x (map fst l).
Proof. intros H. apply in_map_iff in H as (y & <- & H). apply filter_In in H as (H & _). now apply in_map. Qed.
Lemma filter_fst_nodup {B} (f : Z * B -> bool) l : NoDup (map fst l) -> NoDup (map fst (List.filter f l)).
Proof.
  induction l as [|x l IH]; cbn; intros H; [constructor|]. inversion H; subst. destruct (f x); cbn; [|auto]. constructor; [|auto]. intros C. apply H2. eapply filter_fst_in; eauto.
Qed.
Lemma combine_fst {A B} : forall (t : list A) (gs : list B), length gs = length t -> map fst (combine t gs) = t.
Proof. induction t as [|a t IH]; intros [|b gs] L; try discriminate; [reflexivity|]. cbn. f_equal. apply IH. cbn in L. lia. Qed.
Lemma concat_nonempty : forall gs, concat (List.filter nonempty gs) = concat gs.
Proof. induction gs as [|[|x l] gs IH]; cbn [List.filter nonempty concat app]; rewrite ?IH; auto. Qed.
Lemma fold_sizes : forall gs s, fold_left Z.add (sizes gs) s = s + Z.of_nat (length (concat gs)).
Proof. induction gs as [|l gs IH]; intros s; cbn [sizes map fold_left concat]; [cbn; lia|]. fold (sizes gs). rewrite IH, app_length. lia. Qed.
Lemma points_kept t gs : length gs = length t -> points (bond_map t (sizes gs)) = Z.of_nat (length (concat gs)).
Proof. intros L. unfold points. rewrite kept_snd, fold_sizes, concat_nonempty by assumption. lia. Qed.

(** looking up in an association list with distinct keys *)
Lemma assoc_lid {B} : forall (b : list (Z * B)) k g v, NoDup (map fst b) -> nth_error b k = Some (g, v) -> lid (map fst b) g = Z.of_nat k.
Proof. intros b k g v N H. apply lid_nth; [exact N|]. now rewrite (map_nth_error fst _ _ H). Qed.
Lemma kept_find t gs i g l : NoDup t -> length gs = length t -> nth_error t i = Some g -> nth_error gs i = Some l ->
  let b := List.filter (fun e => nonempty (snd e)) (combine t gs) in
  match l with [] => lid (map fst b) g = -1 | _ => exists k, nth_error b k = Some (g, l) /\ lid (map fst b) g = Z.of_nat k end.
Proof.
  intros N L Hg Hl b. assert (I : In (g, l) (combine t gs)).
  { clear -Hg Hl. revert t gs Hg Hl. induction i as [|i IH]; intros [|a t] [|c gs] Hg Hl; try discriminate; cbn in *; [left; congruence|right; auto]. }
  assert (Nb : NoDup (map fst b)) by (apply filter_fst_nodup; rewrite combine_fst; assumption).
  destruct l as [|x l].
  - apply lid_notin. intros C. apply in_map_iff in C as ([g' l'] & E & C). cbn in E. subst g'. apply filter_In in C as (C & P).
    assert (l' = []); [|subst; discriminate]. clear -N I C L. revert gs L I C. induction t as [|a t IH]; intros [|c gs] L I C; try discriminate; cbn in *; [tauto|].
    inversion N; subst. destruct I as [I|I], C as [C|C]; try congruence.
    + exfalso. apply H1. injection I as -> _. apply in_combine_l in C. exact C.
    + exfalso. apply H1. injection C as -> _. apply in_combine_l in I. exact I.
    + apply (IH H2 gs); auto.
  - assert (J : In (g, x :: l) b) by (apply filter_In; split; [exact I|reflexivity]).
    apply In_nth_error in J as (k & J). exists k. split; [exact J|]. now apply (assoc_lid b k g (x :: l)).
Qed.

Lemma number_ok p nbrs : keeps p nbrs -> number_of_bonds p = Ok (sizes nbrs).
Proof.
  intros (N & (gh & Eo) & L & Eb & _). assert (No : NoDup (cp_owned p)) by (rewrite Eo in N; now apply NoDup_app_l in N).
  unfold number_of_bonds. change (cp_bond p = bond_map (cp_owned p) (sizes nbrs)) in Eb. rewrite Eb.
  assert (Q : forall t' gs', length gs' = length t' -> (forall i g, nth_error t' i = Some g -> exists j, nth_error (cp_owned p) j = Some g /\ nth_error nbrs j = nth_error gs' i) ->
    mapM (fun g => let l := lid (map fst (bond_map (cp_owned p) (sizes nbrs))) g in if l =? -1 then Ok 0 else at_z (map snd (bond_map (cp_owned p) (sizes nbrs))) l) t' = Ok (sizes gs')).
  { induction t' as [|g t' IH]; intros [|l gs'] L' H; try discriminate; [reflexivity|]. cbn [mapM].
    destruct (H 0%nat g eq_refl) as (j & Hj & Hl). cbn in Hl. pose proof (kept_find (cp_owned p) nbrs j g l No L Hj Hl) as K. cbn zeta in K.
    rewrite <- (kept_fst (cp_owned p) nbrs L) in K.
    assert (Ev : (let l0 := lid (map fst (bond_map (cp_owned p) (sizes nbrs))) g in if l0 =? -1 then Ok 0 else at_z (map snd (bond_map (cp_owned p) (sizes nbrs))) l0) = Ok (Z.of_nat (length l))).
    { cbv zeta. destruct l as [|x l].
      - rewrite K. reflexivity.
      - destruct K as (k & K1 & K2). rewrite K2. replace (Z.of_nat k =? -1) with false by (symmetry; apply Z.eqb_neq; lia). apply at_z_ok.
        rewrite bond_map_form, map_map by exact L. rewrite (map_nth_error _ _ _ K1). reflexivity. }
    cbv zeta in Ev, IH |- *. rewrite Ev. cbn [bind]. rewrite (IH gs'); [reflexivity|cbn in L'; lia|]. intros i g' Hi. exact (H (S i) g' Hi). }
  apply Q; [exact L|]. eauto.
Qed.

Lemma gids_ok p : forall ls gs pre acc, Forall2 (Forall2 (names (cp_overlap p))) ls gs -> cp_list p = pre ++ flat_form ls ->
  points (cp_bond p) = Z.of_nat (length acc + length (concat gs)) ->
  neighbor_gids p (length ls) (Z.of_nat (length pre)) acc = Ok (acc ++ concat gs).
Proof.
  induction ls as [|l ls IH]; intros gs pre acc F E P; inversion F as [|? g ? gs' F1 F2]; subst.
  - cbn [neighbor_gids length concat]. rewrite P. cbn [concat length]. rewrite Nat2Z.id. replace (length acc + 0 - length acc)%nat with 0%nat by lia. reflexivity.
  - change (flat_form (l :: ls)) with ((Z.of_nat (length l) :: l) ++ flat_form ls) in E. cbn [length neighbor_gids].
    rewrite E, count_app. cbn [bind]. rewrite Nat2Z.id, run_app. cbn [bind]. cbn [concat] in P. rewrite app_length in P.
    pose proof (Forall2_len _ _ _ _ _ F1) as Ll. replace (points (cp_bond p) <? Z.of_nat (length acc + length l)) with false by (symmetry; apply Z.ltb_ge; lia).
    rewrite <- (Forall2_gid _ _ _ F1).
    replace (Z.of_nat (length pre) + 1 + Z.of_nat (length l)) with (Z.of_nat (length (pre ++ Z.of_nat (length l) :: l))) by (rewrite app_length; cbn [length]; lia).
    rewrite (IH gs'); [cbn [concat]; rewrite (Forall2_gid _ _ _ F1), app_assoc; reflexivity|exact F2|rewrite E, <- app_assoc; reflexivity|].
    rewrite app_length, map_length. lia.
Qed.
Lemma elements_split : forall gs, elements (sizes gs) (concat gs) = gs.
Proof.
  induction gs as [|l gs IH]; [reflexivity|]. cbn [sizes map elements concat]. fold (sizes gs).
  rewrite Nat2Z.id, firstn_app, Nat.sub_diag, firstn_all, firstn_O, app_nil_r, skipn_app, Nat.sub_diag, skipn_all, skipn_O. cbn [app]. now rewrite IH.
Qed.
Lemma rows_ok p nbrs : keeps p nbrs -> bond_elements p = Ok (List.filter nonempty nbrs).
Proof.
  intros (N & _ & L & Eb & ls & El & F). unfold bond_elements. change (cp_bond p = bond_map (cp_owned p) (sizes nbrs)) in Eb.
  pose proof (Forall2_len _ _ _ _ _ F) as Ll. pose proof (gids_ok p ls nbrs [] [] F El) as G. cbn [length app Z.of_nat] in G. rewrite <- L, <- Ll, G by (rewrite Eb, points_kept by exact L; lia).
  cbn [bind]. rewrite Eb, kept_snd by exact L. rewrite <- concat_nonempty, elements_split. reflexivity.
Qed.

Lemma mapM_all {A B} (f : A -> outcome B) (R : A -> B -> Prop) : forall l l', Forall2 R l l' -> (forall a b, In a l -> R a b -> f a = Ok b) -> mapM f l = Ok l'.
Proof.
  induction 1 as [|a b l l' H F IH]; intros K; [reflexivity|]. cbn [mapM]. rewrite (K a b (or_introl eq_refl) H). cbn [bind]. rewrite IH; [reflexivity|]. intros; apply K; auto; now right.
Qed.

Section Target.
  Context (cur : list cproc) (nbrs : list (list (list Z))) (KA : keep_all cur nbrs).
  (** the row of a point *)
  Definition row (g : Z) (l : list Z) : Prop :=
    exists q p ns i, nth_error cur q = Some p /\ nth_error nbrs q = Some ns /\ nth_error (cp_owned p) i = Some g /\ nth_error ns i = Some l.
  Lemma keeps_at q p ns : nth_error cur q = Some p -> nth_error nbrs q = Some ns -> keeps p ns.
  Proof.
    pose proof (proj1 KA) as F. clear KA. revert q. induction F as [|p' ns' cur' nbrs' H F IH]; intros [|q] A B; try discriminate; cbn in *; [injection A as <-; injection B as <-; exact H|eauto].
  Qed.
  Lemma row_ex g : In g (concat (map cp_owned cur)) -> exists l, row g l.
  Proof.
    intros H. apply in_concat in H as (m & Hm & Hg). apply in_map_iff in Hm as (p & <- & Hp). apply In_nth_error in Hp as (q & Hq). apply In_nth_error in Hg as (i & Hi).
    assert (Hn : exists ns, nth_error nbrs q = Some ns).
    { destruct (nth_error nbrs q) as [ns|] eqn:E; [eauto|]. apply nth_error_None in E. destruct KA as (F & _). rewrite <- (Forall2_len _ _ _ _ _ F) in E. assert (q < length cur)%nat by (apply nth_error_Some; congruence). lia. }
    destruct Hn as (ns & Hn). pose proof (keeps_at q p ns Hq Hn) as (_ & _ & L & _).
    destruct (nth_error ns i) as [l|] eqn:E; [|apply nth_error_None in E; assert (i < length (cp_owned p))%nat by (apply nth_error_Some; congruence); lia].
    exists l, q, p, ns, i. auto.
  Qed.
  Lemma concat_nodup : forall (l l' : list (list Z)), NoDup (concat l) -> Forall2 (fun a b => NoDup a /\ forall x, In x a -> In x b) l' l -> NoDup (concat l').
  Proof.
    intros l l' H F. revert H. induction F as [|a b l' l (N & S) F IH]; intros H; [constructor|]. cbn [concat] in *. apply NoDup_app_intro.
    - exact N.
    - apply IH. eapply NoDup_app_r; eauto.
    - intros x Hx C. eapply NoDup_app_disj; [exact H|apply S, Hx|]. clear -C F. induction F as [|a' b' l' l (_ & S) F IH]; [destruct C|]. cbn [concat] in *. apply in_app_iff in C as [C|C]; apply in_app_iff; auto.
  Qed.
  Lemma combine_nth {A B} : forall q (a : list A) (b : list B) x y, nth_error a q = Some x -> nth_error b q = Some y -> In (x, y) (combine a b).
  Proof. induction q as [|q IH]; intros [|a0 a] [|b0 b] x y Ha Hb; try discriminate; cbn in *; [left; congruence|right; eauto]. Qed.
  Lemma owned_nodup p ns : keeps p ns -> NoDup (cp_owned p).
  Proof. intros (N & (gh & E) & _). rewrite E in N. now apply NoDup_app_l in N. Qed.
  Lemma count_import g l : row g l -> import1 (combine (map cp_owned cur) (map sizes nbrs)) g = Ok (Z.of_nat (length l)).
  Proof.
    intros (q & p & ns & i & Hq & Hn & Hi & Hl). destruct KA as (F & N).
    apply (import1_ok _ _ (cp_owned p) (sizes ns) i).
    - rewrite combine_fst; [exact N|]. rewrite !map_length. symmetry. eapply Forall2_len; eauto.
    - apply (combine_nth q); now apply map_nth_error.
    - exact Hi.
    - unfold sizes. now apply map_nth_error with (f := fun l => Z.of_nat (length l)) in Hl.
  Qed.
  Lemma row_import g l : row g l -> l <> [] -> import1 (combine (map (fun q => map fst (cp_bond q)) cur) (map (List.filter nonempty) nbrs)) g = Ok l.
  Proof.
    intros (q & p & ns & i & Hq & Hn & Hi & Hl) NE. destruct KA as (F & N). pose proof (keeps_at q p ns Hq Hn) as K. pose proof K as (_ & _ & L & Eb & _).
    change (cp_bond p = bond_map (cp_owned p) (sizes ns)) in Eb.
    pose proof (kept_find (cp_owned p) ns i g l (owned_nodup p ns K) L Hi Hl) as Q. cbn zeta in Q. destruct l as [|x l]; [contradiction|]. destruct Q as (k & Qk & _).
    apply (import1_ok _ _ (map fst (cp_bond p)) (List.filter nonempty ns) k).
    - rewrite combine_fst by (rewrite !map_length; symmetry; eapply Forall2_len; eauto).
      apply (concat_nodup (map cp_owned cur)); [exact N|]. clear -F. induction F as [|p ns cur nbrs K F IH]; cbn [map]; constructor; [|exact IH].
      pose proof K as (_ & _ & L & Eb & _). change (cp_bond p = bond_map (cp_owned p) (sizes ns)) in Eb. rewrite Eb, kept_fst by exact L. split.
      + apply filter_fst_nodup. rewrite combine_fst by exact L. eapply owned_nodup; eauto.
      + intros x H. apply filter_fst_in in H. rewrite combine_fst in H by exact L. exact H.
    - apply (combine_nth q); [now rewrite (map_nth_error _ _ _ Hq)|now apply map_nth_error].
    - rewrite Eb, kept_fst by exact L. now rewrite (map_nth_error fst _ _ Qk).
    - rewrite <- (kept_rows (cp_owned p) ns L). now rewrite (map_nth_error snd _ _ Qk).
  Qed.

  Context (t : list Z) (Nt : NoDup t) (Ht : forall g, In g t -> In g (concat (map cp_owned cur))).
  Lemma target_rows : exists gs, Forall2 row t gs.
  Proof. clear Nt. induction t as [|g t' IH]; [exists []; constructor|]. destruct IH as (gs & F); [intros; apply Ht; now right|]. destruct (row_ex g) as (l & R); [apply Ht; now left|]. exists (l :: gs). now constructor. Qed.
  Context (gs : list (list Z)) (F : Forall2 row t gs).
  Lemma target_counts : mapM (import1 (combine (map cp_owned cur) (map sizes nbrs))) t = Ok (sizes gs).
  Proof.
    apply (mapM_all _ (fun g n => exists l, row g l /\ n = Z.of_nat (length l))).
    - unfold sizes. clear -F. induction F; cbn; constructor; eauto.
    - intros g n _ (l & R & ->). now apply count_import.
  Qed.
  Let L : length gs = length t. Proof. symmetry. eapply Forall2_len; eauto. Qed.
  Lemma target_elements : mapM (import1 (combine (map (fun q => map fst (cp_bond q)) cur) (map (List.filter nonempty) nbrs))) (map fst (bond_map t (sizes gs))) = Ok (List.filter nonempty gs).
  Proof.
    rewrite kept_fst by exact L. apply (mapM_all _ (fun g l => row g l /\ l <> [])).
    - clear -F. induction F as [|g l t' gs' R F' IH]; cbn [combine List.filter snd map]; [constructor|]. destruct l as [|x l]; cbn [nonempty map fst]; [exact (IH F')|]. constructor; [|exact (IH F')]. split; [exact R|discriminate].
    - intros g l _ (R & NE). now apply row_import.
  Qed.
  Lemma target_bonded i g l : nth_error t i = Some g -> nth_error gs i = Some l -> bonded_ids (map fst (bond_map t (sizes gs))) (List.filter nonempty gs) g = Ok l.
  Proof.
    intros Hg Hl. unfold bonded_ids. pose proof (kept_find t gs i g l Nt L Hg Hl) as Q. cbn zeta in Q. rewrite kept_fst by exact L. destruct l as [|x l].
    - rewrite Q. reflexivity.
    - destruct Q as (k & Qk & Q). rewrite Q. replace (Z.of_nat k =? -1) with false by (symmetry; apply Z.eqb_neq; lia). apply at_z_ok. rewrite <- (kept_rows t gs L). now rewrite (map_nth_error snd _ _ Qk).
  Qed.

  Definition unbonded (l found : list Z) : list Z := List.filter (fun h => negb (existsb (Z.eqb h) l)) found.
  Definition unbonded_all (gs found : list (list Z)) : list (list Z) := map (fun e => unbonded (fst e) (snd e)) (combine gs found).
  Lemma append_new : forall g ids m, ~ In g (map fst m) -> map_append g ids m = m ++ [(g, ids)].
  Proof. induction m as [|[h l] m IH]; cbn; intros H; [reflexivity|]. destruct (Z.eqb_spec h g) as [->|_]; [tauto|]. now rewrite IH by tauto. Qed.
  Lemma contacts_ok found : length found = length t ->
    search_contacts t (map fst (bond_map t (sizes gs))) (List.filter nonempty gs) found = Ok (combine t (unbonded_all gs found)).
  Proof.
    intros Lf. unfold search_contacts.
    assert (Q : forall t' gs' found' pre, length gs' = length t' -> length found' = length t' -> (forall i, nth_error t' i <> None -> exists j, nth_error t j = nth_error t' i /\ nth_error gs j = nth_error gs' i) ->
      NoDup (map fst pre ++ t') ->
      foldM (fun m gf => let? bonded := bonded_ids (map fst (bond_map t (sizes gs))) (List.filter nonempty gs) (fst gf) in
        Ok (map_append (fst gf) (List.filter (fun h => negb (existsb (Z.eqb h) bonded)) (snd gf)) m)) pre (combine t' found') = Ok (pre ++ combine t' (unbonded_all gs' found'))).
    { induction t' as [|g t' IH]; intros [|l gs'] [|fd found'] pre L1 L2 H N; try discriminate; [cbn; now rewrite app_nil_r|].
      cbn [combine foldM fst snd]. destruct (H 0%nat) as (j & J1 & J2); [discriminate|]. cbn in J1, J2. rewrite (target_bonded j g l J1 J2). cbn [bind].
      rewrite append_new by (intros C; apply NoDup_remove_2 in N; apply N, in_app_iff; now left). rewrite (IH gs' found').
      - unfold unbonded_all. cbn [combine map fst snd]. rewrite <- app_assoc. reflexivity.
      - cbn in L1. lia.
      - cbn in L2. lia.
      - intros i Hi. exact (H (S i) Hi).
      - rewrite map_app. cbn [map fst]. rewrite <- app_assoc. exact N. }
    apply (Q t gs found []); [exact L|exact Lf| |exact Nt]. intros i _. exists i. auto.
  Qed.
End Target.

Lemma off_ids_ok : forall t ids s, StronglySorted Z.lt s -> NoDup t -> StronglySorted Z.lt (off_ids t ids s) /\ forall x, In x (off_ids t ids s) <-> In x s \/ In x ids /\ ~ In x t.
Proof.
  unfold off_ids. intros t ids. induction ids as [|g ids IH]; intros s S N; cbn [fold_left]; [split; [exact S|]; intros x; cbn; tauto|].
  destruct (Z.eqb_spec (lid t g) (-1)) as [E|E].
  - assert (NI : ~ In g t) by (intros C; destruct (lid_in _ _ C N) as (k & Ek & _); lia).
    destruct (IH (set_insert g s)) as (A & B); [now apply set_insert_sorted|exact N|]. split; [exact A|]. intros x. rewrite B, set_insert_In. cbn [In]. split; [intros [[->|?]|?]; tauto|]. intros [?|[[<-|?] ?]]; tauto.
  - assert (I : In g t) by (destruct (in_dec Z.eq_dec g t); auto; exfalso; apply E; now apply lid_notin).
    destruct (IH s S N) as (A & B). split; [exact A|]. intros x. rewrite B. cbn [In]. split; [tauto|]. intros [?|[[<-|?] ?]]; tauto.
Qed.
Lemma local_ok ov g : NoDup ov -> In g ov -> local_or_throw ov g = Ok (lid ov g).
Proof. intros N I. unfold local_or_throw. destruct (lid_in _ _ I N) as (k & -> & _). replace (Z.of_nat k =? -1) with false by (symmetry; apply Z.eqb_neq; lia). reflexivity. Qed.
Lemma mapM_local ov l : NoDup ov -> (forall g, In g l -> In g ov) -> mapM (local_or_throw ov) l = Ok (map (lid ov) l).
Proof. intros N H. apply mapM_ok. intros g I. apply local_ok; auto. Qed.
Lemma flat_len gs : length (flat_form gs) = (length gs + length (concat gs))%nat.
Proof. induction gs as [|l gs IH]; [reflexivity|]. change (flat_form (l :: gs)) with (Z.of_nat (length l) :: l ++ flat_form gs). cbn [length concat]. rewrite !app_length, IH. lia. Qed.

Lemma local_bonds_ok t gs ov : NoDup t -> length gs = length t -> NoDup ov -> (forall l x, In l gs -> In x l -> In x ov) ->
  local_bonds t ov (bond_map t (sizes gs)) (List.filter nonempty gs) = Ok (flat_form (map (map (lid ov)) gs)).
Proof.
  intros Nt L No H. unfold local_bonds.
  assert (Q : forall t' gs' acc, length gs' = length t' -> (forall i, nth_error t' i <> None -> exists j, nth_error t j = nth_error t' i /\ nth_error gs j = nth_error gs' i) ->
    foldM (fun acc g => let l := lid (map fst (bond_map t (sizes gs))) g in if l =? -1 then Ok (acc ++ [0]) else
       let? e := at_z (List.filter nonempty gs) l in let? loc := mapM (local_or_throw ov) e in Ok (acc ++ Z.of_nat (length loc) :: loc)) acc t' = Ok (acc ++ flat_form (map (map (lid ov)) gs'))).
  { induction t' as [|g t' IH]; intros [|l gs'] acc L1 H1; try discriminate; [cbn; now rewrite app_nil_r|]. cbn [foldM].
    destruct (H1 0%nat) as (j & J1 & J2); [discriminate|]. cbn in J1, J2. pose proof (kept_find t gs j g l Nt L J1 J2) as K. cbn zeta in K. rewrite <- (kept_fst t gs L) in K.
    change (flat_form (map (map (lid ov)) (l :: gs'))) with ((Z.of_nat (length (map (lid ov) l)) :: map (lid ov) l) ++ flat_form (map (map (lid ov)) gs')).
    destruct l as [|x l].
    - cbv zeta in IH |- *. rewrite K. change (-1 =? -1) with true. cbn [bind]. rewrite (IH gs'); [cbn; rewrite <- app_assoc; reflexivity|cbn in L1; lia|]. intros i Hi. exact (H1 (S i) Hi).
    - destruct K as (k & K1 & K2). cbv zeta in IH |- *. rewrite K2. replace (Z.of_nat k =? -1) with false by (symmetry; apply Z.eqb_neq; lia).
      rewrite (at_z_ok _ (List.filter nonempty gs) k (x :: l)) by (rewrite <- (kept_rows t gs L); now rewrite (map_nth_error snd _ _ K1)). cbn [bind].
      rewrite mapM_local; [cbn [bind]|exact No|intros y Hy; eapply H; [eapply nth_error_In; exact J2|exact Hy]].
      rewrite (IH gs'); [rewrite <- app_assoc; reflexivity|cbn in L1; lia|]. intros i Hi. exact (H1 (S i) Hi). }
  cbv zeta in Q |- *. rewrite (Q t gs []); [|exact L|eauto]. cbn [app bind]. rewrite points_kept by exact L.
  assert (E : length (flat_form (map (map (lid ov)) gs)) = (length t + length (concat gs))%nat) by (rewrite flat_form_map_len, flat_len; lia).
  rewrite E. replace (_ <? _) with false; [reflexivity|]. symmetry. apply Z.ltb_ge. lia.
Qed.

Lemma find_combine : forall t cs i g c, NoDup t -> nth_error t i = Some g -> nth_error cs i = Some c -> map_find g (combine t cs) = Some c.
Proof.
  induction t as [|h t IH]; intros [|c' cs] [|i] g c N Hg Hc; try discriminate; cbn in *.
  - injection Hg as ->. injection Hc as ->. now rewrite Z.eqb_refl.
  - inversion N; subst. destruct (Z.eqb_spec h g) as [->|_]; [exfalso; apply H1; eapply nth_error_In; eauto|eauto].
Qed.
Lemma local_contacts_ok t cs ov : NoDup t -> length cs = length t ->
  local_contacts t ov (combine t cs) = Ok (flat_form (map (map (lid ov)) cs)).
Proof.
  intros Nt L. unfold local_contacts.
  assert (Sz : forall t' cs' s, length cs' = length t' -> fold_left (fun s (e : Z * list Z) => s + (Z.of_nat (length (snd e)) + 1)) (combine t' cs') s = s + Z.of_nat (length (flat_form cs'))).
  { induction t' as [|g t' IH]; intros [|c cs'] s L'; try discriminate; [cbn; lia|]. cbn [combine fold_left snd]. rewrite IH by (cbn in L'; lia). rewrite !flat_len. cbn [length concat]. rewrite app_length. lia. }
  assert (Q : forall t' cs' acc, length cs' = length t' -> (forall i, nth_error t' i <> None -> exists j, nth_error t j = nth_error t' i /\ nth_error cs j = nth_error cs' i) ->
    foldM (fun acc g => match map_find g (combine t cs) with None => Err | Some ids => Ok (acc ++ Z.of_nat (length ids) :: map (lid ov) ids) end) acc t' = Ok (acc ++ flat_form (map (map (lid ov)) cs'))).
  { induction t' as [|g t' IH]; intros [|c cs'] acc L1 H1; try discriminate; [cbn; now rewrite app_nil_r|]. cbn [foldM].
    destruct (H1 0%nat) as (j & J1 & J2); [discriminate|]. cbn in J1, J2. rewrite (find_combine t cs j g c Nt J1 J2). cbn [bind].
    rewrite (IH cs'); [|cbn in L1; lia|intros i Hi; exact (H1 (S i) Hi)].
    change (flat_form (map (map (lid ov)) (c :: cs'))) with ((Z.of_nat (length (map (lid ov) c)) :: map (lid ov) c) ++ flat_form (map (map (lid ov)) cs')). rewrite map_length, <- app_assoc. reflexivity. }
  rewrite (Q t cs []); [|exact L|eauto]. cbn [app bind]. rewrite Sz by exact L. rewrite flat_form_map_len. replace (_ <? _) with false; [reflexivity|]. symmetry. apply Z.ltb_ge. lia.
Qed.
