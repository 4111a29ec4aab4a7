(** * Proofs for the mesh converter *)
From Coq Require Import String Permutation.
From Verif Require Import Base Num ModelScalar ModelInput ModelGeom ModelMesh SpecMesh ProofMesh ProofBC2 ProofStep ModelConvert SpecConvert.
Local Open Scope string_scope.
Local Open Scope list_scope.

Lemma insert_perm {A} (e : string * A) l : Permutation (insert_named e l) (e :: l).
Proof.
  induction l as [|f l IH]; [reflexivity|]. cbn [insert_named]. destruct (String.compare (fst e) (fst f)); try reflexivity.
  rewrite IH. apply perm_swap.
Qed.
Lemma by_name_perm {A} (l : list (string * A)) : Permutation (by_name l) l.
Proof. induction l as [|e l IH]; [reflexivity|]. cbn [by_name fold_right]. fold (by_name l). rewrite insert_perm. now rewrite IH. Qed.

Lemma perm_concat {A B} (f : A -> list B) l l' : Permutation l l' -> Permutation (concat (map f l)) (concat (map f l')).
Proof.
  induction 1; cbn [map concat]; [reflexivity|now apply Permutation_app_head| |etransitivity; eassumption].
  rewrite !app_assoc. apply Permutation_app_tail, Permutation_app_comm.
Qed.
Lemma lid_inv ids g k : lid ids g = Some k -> nth_error ids k = Some g.
Proof.
  revert k. induction ids as [|h ids IH]; intros k H; cbn [lid] in H; [discriminate|]. destruct (Z.eqb_spec h g) as [->|].
  - injection H as <-. reflexivity.
  - destruct (lid ids g) as [j|]; [|discriminate]. injection H as <-. now apply IH.
Qed.

Lemma distinct_spec l : distinct l = true <-> NoDup l.
Proof.
  induction l as [|z l IH]; cbn [distinct]; [split; [constructor|reflexivity]|]. rewrite andb_true_iff, negb_true_iff, IH. split.
  - intros (A & B). constructor; [|exact B]. intros C. assert (existsb (Z.eqb z) l = true); [|congruence]. apply existsb_exists. exists z. split; [exact C|apply Z.eqb_refl].
  - intros H. inversion H; subst. split; [|assumption]. destruct (existsb (Z.eqb z) l) eqn:E; [|reflexivity]. apply existsb_exists in E as (y & Y & Q). apply Z.eqb_eq in Q. now subst.
Qed.

Lemma mapO_some {A B} (f : A -> outcome B) l : (forall a, In a l -> exists b, f a = Ok b) -> exists r, mapO f l = Ok r.
Proof. induction l as [|a l IH]; intros H; [now exists []|]. destruct (H a (or_introl eq_refl)) as (b & E). destruct IH as (r & Er); [intros; apply H; now right|]. exists (b :: r). cbn [mapO]. now rewrite E, Er. Qed.

Lemma skip_more {A} (l : list A) n : forall k, skipn (n + k) l = skipn k (skipn n l).
Proof. revert l. induction n as [|n IH]; intros l k; [reflexivity|]. destruct l; [now rewrite !skipn_nil|]. apply IH. Qed.
(** The stretch that offset and size name is the set again. *)
Lemma concat_slices l : forall off pre, length pre = off ->
  Forall2 (fun e so => firstn (fst so) (skipn (snd so) (pre ++ snd (concat_sets l off))) = map (fun g => (g + 1)%Z) (snd e)) l (fst (concat_sets l off)).
Proof.
  induction l as [|(n & s) l IH]; intros off pre Hp; cbn [concat_sets fst snd]; [constructor|]. constructor; cbn [fst snd].
  - rewrite skipn_app, Hp, Nat.sub_diag. rewrite <- Hp, skipn_all. cbn [app]. rewrite skipn_O. rewrite firstn_app, map_length, Nat.sub_diag, firstn_O, app_nil_r.
    apply firstn_all2. now rewrite map_length.
  - rewrite app_assoc. apply (IH (off + length s) (pre ++ map (fun g => (g + 1)%Z) s)). rewrite app_length, map_length. lia.
Qed.
Lemma stored_from flat l : forall so k sets, Forall2 (fun e so => firstn (fst so) (skipn (snd so) flat) = map (fun g => (g + 1)%Z) (snd e)) l so ->
  mapO (fun e => let '((k, (name, _)), (size, offset)) := e in let? n := copy_name name in
        Ok {| ms_id := Z.of_nat k + 1; ms_name := n; ms_nodes := firstn size (skipn offset flat) |}) (combine (combine (seq k (length l)) l) so) = Ok sets ->
  Forall2 (fun e s => ms_name s = fst e /\ ms_nodes s = map (fun g => (g + 1)%Z) (snd e) /\ String.length (fst e) <= 32) l sets.
Proof.
  induction l as [|(n & s) l IH]; intros so k sets C H.
  - inversion C; subst. cbn in H. injection H as <-. constructor.
  - inversion C as [|? (size & off) ? so' Q C']; subst. cbn [length seq combine mapO] in H. unfold copy_name in H at 1. destruct (Nat.leb_spec (String.length n) 32); [|discriminate]. cbn [bind] in H.
    match type of H with bind ?e _ = _ => destruct e as [r| |] eqn:E; try discriminate end. cbn [bind] in H. injection H as <-. constructor; [cbn [fst snd ms_name ms_nodes] in *; auto|].
    exact (IH _ _ _ C' E).
Qed.
Lemma stored_spec l sets : stored_sets l = Ok sets ->
  Forall2 (fun e s => ms_name s = fst e /\ ms_nodes s = map (fun g => (g + 1)%Z) (snd e) /\ String.length (fst e) <= 32) l sets.
Proof. intros H. exact (stored_from _ l _ 0 sets (concat_slices l 0 [] eq_refl) H). Qed.
Lemma stored_ok l : (forall e, In e l -> String.length (fst e) <= 32) -> exists sets, stored_sets l = Ok sets.
Proof.
  intros H. unfold stored_sets. destruct (mapO_some (fun e => let '((k, (name, _)), (size, offset)) := e in let? n := copy_name name in
        Ok {| ms_id := Z.of_nat k + 1; ms_name := n; ms_nodes := firstn size (skipn offset (snd (concat_sets l 0))) |}) (combine (combine (seq 0 (length l)) l) (fst (concat_sets l 0)))) as (r & E); eauto.
  intros ((k & (n & s)) & (size & off)) I. apply in_combine_l, in_combine_r in I. apply H in I. cbn [fst] in I. unfold copy_name. destruct (Nat.leb_spec (String.length n) 32); [|lia]. cbn [bind]. eauto.
Qed.

Section Blocks.
  Context {N : Num}.
  Variable cbrt : N -> N.
  Variables (ids : list Z) (pts : list (mpoint N)).

  (** The element of the file that [g] becomes. *)
  Lemma sphere_inv g r : sphere cbrt ids pts g = Ok r -> exists k p, nth_error ids k = Some g /\ nth_error pts k = Some p /\ r = ((Z.of_nat k + 1)%Z, [cbrt (mp_volume p); mp_volume p]).
  Proof.
    unfold sphere. destruct (lid ids g) as [k|] eqn:E; [|discriminate]. unfold at_ub. destruct (nth_error pts k) as [p|] eqn:P; [|discriminate]. cbn [bind]. intros H. injection H as <-.
    exists k, p. split; [now apply lid_inv|auto].
  Qed.
  Lemma attr_nth l r : Forall2 (fun g r => sphere cbrt ids pts g = Ok r) l r -> forall i g, nth_error l i = Some g ->
    exists k p, nth_error ids k = Some g /\ nth_error pts k = Some p /\ nth_error (map fst r) (i * 1 + 0) = Some (Z.of_nat k + 1)%Z /\ nth_error (concat (map snd r)) (i * 2 + 1) = Some (mp_volume p).
  Proof.
    induction 1 as [|h q l r Q F IH]; intros [|i] g G; try discriminate.
    - injection G as <-. apply sphere_inv in Q as (k & p & A & B & ->). exists k, p. auto.
    - destruct (IH i g G) as (k & p & A & B & C & D). exists k, p. split; [exact A|]. split; [exact B|]. apply sphere_inv in Q as (k' & p' & _ & _ & ->). cbn. auto.
  Qed.
  Lemma attr_length l r : Forall2 (fun g r => sphere cbrt ids pts g = Ok r) l r -> length (map fst r) = length l * 1 /\ length (concat (map snd r)) = length l * 2 /\
    Forall (fun c => 1 <= c <= Z.of_nat (length pts))%Z (map fst r).
  Proof.
    induction 1 as [|h q l r Q F (A & B & C)]; [repeat constructor|]. apply sphere_inv in Q as (k & p & P1 & P & ->). cbn [map concat length fst snd app]. split; [lia|]. split; [lia|].
    constructor; [|exact C]. assert (k < length pts) by (apply nth_error_Some; congruence). lia.
  Qed.
  Definition made_of (e : string * list Z) (b : mblock N) : Prop :=
    block_id (fst e) = Ok (mb_id b) /\ mb_name b = fst e /\ String.length (fst e) <= 32 /\ mb_type b = "SPHERE" /\ mb_count b = length (snd e) /\ mb_npe b = 1 /\ mb_nattr b = 2 /\
    exists l, Forall2 (fun g r => sphere cbrt ids pts g = Ok r) (snd e) l /\ mb_conn b = map fst l /\ mb_attr b = concat (map snd l).
  Lemma block_inv e b : sphere_block cbrt ids pts e = Ok b -> made_of e b.
  Proof.
    unfold sphere_block. destruct (block_id (fst e)) as [id| |] eqn:E; try discriminate. cbn [bind]. unfold copy_name. destruct (Nat.leb_spec (String.length (fst e)) 32); [|discriminate]. cbn [bind].
    destruct (mapO _ (snd e)) as [l| |] eqn:M; try discriminate. cbn [bind]. intros Q. injection Q as <-. unfold made_of. cbn. repeat (split; [auto|]). exists l. split; [now apply mapO_inv|auto].
  Qed.

  Lemma element_at bl bs : Forall2 made_of bl bs -> forall l1 b l2 i, bs = l1 ++ b :: l2 -> i < mb_count b ->
    exists e, nth_error bl (length l1) = Some e /\ made_of e b /\ nth_error (concat (map snd bl)) (elements_in l1 + i) = nth_error (snd e) i.
  Proof.
    induction 1 as [|e b0 bl bs M F IH]; intros l1 b l2 i E I; [destruct l1; discriminate|]. destruct l1 as [|c l1]; cbn [app] in E; injection E as <- E.
    - exists e. split; [reflexivity|]. split; [exact M|]. cbn [map concat elements_in list_sum fold_right plus]. apply nth_error_app1. destruct M as (_ & _ & _ & _ & M & _). lia.
    - destruct (IH l1 b l2 i E I) as (e' & A & B & C). exists e'. split; [exact A|]. split; [exact B|]. cbn [map concat]. destruct M as (_ & _ & _ & _ & M & _).
      change (elements_in (b0 :: l1)) with (mb_count b0 + elements_in l1). rewrite nth_error_app2 by lia. rewrite <- C. f_equal. lia.
  Qed.
  Lemma element_ex bl bs : Forall2 made_of bl bs -> forall k, k < length (concat (map snd bl)) -> exists l1 b l2 i, bs = l1 ++ b :: l2 /\ i < mb_count b /\ k = elements_in l1 + i.
  Proof.
    induction 1 as [|e b0 bl bs M F IH]; intros k K; cbn [map concat length] in K; [lia|]. rewrite app_length in K. destruct M as (_ & _ & _ & _ & M & _).
    destruct (Nat.lt_ge_cases k (length (snd e))) as [L|L].
    - exists [], b0, bs, k. split; [reflexivity|]. cbn. lia.
    - destruct (IH (k - length (snd e)) ltac:(lia)) as (l1 & b & l2 & i & -> & A & B). exists (b0 :: l1), b, l2, i. split; [reflexivity|]. split; [exact A|].
      change (elements_in (b0 :: l1)) with (mb_count b0 + elements_in l1). lia.
  Qed.
  Lemma elements_count bl bs : Forall2 made_of bl bs -> elements_in bs = length (concat (map snd bl)).
  Proof.
    induction 1 as [|e b0 bl bs M F IH]; [reflexivity|]. cbn [map concat]. rewrite app_length, <- IH. change (elements_in (b0 :: bs)) with (mb_count b0 + elements_in bs).
    destruct M as (_ & _ & _ & _ & M & _). lia.
  Qed.
End Blocks.

(** ** What a loaded mesh is like *)
Section Sound.
  Context {N : Num}.
  Definition sound (r : loaded N) : Prop :=
    NoDup (lo_ids r) /\ length (lo_points r) = length (lo_ids r) /\ NoDup (map fst (lo_blocks r)) /\ ~ In "" (map fst (lo_blocks r)) /\
    concat (map snd (lo_blocks r)) = lo_ids r /\ NoDup (map fst (lo_sets r)) /\ ~ In "" (map fst (lo_sets r)) /\
    forall n l g, In (n, l) (lo_sets r) -> In g l -> In g (lo_ids r).
  Lemma name_not_empty given prefix id : prefix <> "" -> name_or given prefix id <> "".
  Proof. unfold name_or. destruct (String.eqb_spec given ""); [|auto]. destruct prefix; [congruence|discriminate]. Qed.
  Fixpoint rows (ids : list Z) (n : nat) (l : list (mblock N)) : list (string * list Z) :=
    match l with [] => [] | b :: l' => (block_name b, firstn (mb_count b) (skipn n ids)) :: rows ids (n + mb_count b) l' end.
  Lemma rows_eq ids l : block_rows ids [] l = rows ids 0 l.
  Proof. unfold block_rows. change (elements_in (@nil (mblock N))) with 0. generalize 0. induction l as [|b l IH]; intros n; cbn [rows]; [reflexivity|]. f_equal. apply IH. Qed.
  Lemma rows_names ids l : forall n, map fst (rows ids n l) = map block_name l.
  Proof. induction l as [|b l IH]; intros n; cbn; [reflexivity|]. f_equal. apply IH. Qed.
  Lemma rows_concat ids l : forall n, n + elements_in l = length ids -> concat (map snd (rows ids n l)) = skipn n ids.
  Proof.
    induction l as [|b l IH]; intros n H; cbn [rows map concat].
    - change (n + 0 = length ids) in H. rewrite skipn_all2 by lia. reflexivity.
    - change (elements_in (b :: l)) with (mb_count b + elements_in l) in H. cbn [snd]. rewrite IH by lia. rewrite skip_more. apply firstn_skipn.
  Qed.
  Lemma F2_fst {A} (P : A -> string * list Z -> Prop) (f : A -> string) l r : (forall a e, P a e -> fst e = f a) -> Forall2 P l r -> map fst r = map f l.
  Proof. intros H. induction 1; cbn; [reflexivity|]. f_equal; auto. Qed.
  Lemma loaded_sound (m : mesh N) r : mesh_wf m -> load_mesh m = Ok r -> sound r.
  Proof.
    intros W E. pose proof (load_spec m W) as S. rewrite E in S. destruct W as (Nd & Le & _ & _). destruct S as (Rd & A & B & _ & D & F & _).
    assert (Ls : length (lo_ids r) = length (numbers m)) by (rewrite A; apply zero_length). rewrite rows_eq in D. destruct Rd as (_ & R1 & R2 & _).
    assert (Fn : map fst (lo_sets r) = map set_name (me_sets m)) by (eapply F2_fst; [|exact F]; intros a e (H & _); exact H).
    split; [rewrite A; now apply zero_nodup|]. split; [congruence|]. split; [rewrite D, rows_names; exact R1|]. split; [|split; [|split; [|split]]].
    - rewrite D, rows_names. rewrite in_map_iff. intros (b & H & _). revert H. apply name_not_empty. discriminate.
    - rewrite D, rows_concat; [rewrite A; reflexivity|]. rewrite zero_length. lia.
    - rewrite Fn. exact R2.
    - rewrite Fn, in_map_iff. intros (b & H & _). revert H. apply name_not_empty. discriminate.
    - intros n l g I G. destruct (Forall2_in_r _ _ _ F _ I) as (s & ? & ? & Sp). unfold set_spec in Sp. pose proof (proj1 (proj2 Sp g) G) as (e & ? & ? & ? & ? & ? & ? & ? & G2). rewrite A. exact (nth_error_In _ _ G2).
  Qed.
End Sound.

Section Whole.
  Context {N : Num}.
  Variable cbrt : N -> N.
  Variable dbl_max : N.
  Variables (scale : N) (layer : option N) (r : loaded N) (m' : mesh N).
  Hypothesis S : sound r.
  Hypothesis E : convert cbrt dbl_max scale layer r = Ok m'.
  Definition extra : list (string * list Z) := match layer with None => [] | Some th => boundary_sets dbl_max th (lo_points r) end.
  Notation made := (made_of cbrt (lo_ids r) (lo_points r)).
  Notation blocks := (by_name (lo_blocks r)).

  Lemma convert_inv : me_coord m' = map (fun p => vscale scale (mp_x p)) (lo_points r) /\ me_elem_map m' = map (fun g => (g + 1)%Z) (concat (map snd blocks)) /\ me_aux m' = [] /\
    Forall2 made blocks (me_blocks m') /\
    Forall2 (fun e s => ms_name s = fst e /\ ms_nodes s = map (fun g => (g + 1)%Z) (snd e) /\ String.length (fst e) <= 32) (by_name (lo_sets r) ++ extra) (me_sets m') /\
    NoDup (map mb_id (me_blocks m')) /\ me_blocks m' <> [].
  Proof.
    unfold convert in E. fold extra in E. destruct (stored_sets _) as [sets| |] eqn:Es; try discriminate. cbn [bind] in E.
    destruct (mapO _ blocks) as [bs| |] eqn:Eb; try discriminate. cbn [bind] in E. destruct (distinct (map mb_id bs)) eqn:D; [|discriminate]. cbn [negb] in E.
    destruct (Nat.ltb_spec (length blocks) 1); [discriminate|]. injection E as <-. cbn.
    assert (F : Forall2 made blocks bs). { apply mapO_inv in Eb. clear - Eb. induction Eb; constructor; auto. now apply block_inv. }
    split; [reflexivity|]. split; [reflexivity|]. split; [reflexivity|]. split; [exact F|]. split; [now apply stored_spec|]. split; [now apply distinct_spec|].
    intros ->. inversion F as [Q|]. rewrite <- Q in H. cbn in H. lia.
  Qed.

  Definition ids' : list Z := concat (map snd blocks).
  Lemma ids_perm : Permutation ids' (lo_ids r).
  Proof. destruct S as (_ & _ & _ & _ & C & _). rewrite <- C. apply perm_concat, by_name_perm. Qed.
  Lemma zero_one l : zero_based (map (fun g => (g + 1)%Z) l) = l.
  Proof. unfold zero_based. rewrite map_map. rewrite <- (map_id l) at 2. apply map_ext. intros; lia. Qed.
  Lemma numbers' : zero_based (numbers m') = ids'.
  Proof. destruct convert_inv as (_ & A & B & _). unfold numbers. rewrite B, A. apply zero_one. Qed.

  Definition sets_in : Prop := forall n l g, In (n, l) (by_name (lo_sets r) ++ extra) -> In g l -> (0 <= g < Z.of_nat (length (lo_ids r)))%Z.

  Lemma converted_parts : NoDup (numbers m') /\ length (numbers m') = elements_in (me_blocks m') /\ Forall (block_wf m') (me_blocks m').
  Proof.
    destruct convert_inv as (A & B & C & F & G & _). pose proof S as (S1 & S2 & _).
    split; [|split].
    - unfold numbers. rewrite C, B. apply FinFun.Injective_map_NoDup; [intros x y H; lia|]. eapply Permutation_NoDup; [symmetry; exact ids_perm|exact S1].
    - unfold numbers. rewrite C, B, map_length. symmetry. exact (elements_count _ _ _ _ _ F).
    - clear G B C. rewrite Forall_forall. intros b Hb. destruct (Forall2_in_r _ _ _ F _ Hb) as (e & _ & M). destruct M as (_ & _ & _ & Ty & Co & Np & Na & l & Fl & Cn & At).
      destruct (attr_length _ _ _ _ _ Fl) as (L1 & L2 & L3). unfold block_wf. rewrite Np, Cn, Co, Na, At. split; [exact L1|]. split.
      + rewrite Forall_forall in *. intros c Hc. unfold in_file. rewrite A, map_length. now apply L3.
      + intros t O. unfold of_type in O. rewrite Ty in O. assert (t = Sphere) by (destruct t; [reflexivity| |]; cbn in O; exfalso; repeat (destruct O as [O|O]; [discriminate|]); exact O). subst t. cbn. split; [lia|]. intros _. split; [lia|exact L2].
  Qed.
  Lemma converted_wf : sets_in -> mesh_wf m'.
  Proof.
    intros I. destruct convert_inv as (A & B & C & F & G & _). pose proof S as (S1 & S2 & _). destruct converted_parts as (W1 & W2 & W3).
    split; [exact W1|split; [exact W2|split; [exact W3|]]].
    rewrite Forall_forall. intros s Hs. destruct (Forall2_in_r _ _ _ G _ Hs) as ((n & l) & He & _ & Q & _). rewrite Forall_forall. intros c Hc. rewrite Q in Hc. apply in_map_iff in Hc as (g & <- & Hg). cbn [snd] in *.
    specialize (I n l g He Hg). unfold in_file. rewrite A, map_length, S2. lia.
  Qed.

  (** The elements of the new file *)
  Lemma element' e b i : is_element m' e b i -> exists n l g k p, In (n, l) blocks /\ made (n, l) b /\ nth_error l i = Some g /\ nth_error ids' e = Some g /\
    nth_error (lo_ids r) k = Some g /\ nth_error (lo_points r) k = Some p /\ corner m' b i 0 (vscale scale (mp_x p)) /\ has_node b i 0 (Z.of_nat k + 1) /\ nth_error (mb_attr b) (i * mb_nattr b + 1) = Some (mp_volume p).
  Proof.
    intros (l1 & l2 & B & I & ->). destruct convert_inv as (A & _ & _ & F & _). destruct (element_at _ _ _ _ _ F l1 b l2 i B I) as ((n & l) & X & M & Y).
    pose proof M as (_ & _ & _ & _ & Co & Np & Na & q & Fq & Cn & At). cbn [snd] in *.
    destruct (nth_error l i) as [g|] eqn:Eg; [|apply nth_error_None in Eg; lia].
    destruct (attr_nth _ _ _ _ _ Fq i g Eg) as (k & p & K1 & K2 & K3 & K4).
    exists n, l, g, k, p. split; [exact (nth_error_In _ _ X)|]. split; [exact M|]. split; [exact Eg|]. split; [exact Y|]. split; [exact K1|]. split; [exact K2|].
    assert (HN : has_node b i 0 (Z.of_nat k + 1)) by (split; [lia|]; rewrite Cn, Np; exact K3).
    split; [|split; [exact HN|rewrite Na, At; exact K4]]. exists (Z.of_nat k + 1)%Z. split; [exact HN|]. split; [lia|]. replace (Z.to_nat (Z.of_nat k + 1 - 1)) with k by lia.
    rewrite A. now rewrite nth_error_map, K2.
  Qed.
  Lemma element_of_id e g : nth_error ids' e = Some g -> exists b i, is_element m' e b i.
  Proof.
    intros H. destruct convert_inv as (_ & _ & _ & F & _). destruct (element_ex _ _ _ _ _ F e) as (l1 & b & l2 & i & A & B & C); [apply nth_error_Some; unfold ids' in H; congruence|].
    exists b, i, l1, l2. auto.
  Qed.
End Whole.
