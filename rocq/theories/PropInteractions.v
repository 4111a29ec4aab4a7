(** * C31: one contact model for every pair of blocks *)
From Coq Require Import ZArith String Lia Sorting.Sorted.
From Verif Require Import Base ModelInput ModelInteractions SpecInteractions ProofData ProofInteractions.
Local Open Scope string_scope.

(** For every input with well formed block names that defines at least one interaction, the
    list is built; it has at most one entry for each ordered pair of block ids, an entry for
    each pair the input defines a model for, and the model of the entry is the last, in the
    order of strings, of the models the input defines for this ordered pair.  What is missing
    is in the refutations below: the pair is ordered, and the order of definition and the
    specificity of an entry play no role. *)
Theorem C31_list_partial : forall inp names,
  names_ok inp names -> (exists a b m, defines inp names a b m) ->
  exists l, createContactInteractionsList inp names = Ok l /\
    NoDup (map fst l) /\
    (forall a b, (exists m, defines inp names a b m) <-> In (a, b) (map fst l)) /\
    (forall a b m, In (a, b, m) l <->
       defines inp names a b m /\ forall m', defines inp names a b m' -> m' = m \/ precedes m' m).
Proof.
  intros inp names O (a0 & b0 & m0 & D0). destruct (set_total inp names O) as (s0 & s & G & N). pose proof (all_in inp names s0 s G N) as (S & K).
  unfold createContactInteractionsList. rewrite G. cbn [bind]. rewrite N. cbn [bind]. exists (last_of_pair s).
  assert (E : match s with [] => UB | _ :: _ => Ok (last_of_pair s) end = Ok (last_of_pair s)) by (destruct s; [exfalso; apply (K a0 b0 m0), D0|reflexivity]).
  split; [exact E|]. split; [exact (last_unique s S)|]. destruct (last_in s S) as (L & _).
  assert (C : forall a b m, In (a, b, m) (last_of_pair s) <-> defines inp names a b m /\ forall m', defines inp names a b m' -> m' = m \/ precedes m' m).
  { intros a b m. rewrite L. cbn [fst snd]. rewrite K. split; intros (A & B); (split; [exact A|]); intros m' H; apply B; apply K; exact H. }
  split; [|exact C]. intros a b. split.
  - intros (m & D). destruct (greatest_in s S (a, b) m) as (m' & I); [apply K, D|]. apply in_map_iff. exists (a, b, m'). auto.
  - intros I. apply in_map_iff in I as ([x m] & E' & I). cbn in E'. subst x. exists m. now apply C in I.
Qed.
Print Assumptions C31_list_partial.

(** The full statement for inputs whose own entries name the block with the smaller id first
    and in which all definitions for a pair agree: every unordered pair of blocks has at most
    one entry, and it is the model defined for it. *)
Theorem C31_unordered : forall inp names l,
  names_ok inp names ->
  (forall f g m a b, In (f, g, m) (named_contacts inp) -> block_id f = Ok a -> block_id g = Ok b -> (a <= b)%Z) ->
  createContactInteractionsList inp names = Ok l ->
  (forall a b m c d m', In (a, b, m) l -> In (c, d, m') l -> a = c /\ b = d \/ a = d /\ b = c -> a = c /\ b = d /\ m = m') /\
  ((forall a b m m', defines inp names a b m -> defines inp names a b m' -> m = m') ->
   forall a b m, In (a, b, m) l <-> defines inp names a b m).
Proof.
  intros inp names l O A E.
  assert (X : exists a b m, defines inp names a b m).
  { destruct (set_total inp names O) as (s0 & s & G & N). pose proof (all_in inp names s0 s G N) as (S & K).
    unfold createContactInteractionsList in E. rewrite G in E. cbn [bind] in E. rewrite N in E. cbn [bind] in E.
    destruct s as [|[[a b] m] s]; [discriminate|]. exists a, b, m. apply K. now left. }
  destruct (C31_list_partial inp names O X) as (l' & E' & ND & P & C). rewrite E in E'. injection E' as <-.
  assert (LE : forall a b m, defines inp names a b m -> (a <= b)%Z) by (intros a b m []; [lia|lia|eapply A; eauto]).
  split.
  - intros a b m c d m' I J [(-> & ->)|(-> & ->)].
    + split; [reflexivity|]. split; [reflexivity|]. apply C in I as (I & KI). apply C in J as (J & KJ).
      destruct (KI m' J) as [->|Q]; [reflexivity|]. destruct (KJ m I) as [->|Q']; [reflexivity|]. exfalso. exact (precedes_irrefl m (precedes_trans _ _ _ Q' Q)).
    + apply C in I as (I & KI). apply C in J as (J & KJ). pose proof (LE _ _ _ I). pose proof (LE _ _ _ J). assert (c = d) by lia. subst d.
      split; [reflexivity|]. split; [reflexivity|]. destruct (KI m' J) as [->|Q]; [reflexivity|]. destruct (KJ m I) as [->|Q']; [reflexivity|]. exfalso. exact (precedes_irrefl m (precedes_trans _ _ _ Q' Q)).
  - intros U a b m. rewrite C. split; [tauto|]. intros D. split; [exact D|]. intros m' D'. left. exact (U _ _ _ _ D' D).
Qed.
Print Assumptions C31_unordered.

(** The model defined last does not win: of two models defined for the same pair by two
    entries, the one later in the order of strings is kept whichever comes first. *)
Theorem C31_last_definition_refuted : forall f g a b m m' names,
  block_id f = Ok a -> block_id g = Ok b -> precedes m m' ->
  (forall n, In n names -> exists c, block_id n = Ok c) ->
  let input cs := {| general_contact := None; self_contact := None; named_contacts := cs |} in
  createContactInteractionsList (input [(f, g, m); (f, g, m')]) names = Ok [(a, b, m')] /\
  createContactInteractionsList (input [(f, g, m'); (f, g, m)]) names = Ok [(a, b, m')].
Proof.
  intros f g a b m m' names Ha Hb P _ input. unfold createContactInteractionsList, general_contacts, input. cbn [general_contact self_contact named_contacts bind foldM].
  unfold add_named. rewrite Ha. cbn [bind]. rewrite Hb. cbn [bind set_insert].
  assert (L : cmp_interaction (a, b, m) (a, b, m') = Lt) by (apply before_spec; right; split; [reflexivity|]; right; auto).
  assert (G : cmp_interaction (a, b, m') (a, b, m) = Gt) by (rewrite cmp_anti, L; reflexivity).
  rewrite L, G. cbn [bind last_of_pair fst snd]. rewrite !Z.eqb_refl. cbn. auto.
Qed.
Print Assumptions C31_last_definition_refuted.

(** Nor does the more specific one: general contact [m'] overrides an entry of its own [m]
    whenever [m'] is later in the order of strings. *)
Theorem C31_specific_definition_refuted : forall f g a b m m' k names,
  nth_error names 0 = Some f -> nth_error names (S k) = Some g -> block_id f = Ok a -> block_id g = Ok b -> (a <= b)%Z -> precedes m m' ->
  (forall n, In n names -> exists c, block_id n = Ok c) ->
  exists l, createContactInteractionsList {| general_contact := Some m'; self_contact := None; named_contacts := [(f, g, m)] |} names = Ok l /\
    In (a, b, m') l /\ ~ In (a, b, m) l.
Proof.
  intros f g a b m m' k names Hf Hg Ha Hb Le P O. set (inp := Build_interactions _ _ _).
  assert (NO : names_ok inp names).
  { split; [exact O|]. cbn. intros f' g' m0 [E|[]]. injection E as <- <- <-. eauto. }
  assert (D' : defines inp names a b m').
  { replace a with (Z.min a b) by lia. replace b with (Z.max a b) at 2 by lia. eapply (general_defines inp names m' 0 (S k)); eauto. }
  assert (D : defines inp names a b m) by (eapply named_defines; eauto; now left).
  destruct (C31_list_partial inp names NO) as (l & E & _ & _ & C); [eauto|]. exists l. split; [exact E|].
  assert (NI : ~ In (a, b, m) l).
  { intros I. apply C in I as (_ & K). destruct (K m' D') as [->|Q]; [exact (precedes_irrefl m P)|exact (precedes_irrefl m (precedes_trans _ _ _ P Q))]. }
  split; [|exact NI]. apply C. split; [exact D'|]. intros m0 D0. inversion D0; subst; cbn in *; try discriminate.
  - injection H as ->. auto.
  - destruct H as [H|[]]. injection H as <- <- <-. auto.
Qed.
Print Assumptions C31_specific_definition_refuted.

(** An unordered pair can have two models: entries for (f, g) and (g, f) are both kept. *)
Theorem C31_pair_twice_refuted : forall f g a b m m' names,
  block_id f = Ok a -> block_id g = Ok b -> a <> b ->
  exists l, createContactInteractionsList {| general_contact := None; self_contact := None; named_contacts := [(f, g, m); (g, f, m')] |} names = Ok l /\
    In (a, b, m) l /\ In (b, a, m') l.
Proof.
  intros f g a b m m' names Ha Hb Ne. unfold createContactInteractionsList, general_contacts. cbn [general_contact self_contact named_contacts bind foldM].
  unfold add_named. rewrite Ha. cbn [bind]. rewrite Hb. cbn [bind set_insert cmp_interaction].
  destruct (Z.compare_spec b a) as [->|L|L]; [contradiction| |]; cbn [bind last_of_pair fst snd]; destruct (Z.eqb_spec a b), (Z.eqb_spec b a); try lia; cbn; (eexists; split; [reflexivity|]; cbn; auto).
Qed.
Print Assumptions C31_pair_twice_refuted.

(** Without any interaction the call is undefined; so it is for general contact in a model
    of one block. *)
Theorem C31_nothing_defined : forall inp names,
  names_ok inp names -> (createContactInteractionsList inp names = UB <-> forall a b m, ~ defines inp names a b m).
Proof.
  intros inp names O. split.
  - intros E a b m D. destruct (C31_list_partial inp names O) as (l & E' & _); [eauto|congruence].
  - intros H. destruct (set_total inp names O) as (s0 & s & G & N). pose proof (all_in inp names s0 s G N) as (S & K).
    unfold createContactInteractionsList. rewrite G. cbn [bind]. rewrite N. cbn [bind]. destruct s as [|[[a b] m] s]; [reflexivity|].
    exfalso. apply (H a b m), K. now left.
Qed.
Print Assumptions C31_nothing_defined.
Theorem C31_one_block_refuted : forall n a m, block_id n = Ok a ->
  createContactInteractionsList {| general_contact := Some m; self_contact := None; named_contacts := [] |} [n] = UB.
Proof.
  intros n a m H. apply C31_nothing_defined.
  - split; [intros n' [<-|[]]; eauto|intros f g m' []].
  - intros x y m' D. inversion D; subst; cbn in *; try discriminate; [|contradiction].
    destruct i as [|[|i]], j as [|[|j]]; cbn in *; try congruence; try discriminate.
Qed.
Print Assumptions C31_one_block_refuted.

(** The list is not used to choose the models: whenever it gives a pair another model than
    the first of the input, the blocks of the pair are evaluated with the first one. *)
Theorem C31_interactions_unused_refuted : forall inp names l a b m first rest block,
  createContactInteractionsList inp names = Ok l -> In (a, b, m) l -> m <> first -> block_id block = Ok a \/ block_id block = Ok b ->
  exists used, contact_model_of_block inp (map (fun m => (m, m)) (first :: rest)) block = Ok used /\ used <> m.
Proof. intros inp names l a b m first rest block _ _ Ne _. exists first. split; [reflexivity|congruence]. Qed.
Print Assumptions C31_interactions_unused_refuted.

(** A body of three blocks with general and self contact and an entry for one pair. *)
Definition three_blocks : interactions :=
  {| general_contact := Some "a general"; self_contact := Some "b self";
     named_contacts := [("block_1", "block_2", "c special"); ("block_3", "block_1", "c special")] |}.
Example C31_case :
  names_ok three_blocks ["block_2"; "block_1"; "block_3"] /\
  (exists a b m, defines three_blocks ["block_2"; "block_1"; "block_3"] a b m) /\
  createContactInteractionsList three_blocks ["block_2"; "block_1"; "block_3"] =
    Ok [(1, 1, "b self"); (1, 2, "c special"); (1, 3, "a general"); (2, 2, "b self"); (2, 3, "a general"); (3, 1, "c special"); (3, 3, "b self")]%Z.
Proof.
  split; [|split; [|vm_compute; reflexivity]].
  - split; cbn.
    + intros n [<-|[<-|[<-|[]]]]; eexists; vm_compute; reflexivity.
    + intros f g m [E|[E|[]]]; injection E as <- <- <-; split; eexists; vm_compute; reflexivity.
  - exists 1%Z, 2%Z, "c special". eapply named_defines; [now left|vm_compute; reflexivity|vm_compute; reflexivity].
Qed.
