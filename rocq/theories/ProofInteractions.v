(** * Proofs about the list of contact interactions *)
From Coq Require Import ZArith String OrderedTypeEx Sorting.Sorted Lia.
From Verif Require Import Base ModelInput ModelInteractions SpecInteractions ProofData ProofGlobal.

Definition before (s t : interaction) : Prop := cmp_interaction s t = Lt.
Lemma cmp_eq s t : cmp_interaction s t = Eq <-> s = t.
Proof.
  destruct s as [[a b] m], t as [[a' b'] m']. unfold cmp_interaction. split.
  - destruct (Z.compare a a') eqn:A; try discriminate. destruct (Z.compare b b') eqn:B; try discriminate. intros M.
    apply Z.compare_eq in A, B. apply String_as_OT.cmp_eq in M. congruence.
  - intros E. injection E as -> -> ->. rewrite !Z.compare_refl. now apply String_as_OT.cmp_eq.
Qed.
Lemma cmp_anti s t : cmp_interaction s t = CompOpp (cmp_interaction t s).
Proof.
  destruct s as [[a b] m], t as [[a' b'] m']. unfold cmp_interaction. rewrite (Z.compare_antisym a a'), (Z.compare_antisym b b').
  destruct (Z.compare a a'); cbn; auto. destruct (Z.compare b b'); cbn; auto. apply String_as_OT.cmp_antisym.
Qed.
Lemma before_spec a b m a' b' m' : before (a, b, m) (a', b', m') <-> (a < a' \/ a = a' /\ (b < b' \/ b = b' /\ precedes m m'))%Z.
Proof.
  unfold before, cmp_interaction, precedes. destruct (Z.compare_spec a a') as [->|L|L].
  - destruct (Z.compare_spec b b') as [->|L'|L'].
    + split; [auto|]. intros [H|(_ & [H|(_ & H)])]; [lia|lia|exact H].
    + split; [auto|]. intros _. reflexivity.
    + split; [discriminate|]. intros [H|(_ & [H|(H & _)])]; lia.
  - split; auto.
  - split; [discriminate|]. intros [H|(H & _)]; lia.
Qed.
Lemma precedes_trans m1 m2 m3 : precedes m1 m2 -> precedes m2 m3 -> precedes m1 m3.
Proof. unfold precedes. intros A B. apply String_as_OT.cmp_lt. eapply String_as_OT.lt_trans; apply String_as_OT.cmp_lt; eassumption. Qed.
Lemma precedes_irrefl m : ~ precedes m m.
Proof. unfold precedes. intros H. change (String_as_OT.cmp m m = Lt) in H. rewrite (proj2 (String_as_OT.cmp_eq m m) eq_refl) in H. discriminate. Qed.
Lemma before_trans s t u : before s t -> before t u -> before s u.
Proof.
  destruct s as [[a b] m], t as [[a' b'] m'], u as [[a2 b2] m2]. rewrite !before_spec. intros H1 H2.
  destruct H1 as [H1|(-> & [H1|(-> & H1)])], H2 as [H2|(-> & [H2|(-> & H2)])]; try (left; lia); try (right; split; [reflexivity|left; lia]).
  right. split; [reflexivity|]. right. split; [reflexivity|]. eapply precedes_trans; eassumption.
Qed.

Lemma insert_in t l : forall u, In u (set_insert t l) <-> u = t \/ In u l.
Proof.
  induction l as [|v l IH]; intros u; cbn [set_insert]; [cbn; intuition|]. destruct (cmp_interaction t v) eqn:C.
  - apply cmp_eq in C. subst v. cbn. intuition.
  - cbn. intuition.
  - cbn [In]. rewrite IH. cbn. intuition.
Qed.
Lemma insert_sorted t l : StronglySorted before l -> StronglySorted before (set_insert t l).
Proof.
  induction 1 as [|v l S IH F]; cbn [set_insert]; [repeat constructor|]. destruct (cmp_interaction t v) eqn:C.
  - constructor; assumption.
  - constructor; [constructor; assumption|]. constructor; [exact C|]. eapply Forall_impl; [|exact F]. intros u H. eapply before_trans; [exact C|exact H].
  - constructor; [exact IH|]. apply Forall_forall. intros u H. apply insert_in in H as [->|H].
    + unfold before. rewrite cmp_anti, C. reflexivity.
    + rewrite Forall_forall in F. auto.
Qed.

(** ** what is in the set *)
Section Set_.
  Context (inp : interactions) (names : list string).
  Lemma pair_in i j s s' : StronglySorted before s -> pair_contact inp names i j s = Ok s' ->
    StronglySorted before s' /\
    forall t, In t s' <-> In t s \/ exists ni nj a b, nth_error names i = Some ni /\ nth_error names j = Some nj /\ block_id ni = Ok a /\ block_id nj = Ok b /\
      (i = j /\ self_contact inp = Some (snd t) /\ t = (Z.min a b, Z.max a b, snd t) \/
       i <> j /\ general_contact inp = Some (snd t) /\ t = (Z.min a b, Z.max a b, snd t)).
  Proof.
    unfold pair_contact. intros S H. apply bind_Ok in H as [ni [Hi H]]. apply bind_Ok in H as [nj [Hj H]]. apply bind_Ok in H as [a [Ha H]]. apply bind_Ok in H as [b [Hb H]].
    apply at_ub_Ok in Hi, Hj.
    assert (E : (if Z.ltb b a then (b, a) else (a, b)) = (Z.min a b, Z.max a b)) by (destruct (Z.ltb_spec b a); f_equal; lia). rewrite E in H. clear E.
    set (x := Z.min a b) in *. set (y := Z.max a b) in *. injection H as <-. split.
    - destruct (self_contact inp), (general_contact inp), (Nat.eqb i j); cbn [negb]; repeat apply insert_sorted; assumption.
    - intros t. split.
      + intros I.
        assert (Q : In t s \/ (i = j /\ exists m, self_contact inp = Some m /\ t = (x, y, m)) \/ (i <> j /\ exists m, general_contact inp = Some m /\ t = (x, y, m))).
        { destruct (self_contact inp) as [m1|], (general_contact inp) as [m2|], (Nat.eqb_spec i j) as [D|D]; cbn [negb] in I; rewrite ?insert_in in I; repeat match type of I with _ \/ _ => destruct I as [I|I] end; eauto 10; auto. }
        destruct Q as [Q|[(D & m & M & ->)|(D & m & M & ->)]]; [auto|right; exists ni, nj, a, b; repeat (split; [assumption|]); cbn; left; auto|right; exists ni, nj, a, b; repeat (split; [assumption|]); cbn; right; auto].
      + intros [I|(ni' & nj' & a' & b' & Hi' & Hj' & Ha' & Hb' & K)].
        * destruct (self_contact inp), (general_contact inp), (Nat.eqb i j); cbn [negb]; rewrite ?insert_in; auto.
        * rewrite Hi in Hi'. injection Hi' as <-. rewrite Hj in Hj'. injection Hj' as <-. rewrite Ha in Ha'. injection Ha' as <-. rewrite Hb in Hb'. injection Hb' as <-.
          fold x y in K. destruct K as [(D & M & K)|(D & M & K)]; rewrite M.
          -- subst j. rewrite Nat.eqb_refl. cbn [negb]. destruct (general_contact inp); rewrite insert_in; auto.
          -- apply Nat.eqb_neq in D. rewrite D. cbn [negb]. destruct (self_contact inp); rewrite insert_in; auto.
  Qed.
  Definition from_pair (i j : nat) (t : interaction) : Prop :=
    exists ni nj a b, nth_error names i = Some ni /\ nth_error names j = Some nj /\ block_id ni = Ok a /\ block_id nj = Ok b /\
      (i = j /\ self_contact inp = Some (snd t) /\ t = (Z.min a b, Z.max a b, snd t) \/
       i <> j /\ general_contact inp = Some (snd t) /\ t = (Z.min a b, Z.max a b, snd t)).
  Lemma row_in i : forall js s s', StronglySorted before s -> foldM (fun s j => pair_contact inp names i j s) s js = Ok s' ->
    StronglySorted before s' /\ forall t, In t s' <-> In t s \/ exists j, In j js /\ from_pair i j t.
  Proof.
    induction js as [|j js IH]; intros s s' S H; cbn [foldM] in H.
    - injection H as <-. split; [assumption|]. intros t. split; [auto|]. intros [I|(j & [] & _)]. exact I.
    - apply bind_Ok in H as [s1 [H1 H]]. apply pair_in in H1 as (S1 & K1); [|exact S]. apply IH in H as (S2 & K2); [|exact S1]. split; [exact S2|].
      intros t. rewrite K2, K1. split.
      + intros [[I|I]|(j' & I & F)]; [auto|right; exists j; split; [now left|exact I]|right; exists j'; split; [now right|exact F]].
      + intros [I|(j' & [->|I] & F)]; [auto|left; right; exact F|right; eauto].
  Qed.
  Lemma rows_in : forall is_ s s', StronglySorted before s ->
    foldM (fun s i => foldM (fun s j => pair_contact inp names i j s) s (seq 0 (length names))) s is_ = Ok s' ->
    StronglySorted before s' /\ forall t, In t s' <-> In t s \/ exists i j, In i is_ /\ In j (seq 0 (length names)) /\ from_pair i j t.
  Proof.
    induction is_ as [|i is_ IH]; intros s s' S H; cbn [foldM] in H.
    - injection H as <-. split; [assumption|]. intros t. split; [auto|]. intros [I|(i & j & [] & _)]. exact I.
    - apply bind_Ok in H as [s1 [H1 H]]. apply row_in in H1 as (S1 & K1); [|exact S]. apply IH in H as (S2 & K2); [|exact S1]. split; [exact S2|].
      intros t. rewrite K2, K1. split.
      + intros [[I|(j & J & F)]|(i' & j & I & J & F)]; [auto|right; exists i, j; split; [now left|auto]|right; exists i', j; split; [now right|auto]].
      + intros [I|(i' & j & [->|I] & J & F)]; [auto|left; right; eauto|right; eauto].
  Qed.
  Lemma general_in s : general_contacts inp names = Ok s -> StronglySorted before s /\
    forall t, In t s <-> exists i j, from_pair i j t.
  Proof.
    unfold general_contacts. intros H.
    assert (Q : (general_contact inp = None /\ self_contact inp = None /\ s = []) \/
      foldM (fun s i => foldM (fun s j => pair_contact inp names i j s) s (seq 0 (length names))) [] (seq 0 (length names)) = Ok s).
    { destruct (general_contact inp), (self_contact inp); auto. injection H as <-. auto. }
    clear H. destruct Q as [(G & C & ->)|H].
    - split; [constructor|]. intros t. split; [contradiction|]. intros (i & j & ni & nj & a & b & _ & _ & _ & _ & [(_ & E & _)|(_ & E & _)]); congruence.
    - apply rows_in in H as (S & K); [|constructor]. split; [exact S|]. intros t. rewrite K. split.
      + intros [[]|(i & j & _ & _ & F)]. eauto.
      + intros (i & j & F). right. exists i, j. pose proof F as (ni & nj & a & b & Hi & Hj & _).
        split; [apply in_seq; split; [lia|]; apply nth_error_Some; congruence|]. split; [apply in_seq; split; [lia|]; apply nth_error_Some; congruence|exact F].
  Qed.
  Lemma named_in : forall cs s s', StronglySorted before s -> foldM add_named s cs = Ok s' -> StronglySorted before s' /\
    forall t, In t s' <-> In t s \/ exists f g a b, In (f, g, snd t) cs /\ block_id f = Ok a /\ block_id g = Ok b /\ t = (a, b, snd t).
  Proof.
    induction cs as [|[[f g] m] cs IH]; intros s s' S H; cbn [foldM] in H.
    - injection H as <-. split; [assumption|]. intros t. split; [auto|]. intros [I|(f & g & a & b & [] & _)]. exact I.
    - apply bind_Ok in H as [s1 [H1 H]]. unfold add_named in H1. apply bind_Ok in H1 as [a [Ha H1]]. apply bind_Ok in H1 as [b [Hb H1]]. injection H1 as <-.
      apply IH in H as (S2 & K2); [|now apply insert_sorted]. split; [exact S2|]. intros t. rewrite K2, insert_in. split.
      + intros [[->|I]|(f' & g' & a' & b' & I & R)]; [right; exists f, g, a, b; split; [now left|auto]|auto|right; exists f', g', a', b'; split; [now right|exact R]].
      + intros [I|(f' & g' & a' & b' & [E|I] & Fa & Gb & T)]; [auto| |right; exists f', g', a', b'; auto].
        left. left. rewrite T. injection E as <- <- E'. rewrite Ha in Fa. injection Fa as <-. rewrite Hb in Gb. injection Gb as <-. cbn. congruence.
  Qed.
  Lemma all_in s0 s : general_contacts inp names = Ok s0 -> foldM add_named s0 (named_contacts inp) = Ok s -> StronglySorted before s /\
    forall a b m, In (a, b, m) s <-> defines inp names a b m.
  Proof.
    intros G H. apply general_in in G as (S0 & K0). apply named_in in H as (S & K); [|exact S0]. split; [exact S|]. intros a b m. rewrite K, K0. cbn [snd]. split.
    - intros [(i & j & ni & nj & x & y & Hi & Hj & Hx & Hy & [(-> & C & T)|(D & C & T)])|(f & g & x & y & I & Hx & Hy & T)]; cbn [snd] in *; injection T as -> ->.
      + rewrite Hi in Hj. injection Hj as <-. rewrite Hx in Hy. injection Hy as <-. rewrite Z.min_id, Z.max_id. eapply self_defines; eauto. eapply nth_error_In; eauto.
      + eapply general_defines; eauto.
      + eapply named_defines; eauto.
    - intros D. inversion D as [m' n a' C I Ha|m' i j ni nj x y C Ne Hi Hj Hx Hy|f g m' x y I Hx Hy]; subst.
      + left. apply In_nth_error in I as (i & I). exists i, i, n, n, b, b. repeat (split; [assumption|]). left. cbn [snd]. rewrite Z.min_id, Z.max_id. auto.
      + left. exists i, j, ni, nj, x, y. repeat (split; [assumption|]). right. cbn. auto.
      + right. exists f, g, a, b. auto.
  Qed.

  (** ** success *)
  Lemma pair_total i j s : names_ok inp names -> (i < length names)%nat -> (j < length names)%nat -> exists s', pair_contact inp names i j s = Ok s'.
  Proof.
    intros (O & _) Hi Hj. unfold pair_contact. destruct (nth_error names i) as [ni|] eqn:Ei; [|apply nth_error_None in Ei; lia].
    destruct (nth_error names j) as [nj|] eqn:Ej; [|apply nth_error_None in Ej; lia]. unfold at_ub. rewrite Ei, Ej. cbn [bind].
    destruct (O ni) as (a & Ha); [eapply nth_error_In; eauto|]. destruct (O nj) as (b & Hb); [eapply nth_error_In; eauto|]. rewrite Ha, Hb. cbn [bind].
    destruct (if Z.ltb b a then (b, a) else (a, b)). eauto.
  Qed.
  Lemma foldM_total {A S} (f : S -> A -> outcome S) l : (forall s a, In a l -> exists s', f s a = Ok s') -> forall s, exists s', foldM f s l = Ok s'.
  Proof.
    intros H. induction l as [|a l IH]; intros s; cbn [foldM]; [eauto|]. destruct (H s a) as (s1 & E); [now left|]. rewrite E. cbn [bind]. apply IH. intros; apply H; now right.
  Qed.
  Lemma set_total : names_ok inp names -> exists s0 s, general_contacts inp names = Ok s0 /\ foldM add_named s0 (named_contacts inp) = Ok s.
  Proof.
    intros O.
    assert (G : exists s0, general_contacts inp names = Ok s0).
    { unfold general_contacts. destruct (foldM_total (fun s i => foldM (fun s j => pair_contact inp names i j s) s (seq 0 (length names))) (seq 0 (length names))) with (s := @nil interaction) as (s & E).
      - intros s i I. apply foldM_total. intros s1 j J. apply in_seq in I, J. apply pair_total; auto; lia.
      - rewrite E. destruct (general_contact inp), (self_contact inp); eauto. }
    destruct G as (s0 & G). exists s0. destruct (foldM_total add_named (named_contacts inp)) with (s := s0) as (s & E); [|eauto].
    intros s [[f g] m] I. destruct (proj2 O f g m I) as ((a & Ha) & b & Hb). unfold add_named. rewrite Ha. cbn [bind]. rewrite Hb. cbn [bind]. eauto.
  Qed.
End Set_.

(** ** the last of every pair *)
Lemma last_in l : StronglySorted before l -> (forall t, In t (last_of_pair l) <-> In t l /\ forall m, In (fst t, m) l -> m = snd t \/ precedes m (snd t)) /\
  StronglySorted before (last_of_pair l).
Proof.
  induction 1 as [|u l S IH F].
  - cbn. split; [|constructor]. intros t. tauto.
  - destruct IH as (IH & IHs). destruct u as [[a b] m].
    assert (LT : forall t, In t l -> before (a, b, m) t) by (now apply Forall_forall).
    cbn [last_of_pair]. destruct l as [|[[a' b'] m'] l']; [|set (l := (a', b', m') :: l') in *; cbn [fst snd]; destruct (Z.eqb_spec a a') as [Ea|Ea]; [destruct (Z.eqb_spec b b') as [Eb|Eb]|]; cbn [andb]].
    + cbn. split; [|repeat constructor]. intros t. split.
      * intros [<-|[]]. split; [auto|]. cbn. intros m' [E|[]]. injection E as ->. auto.
      * intros ([<-|[]] & _). auto.
    + split; [|exact IHs]. intros t. rewrite IH. subst a' b'.
      assert (P : precedes m m') by (pose proof (LT (a, b, m') (or_introl eq_refl)) as L; apply before_spec in L as [L|(_ & [L|(_ & L)])]; [lia|lia|exact L]).
      split.
      * intros (I & K). split; [now right|]. intros m0 [E|J]; [|auto]. destruct t as [[ta tb] tm]. cbn [fst snd] in *. injection E as <- <- <-.
        right. destruct (K m' (or_introl eq_refl)) as [<-|Q]; [exact P|eapply precedes_trans; eassumption].
      * intros ([<-|I] & K).
        -- exfalso. cbn [fst snd] in K. destruct (K m' (or_intror (or_introl eq_refl))) as [E|Q].
           ++ subst m'. exact (precedes_irrefl m P).
           ++ apply (precedes_irrefl m). eapply precedes_trans; eassumption.
        -- split; [exact I|]. intros m0 J. apply K. now right.
    + assert (NP : forall x m0, In (x, m0) l -> x <> (a, b)).
      { intros [xa xb] m0 J E. injection E as -> ->. apply Eb. subst a'.
        destruct J as [J|J]; [injection J as <- _; reflexivity|]. inversion S as [|? ? S' F']; subst. rewrite Forall_forall in F'. pose proof (F' _ J) as L1.
        pose proof (LT (a, b', m') (or_introl eq_refl)) as L2. apply before_spec in L1, L2. lia. }
      split.
      * intros t. cbn [In]. rewrite IH. split.
        -- intros [<-|(I & K)]; [split; [now left|]; cbn [fst snd]; intros m0 [E|J]; [injection E as ->; auto|exfalso; exact (NP _ _ J eq_refl)]|].
           split; [now right|]. intros m0 [E|J]; [|auto]. exfalso. apply (NP (fst t) (snd t)); [destruct t; exact I|]. injection E as E _. now symmetry.
        -- intros ([<-|I] & K); [auto|]. right. split; [exact I|]. intros m0 J. apply K. now right.
      * constructor; [exact IHs|]. apply Forall_forall. intros t J. apply IH in J as (J & _). auto.
    + assert (NP : forall x m0, In (x, m0) l -> x <> (a, b)).
      { intros [xa xb] m0 J E. injection E as -> ->. apply Ea.
        destruct J as [J|J]; [injection J as <- _ _; reflexivity|]. inversion S as [|? ? S' F']; subst. rewrite Forall_forall in F'. pose proof (F' _ J) as L1.
        pose proof (LT (a', b', m') (or_introl eq_refl)) as L2. apply before_spec in L1, L2. lia. }
      split.
      * intros t. cbn [In]. rewrite IH. split.
        -- intros [<-|(I & K)]; [split; [now left|]; cbn [fst snd]; intros m0 [E|J]; [injection E as ->; auto|exfalso; exact (NP _ _ J eq_refl)]|].
           split; [now right|]. intros m0 [E|J]; [|auto]. exfalso. apply (NP (fst t) (snd t)); [destruct t; exact I|]. injection E as E _. now symmetry.
        -- intros ([<-|I] & K); [auto|]. right. split; [exact I|]. intros m0 J. apply K. now right.
      * constructor; [exact IHs|]. apply Forall_forall. intros t J. apply IH in J as (J & _). auto.
Qed.

Lemma unique_pairs l : StronglySorted before l -> (forall x m m', In (x, m) l -> In (x, m') l -> m = m') -> NoDup (map fst l).
Proof.
  induction 1 as [|u l S IH F]; intros U; cbn; constructor.
  - intros I. apply in_map_iff in I as (v & E & I). rewrite Forall_forall in F. pose proof (F v I) as L. destruct u as [x m], v as [y m']. cbn in E. subst y.
    assert (m = m') as <- by (apply (U x); [now left|now right]). unfold before in L. rewrite (proj2 (cmp_eq _ _) eq_refl) in L. discriminate.
  - apply IH. intros x m m' I J. apply (U x); now right.
Qed.
Lemma last_unique l : StronglySorted before l -> NoDup (map fst (last_of_pair l)).
Proof.
  intros S. destruct (last_in l S) as (K & S'). apply unique_pairs; [exact S'|]. intros x m m' I J.
  apply K in I as (I & A). apply K in J as (J & B). cbn [fst snd] in *. destruct (A m' J) as [->|P]; [reflexivity|]. destruct (B m I) as [->|Q]; [reflexivity|].
  exfalso. apply (precedes_irrefl m). eapply precedes_trans; eassumption.
Qed.
Lemma last_nil l : last_of_pair l = [] -> l = [].
Proof.
  induction l as [|u l IH]; [auto|]. cbn [last_of_pair]. destruct l as [|v l]; [discriminate|]. destruct (_ && _); [|discriminate]. intros H. apply IH in H. discriminate.
Qed.
Lemma greatest_in l : StronglySorted before l -> forall x m, In (x, m) l -> exists m', In (x, m') (last_of_pair l).
Proof.
  induction 1 as [|u l S IH F]; intros x m I; [destruct I|]. cbn [last_of_pair]. destruct l as [|v l]; [destruct I as [->|[]]; exists m; now left|].
  destruct (Z.eqb_spec (fst (fst u)) (fst (fst v))) as [A|A]; [destruct (Z.eqb_spec (snd (fst u)) (snd (fst v))) as [B|B]|]; cbn [andb].
  - destruct I as [->|I]; [|eauto]. cbn [fst] in A, B. destruct v as [y mv]. cbn in A, B. apply (IH x mv). left. f_equal. destruct x, y; cbn in *; congruence.
  - destruct I as [->|I]; [exists m; now left|]. destruct (IH x m I) as (m' & J). exists m'. now right.
  - destruct I as [->|I]; [exists m; now left|]. destruct (IH x m I) as (m' & J). exists m'. now right.
Qed.
