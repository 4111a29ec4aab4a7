From Coq Require Import String Ascii.
From Verif Require Import Base Num ModelScalar ModelInput SpecInput ProofData ProofScalar.
Local Open Scope string_scope.

Notation las := list_ascii_of_string.

Lemma las_app a b : las (a ++ b) = (las a ++ las b)%list.
Proof. induction a; cbn; [auto|]. now rewrite IHa. Qed.
Lemma app_nil_r_s a : a ++ "" = a.
Proof. induction a; cbn; congruence. Qed.
Lemma app_assoc_s a b c : a ++ (b ++ c) = (a ++ b) ++ c.
Proof. induction a; cbn; congruence. Qed.
Lemma length_app_s a b : String.length (a ++ b) = (String.length a + String.length b)%nat.
Proof. induction a; cbn; auto. Qed.

(** ** Words *)
Lemma words_from_solid cur s : (forall c, In c (las cur) -> is_space c = false) ->
  exists ws, words_from cur s = ws /\
    (cur = "" -> spelled s ws) /\ (cur <> "" -> exists w t c ws', ws = (cur ++ w) :: ws' /\
       (forall d, In d (las w) -> is_space d = false) /\
       ((s = w /\ ws' = [] /\ t = "" ) \/ (s = w ++ String c t /\ is_space c = true /\ spelled t ws'))).
Proof.
  revert cur. induction s as [|c r IH]; intros cur Hcur; cbn [words_from].
  - exists (match cur with EmptyString => [] | _ => [cur] end). split; [auto|]. split.
    + intros ->. constructor. intros d [].
    + intros Hne. destruct cur as [|a cur]; [easy|].
      exists "", "", " "%char, []. rewrite app_nil_r_s. split; auto. split; [intros d []|]. left. auto.
  - destruct (is_space c) eqn:Ec.
    + destruct (IH "") as (ws & E & H1 & _); [intros d []|]. specialize (H1 eq_refl).
      destruct cur as [|a cur].
      * exists ws. split; [auto|]. split; [|easy]. intros _.
        assert (W : forall d, In d (las (String c "")) -> is_space d = true) by (intros d [<-|[]]; auto).
        clear -H1 Ec. inversion H1; subst.
        -- constructor. intros d [<-|Hd]; auto.
        -- change (String c (s ++ w)) with ((String c s) ++ w). constructor; auto. intros d [<-|Hd]; auto.
        -- change (String c (s ++ w ++ String c0 t)) with ((String c s) ++ w ++ String c0 t). constructor; auto. intros d [<-|Hd]; auto.
      * exists (String a cur :: ws). split; [now rewrite E|]. split; [easy|]. intros _.
        exists "", r, c, ws. rewrite app_nil_r_s. split; auto. split; [intros d []|]. right. auto.
    + destruct (IH (cur ++ String c "")) as (ws & E & _ & H2).
      { intros d Hd. rewrite las_app in Hd. apply in_app_iff in Hd as [Hd|[<-|[]]]; auto. }
      exists ws. split; [auto|].
      assert (NE : cur ++ String c "" <> "") by (destruct cur; easy).
      specialize (H2 NE) as (w & t & c' & ws' & -> & Hw & Hcase).
      split.
      * intros ->. cbn [append].
        assert (SO : solid (String c w)).
        { split; [easy|]. intros d [<-|Hd]; auto. }
        destruct Hcase as [(-> & -> & _)|(-> & Hc' & Hsp)].
        -- change (String c w) with ("" ++ String c w). constructor; auto. intros d [].
        -- change (String c (w ++ String c' t)) with ("" ++ (String c w) ++ String c' t).
           constructor; auto. intros d [].
      * intros Hne. exists (String c w), t, c', ws'. split.
        -- f_equal. rewrite <- app_assoc_s. reflexivity.
        -- split; [intros d [<-|Hd]; auto|].
           destruct Hcase as [(-> & -> & ->)|(-> & Hc' & Hsp)]; [left|right]; auto.
Qed.
Lemma words_spelled s : spelled s (words s).
Proof.
  destruct (words_from_solid "" s) as (ws & E & H & _); [intros d []|].
  unfold words. rewrite E. auto.
Qed.
Lemma words_white s t : white s -> words (s ++ t) = words t.
Proof.
  unfold words. induction s as [|c s IH]; intros H; [reflexivity|].
  cbn [append words_from]. rewrite (H c) by (now left). apply IH. intros d Hd. apply H. now right.
Qed.
Lemma words_from_run w t : (forall c, In c (las w) -> is_space c = false) ->
  forall cur, words_from cur (w ++ t) = words_from (cur ++ w) t.
Proof.
  induction w as [|c w IH]; intros H cur; cbn [append]; [now rewrite app_nil_r_s|].
  cbn [words_from]. rewrite (H c) by (now left). rewrite IH.
  - f_equal. rewrite <- app_assoc_s. reflexivity.
  - intros d Hd. apply H. now right.
Qed.
Lemma spelled_words s ws : spelled s ws -> ws = words s.
Proof.
  induction 1.
  - rewrite <- (app_nil_r_s s). now rewrite words_white.
  - rewrite words_white by auto. destruct H0 as [Hn Hs]. unfold words.
    rewrite <- (app_nil_r_s w) at 2. rewrite words_from_run by auto. cbn [append words_from]. now destruct w.
  - rewrite words_white by auto. destruct H0 as [Hn Hs]. unfold words.
    rewrite words_from_run by auto. cbn [append words_from]. rewrite H1. destruct w; [easy|]. f_equal. exact IHspelled.
Qed.

(** ** Horizons *)
Section Horizon.
  Context {N : Num}.

  Definition canon (n : string) : string := if is_default n then "default" else n.
  Lemma is_default_spec n : is_default n = true <-> default_spelling n.
  Proof.
    unfold is_default, default_spelling. rewrite !orb_true_iff, !String.eqb_eq. tauto.
  Qed.
  Lemma canon_names n blk : names n blk <-> canon n = blk.
  Proof.
    unfold names, canon. destruct (is_default n) eqn:E.
    - apply is_default_spec in E. split; [intros [[_ ->]|[]]; tauto|intros <-; auto].
    - assert (~ default_spelling n) by (rewrite <- is_default_spec, E; easy). split; [intros [[]|[]]; tauto|intros <-; auto].
  Qed.

  (** The two maps as a fold over the definitions. *)
  Definition step (h : horizons) (d : hdef) : horizons := record_name (fst (snd d)) (snd (snd d)) h (fst d).
  Lemma fold_map_step c t l h : fold_left (record_name c t) l h = fold_left step (map (fun n => (n, (c, t))) l) h.
  Proof. revert h; induction l; intros h; cbn; auto. Qed.
  Lemma load_definitions show bs : forall h,
    load_horizons show h bs = match definitions (N:=N) show bs with
                              | Some ds => Ok (fold_left step ds h) | None => Err end.
  Proof.
    unfold load_horizons. induction bs as [|b t IH]; intros h; [reflexivity|].
    cbn [foldM definitions]. unfold load_one at 1.
    destruct (bp_horizon b) as [v|x|], (bp_names b) as [ns|]; cbn [bind];
      try (destruct (definitions show t); reflexivity).
    - rewrite IH, fold_map_step. destruct (definitions show t); [|reflexivity]. now rewrite fold_left_app.
    - rewrite IH, fold_map_step. destruct (definitions show t); [|reflexivity]. now rewrite fold_left_app.
  Qed.

  (** Looking up in the folded maps. *)
  Fixpoint last_def (ds : list hdef) (blk : string) : option (bool * string) :=
    match ds with
    | [] => None
    | (n, d) :: t => match last_def t blk with
                     | Some r => Some r
                     | None => if String.eqb (canon n) blk then Some d else None
                     end
    end.
  Lemma fold_find ds : forall h blk,
    sfind (hz_text (fold_left step ds h)) blk =
      match last_def ds blk with Some d => Some (snd d) | None => sfind (hz_text h) blk end /\
    sfind (hz_constant (fold_left step ds h)) blk =
      match last_def ds blk with Some d => Some (fst d) | None => sfind (hz_constant h) blk end.
  Proof.
    induction ds as [|[n d] t IH]; intros h blk; [auto|].
    cbn [fold_left last_def]. destruct (IH (step h (n, d)) blk) as [-> ->].
    destruct (last_def t blk); [auto|]. cbn. fold (canon n). destruct (String.eqb (canon n) blk); auto.
  Qed.
  Lemma last_def_none ds blk : last_def ds blk = None <-> none_for ds blk.
  Proof.
    induction ds as [|[n d] t IH]; cbn [last_def].
    - split; auto. intros _ n d [].
    - destruct (last_def t blk) eqn:E.
      + split; [discriminate|]. intros H. exfalso.
        assert (X : none_for t blk) by (intros n' d' Hi; apply (H n' d'); now right). apply IH in X. congruence.
      + destruct IH as [IH _]. specialize (IH eq_refl).
        destruct (String.eqb_spec (canon n) blk) as [Q|Q].
        * split; [discriminate|]. intros H. exfalso. apply (H n d); [now left|]. now apply canon_names.
        * split; auto. intros _ n' d' [E'|Hi]; [injection E' as <- <-; now rewrite canon_names|now apply (IH n' d')].
  Qed.
  Lemma last_def_some ds blk d : last_def ds blk = Some d <-> last_for ds blk d.
  Proof.
    induction ds as [|[n e] t IH]; cbn [last_def].
    - split; [discriminate|]. intros (b & m & a & E & _). destruct b; discriminate.
    - destruct (last_def t blk) as [r|] eqn:E.
      + split.
        * intros [= ->]. destruct (proj1 IH eq_refl) as (b & m & a & -> & H1 & H2).
          exists ((n, e) :: b), m, a. auto.
        * intros (b & m & a & E' & H1 & H2). destruct b as [|p b]; cbn [app] in E'; injection E'; intros; subst.
          -- exfalso. assert (X : none_for a blk) by exact H2. apply last_def_none in X. congruence.
          -- apply IH. exists b, m, a. auto.
      + apply last_def_none in E.
        destruct (String.eqb_spec (canon n) blk) as [Q|Q].
        * split.
          -- intros [= ->]. exists [], n, t. split; auto. split; [now apply canon_names|exact E].
          -- intros (b & m & a & E' & H1 & H2). destruct b as [|p b]; cbn [app] in E'; injection E'; intros; subst; auto.
             exfalso. apply (E m d); auto. apply in_app_iff. right. now left.
        * split; [discriminate|].
          intros (b & m & a & E' & H1 & H2). destruct b as [|p b]; cbn [app] in E'; injection E'; intros; subst.
          -- apply canon_names in H1. congruence.
          -- exfalso. apply (E m d); auto. apply in_app_iff. right. now left.
  Qed.

  Definition found (ds : list hdef) (blk : string) : option (bool * string) :=
    match last_def ds blk with Some d => Some d | None => last_def ds "default" end.
  Lemma found_spec ds blk d : found ds blk = Some d <-> in_force ds blk d.
  Proof.
    unfold found, in_force. rewrite <- !last_def_some, <- last_def_none.
    destruct (last_def ds blk); intuition congruence.
  Qed.
  Lemma found_none ds blk : found ds blk = None <-> none_for ds blk /\ none_for ds "default".
  Proof.
    unfold found. rewrite <- !last_def_none. destruct (last_def ds blk); intuition congruence.
  Qed.

  Definition body_of (t : string) : string := if contains "value" t then t else "value = " ++ t.

  Lemma lookup_all ds run blk (x : V3 N) :
    evaluate_horizon run (fold_left step ds hz_empty) blk x =
      match found ds blk with
      | Some d => match run (body_of (snd d)) x with Some v => Ok v | None => Err end
      | None => Err end /\
    has_constant (fold_left step ds hz_empty) blk =
      match found ds blk with Some d => Ok (fst d) | None => Err end /\
    constant_value run (fold_left step ds hz_empty) blk =
      match found ds blk with
      | Some d => match run (body_of (snd d)) vzero with Some v => Ok v | None => Err end
      | None => Err end.
  Proof.
    set (h := fold_left step ds hz_empty).
    assert (T : forall b, sfind (hz_text h) b = option_map snd (last_def ds b)).
    { intros b. unfold h. rewrite (proj1 (fold_find ds hz_empty b)). destruct (last_def ds b); reflexivity. }
    assert (C : forall b, sfind (hz_constant h) b = option_map fst (last_def ds b)).
    { intros b. unfold h. rewrite (proj2 (fold_find ds hz_empty b)). destruct (last_def ds b); reflexivity. }
    unfold evaluate_horizon, has_constant, constant_value, found, body_of.
    unfold evaluate_horizon.
    rewrite !T, !C.
    destruct (last_def ds blk) as [d|] eqn:E; cbn [option_map bind].
    - rewrite !T, E. cbn [option_map bind]. rewrite !T, E. cbn [option_map bind]. auto.
    - destruct (last_def ds "default") as [d|] eqn:E2; cbn [option_map bind]; auto.
      rewrite !T, E2. cbn [option_map bind]. rewrite !T, E2. cbn [option_map bind]. auto.
  Qed.
End Horizon.

(** ** Degrees of freedom *)
Definition slot_ok (d : dofs) (p : physics) : Prop :=
  (forall u c, valid_dof p u c -> dof_offset d u + c < n_total d) /\
  (forall u c u' c', valid_dof p u c -> valid_dof p u' c' ->
     dof_offset d u + c = dof_offset d u' + c' -> u = u' /\ c = c') /\
  (forall k, k < n_total d -> exists u c, valid_dof p u c /\ dof_offset d u + c = k).

Ltac slot := first
  [ exists UDisp, 0; cbn; split; [split; [reflexivity|lia]|lia]
  | exists UDisp, 1; cbn; split; [split; [reflexivity|lia]|lia]
  | exists UDisp, 2; cbn; split; [split; [reflexivity|lia]|lia]
  | exists UTemp, 0; cbn; split; [split; [reflexivity|lia]|lia]
  | exists UConc, 0; cbn; split; [split; [reflexivity|lia]|lia]
  | exists UPres, 0; cbn; split; [split; [reflexivity|lia]|lia] ].

Lemma slots_first p : slot_ok (dofs_initialize dofs_init p) p.
Proof.
  destruct p as [[] [] [] []]; unfold slot_ok, valid_dof; cbn.
  all: (split; [|split]).
  all: try (intros u c [Ha Hc]; destruct u; cbn in *; try discriminate; lia).
  all: try (intros u c u' c' [Ha Hc] [Ha' Hc'] E; destruct u, u'; cbn in *; try discriminate;
            first [split; [reflexivity|lia] | exfalso; lia]).
  all: intros k Hk; destruct k as [|[|[|[|[|[|k]]]]]]; try (exfalso; lia); slot.
Qed.

Lemma slots_bijective d p : slot_ok d p -> layout_bijective d p.
Proof.
  intros (H1 & H2 & H3) nn. unfold dof_row. split; [|split].
  - intros node u c Hn Hv. specialize (H1 _ _ Hv). nia.
  - intros node u c node' u' c' Hv Hv' E. pose proof (H1 _ _ Hv). pose proof (H1 _ _ Hv').
    assert (EN : node = node') by nia. subst node'.
    assert (E' : dof_offset d u + c = dof_offset d u' + c') by lia.
    destruct (H2 _ _ _ _ Hv Hv' E'). auto.
  - intros r Hr. assert (NZ : n_total d <> 0) by nia.
    destruct (H3 (r mod n_total d)) as (u & c & Hv & E); [now apply Nat.mod_upper_bound|].
    exists (r / n_total d), u, c. split; [now apply Nat.div_lt_upper_bound|]. split; [auto|].
    rewrite <- Nat.add_assoc, E. symmetry. now apply Nat.div_mod.
Qed.

Lemma layout_first p : layout_bijective (dofs_initialize dofs_init p) p.
Proof. apply slots_bijective, slots_first. Qed.

Lemma counts_first p u : dof_count (dofs_initialize dofs_init p) u = if active p u then components u else 0.
Proof. destruct p as [[] [] [] []], u; reflexivity. Qed.

(** Every later call: the total is the sum over all calls. *)
Lemma total_accumulates ps : forall d,
  n_total (fold_left dofs_initialize ps d) = n_total d + fold_right (fun p a => physics_size p + a) 0 ps.
Proof.
  induction ps as [|p ps IH]; intros d; cbn [fold_left fold_right]; [lia|].
  rewrite IH. destruct p as [[] [] [] []]; cbn; lia.
Qed.

(** ** Block names *)
Lemma mem_char_In c set : mem_char c set = true <-> In c (las set).
Proof.
  induction set as [|d r IH]; cbn; [easy|]. rewrite orb_true_iff, IH, Ascii.eqb_eq. tauto.
Qed.
Lemma mem_char_nIn c set : mem_char c set = false <-> ~ In c (las set).
Proof. rewrite <- mem_char_In. destruct (mem_char c set); intuition congruence. Qed.

Lemma first_of_lacks set s : lacks set s -> find_first_of set s = None.
Proof.
  induction s as [|c r IH]; intros H; [reflexivity|]. cbn [find_first_of].
  rewrite (proj2 (mem_char_nIn c set)) by (apply H; now left). rewrite IH; auto. intros d Hd. apply H. now right.
Qed.
Lemma last_of_lacks set s : lacks set s -> find_last_of set s = None.
Proof.
  induction s as [|c r IH]; intros H; [reflexivity|]. cbn [find_last_of].
  rewrite IH by (intros d Hd; apply H; now right).
  now rewrite (proj2 (mem_char_nIn c set)) by (apply H; now left).
Qed.
Lemma last_of_app set a c b : In c (las set) -> lacks set b ->
  find_last_of set (a ++ String c b) = Some (String.length a).
Proof.
  intros Hc Hb. induction a as [|d a IH]; cbn [append find_last_of String.length].
  - rewrite last_of_lacks by auto. now rewrite (proj2 (mem_char_In c set)).
  - now rewrite IH.
Qed.
Lemma substring_all s : substring 0 (String.length s) s = s.
Proof. induction s; cbn; congruence. Qed.
Lemma substring_skip a b n : substring (String.length a) n (a ++ b) = substring 0 n b.
Proof. induction a; cbn; auto. Qed.
Lemma substring_take a b : substring 0 (String.length a) (a ++ b) = a.
Proof. induction a; cbn; [now destruct b|]. now rewrite IHa. Qed.
Lemma substring_long s : forall n, (String.length s <= n)%nat -> substring 0 n s = s.
Proof. induction s; intros n H; destruct n; cbn in *; try lia; auto. rewrite IHs; auto. lia. Qed.

Lemma digit_range c d : digit c = Some d -> (0 <= d <= 9)%Z /\ (48 <= nat_of_ascii c <= 57)%nat.
Proof.
  unfold digit. destruct (Nat.leb 48 (nat_of_ascii c)) eqn:A, (Nat.leb (nat_of_ascii c) 57) eqn:B; cbn; try discriminate.
  apply Nat.leb_le in A, B. intros [= <-]. lia.
Qed.
Lemma digits_from_all s : (forall c, In c (las s) -> digit c <> None) -> forall acc,
  digits_from acc s = fold_left (fun acc c => (10 * acc + digit_value c)%Z) (las s) acc.
Proof.
  induction s as [|c r IH]; intros H acc; [reflexivity|]. cbn [digits_from list_ascii_of_string fold_left].
  unfold digit_value. destruct (digit c) eqn:E; [|now destruct (H c (or_introl eq_refl))].
  apply IH. intros d Hd. apply H. now right.
Qed.
Lemma fold_nonneg l : forall acc, (0 <= acc)%Z -> (0 <= fold_left (fun acc c => (10 * acc + digit_value c)%Z) l acc)%Z.
Proof.
  induction l as [|c l IH]; intros acc H; cbn [fold_left]; auto. apply IH.
  assert (0 <= digit_value c)%Z; [|lia]. unfold digit_value. destruct (digit c) eqn:E; [|lia]. apply digit_range in E. lia.
Qed.
Lemma extract_numeral old s : numeral s -> (value_of s <= int_max)%Z -> extract_int old s = value_of s.
Proof.
  intros [Hn Hd] Hm. destruct s as [|c r]; [easy|].
  assert (D : exists d, digit c = Some d).
  { destruct (digit c) eqn:E; [eauto|]. now destruct (Hd c (or_introl eq_refl)). }
  destruct D as (d & D). destruct (digit_range _ _ D) as [R1 R2].
  assert (NS : is_space c = false).
  { unfold is_space. destruct (Nat.eqb_spec (nat_of_ascii c) 32); [lia|].
    destruct (Nat.leb_spec 9 (nat_of_ascii c)), (Nat.leb_spec (nat_of_ascii c) 13); auto; lia. }
  unfold extract_int. cbn [skip_space]. rewrite NS.
  destruct (Ascii.eqb_spec c "-") as [->|_]; [cbn in R2; lia|].
  destruct (Ascii.eqb_spec c "+") as [->|_]; [cbn in R2; lia|].
  assert (V : digits_from d r = value_of (String c r)).
  { rewrite digits_from_all by (intros x Hx; apply Hd; now right).
    unfold value_of. cbn [list_ascii_of_string fold_left]. replace (10 * 0 + digit_value c)%Z with d; [reflexivity|]. unfold digit_value. rewrite D. lia. }
  unfold read_digits. rewrite D, V. unfold clamp.
  assert (0 <= value_of (String c r))%Z by (apply fold_nonneg; lia).
  destruct (Z.ltb_spec (value_of (String c r)) int_min); [unfold int_min in *; lia|].
  destruct (Z.ltb_spec int_max (value_of (String c r))); [lia|reflexivity].
Qed.

Lemma numeral_lacks chars s : (forall c, In c (las chars) -> digit c = None) -> numeral s -> lacks chars s.
Proof. intros H [_ Hd] c Hc Hi. apply (Hd c Hc). now apply H. Qed.
Ltac nodig := let c := fresh in let K := fresh in
  intros c K; cbn in K; repeat (destruct K as [<-|K]; [reflexivity|]); destruct K.

Lemma cubit_name prefix n : lacks "GRAIN" prefix -> numeral n -> (value_of n <= int_max)%Z ->
  block_id (prefix ++ "_" ++ n) = Ok (value_of n).
Proof.
  intros Hp Hn Hv. unfold block_id.
  assert (L : lacks "GRAIN" (prefix ++ "_" ++ n)).
  { intros c Hc. rewrite las_app in Hc. apply in_app_iff in Hc as [Hc|Hc]; [now apply Hp|].
    cbn in Hc. destruct Hc as [<-|Hc]; [cbn; intuition discriminate|].
    apply (numeral_lacks "GRAIN" n); auto. nodig. }
  rewrite (first_of_lacks _ _ L).
  assert (U : find_last_of "_" (prefix ++ "_" ++ n) = Some (String.length prefix)).
  { apply last_of_app; [now left|]. apply numeral_lacks; auto. nodig. }
  rewrite U. unfold substr.
  rewrite !length_app_s. cbn [String.length].
  destruct (Nat.ltb_spec (String.length prefix + (1 + String.length n)) (String.length prefix + 1)) as [?|?]; [lia|].
  rewrite (proj2 (Z.leb_le _ _)) by lia. cbn [bind].
  replace (prefix ++ "_" ++ n) with ((prefix ++ "_") ++ n) by (now rewrite <- app_assoc_s).
  replace (String.length prefix + 1) with (String.length (prefix ++ "_")) by (rewrite length_app_s; reflexivity).
  rewrite substring_skip, substring_long by lia.
  now rewrite extract_numeral.
Qed.

Lemma dream3d_name n : numeral n -> (value_of n <= int_max)%Z -> (Z.of_nat (String.length n) < 2 ^ 63)%Z ->
  block_id ("GRAIN" ++ n ++ "_SET") = Ok (value_of n).
Proof.
  intros Hn Hv Hl. unfold block_id.
  replace (find_first_of "GRAIN" ("GRAIN" ++ n ++ "_SET")) with (Some 0) by reflexivity.
  assert (U : find_last_of "_SET" ("GRAIN" ++ n ++ "_SET") = Some (String.length n + 8)).
  { replace ("GRAIN" ++ n ++ "_SET") with (("GRAIN" ++ n ++ "_SE") ++ "T").
    - rewrite last_of_app; [|cbn; auto|intros c []]. rewrite !length_app_s. cbn [String.length]. f_equal. lia.
    - rewrite <- !app_assoc_s. reflexivity. }
  rewrite U.
  assert (SZ : size_t (Z.of_nat (String.length n + 8) - 4 - Z.of_nat 0 - 5 + 1) = Z.of_nat (String.length n)).
  { unfold size_t. rewrite Z.mod_small; lia. }
  rewrite SZ. unfold substr. rewrite !length_app_s. cbn [String.length].
  destruct (Nat.ltb_spec (5 + (String.length n + 4)) (0 + 5)) as [?|?]; [lia|].
  destruct (Z.leb_spec (Z.of_nat (5 + (String.length n + 4))) (Z.of_nat (String.length n))); [lia|].
  cbn [bind]. rewrite Nat2Z.id.
  change (0 + 5) with (String.length "GRAIN"). rewrite substring_skip, substring_take.
  now rewrite extract_numeral.
Qed.

(** ** Keywords *)
Lemma all_blank_spec s : all_blank s = true <-> blanks s.
Proof.
  induction s as [|c r IH]; cbn [all_blank]; [split; auto; intros _ c []|].
  rewrite andb_true_iff, IH, Ascii.eqb_eq. split.
  - intros [-> H] d [<-|Hd]; auto.
  - intros H. split; [apply H; now left|intros d Hd; apply H; now right].
Qed.
Lemma to_upper_app a b : to_upper (a ++ b) = to_upper a ++ to_upper b.
Proof. induction a; cbn; congruence. Qed.
Lemma upper_blank c : upper_char c = " "%char <-> c = " "%char.
Proof.
  split; [|intros ->; reflexivity]. unfold upper_char.
  destruct (Nat.leb 97 (nat_of_ascii c) && Nat.leb (nat_of_ascii c) 122)%bool eqn:E; auto.
  apply andb_true_iff in E as [A B]. apply Nat.leb_le in A, B. intros H.
  apply (f_equal nat_of_ascii) in H. rewrite nat_ascii_embedding in H by lia. cbn in H. lia.
Qed.
Lemma to_upper_blanks s : blanks s -> to_upper s = s.
Proof.
  induction s as [|c r IH]; intros H; [reflexivity|]. cbn. rewrite (H c) by (now left).
  rewrite IH; [reflexivity|intros d Hd; apply H; now right].
Qed.
Lemma blanks_to_upper s : blanks (to_upper s) -> blanks s.
Proof.
  induction s as [|c r IH]; intros H d Hd; [destruct Hd|]. cbn in *. destruct Hd as [<-|Hd].
  - apply upper_blank. apply H. now left.
  - apply IH; auto. intros e He. apply H. now right.
Qed.

Lemma drop_blanks_app l s : blanks l -> drop_blanks (l ++ s) = drop_blanks s.
Proof.
  induction l as [|c l IH]; intros H; [reflexivity|]. cbn. rewrite (H c) by (now left). cbn. apply IH.
  intros d Hd. apply H. now right.
Qed.
Lemma blanks_app a b : blanks (a ++ b) <-> blanks a /\ blanks b.
Proof.
  unfold blanks. rewrite las_app. setoid_rewrite in_app_iff. firstorder.
Qed.
(** the decomposition done by [trim] *)
Lemma drop_blanks_dec s : exists l, s = l ++ drop_blanks s /\ blanks l /\
  (match drop_blanks s with EmptyString => True | String c _ => c <> " "%char end).
Proof.
  induction s as [|c r IH].
  - exists "". repeat split. intros c [].
  - cbn [drop_blanks]. destruct (Ascii.eqb_spec c " ") as [->|n].
    + destruct IH as (l & E & B & M). exists (String " " l). cbn [append]. rewrite <- E. repeat split; auto.
      intros d [<-|Hd]; auto.
    + exists "". repeat split; auto. intros d [].
Qed.
Lemma drop_trailing_dec s : exists r, s = drop_trailing s ++ r /\ blanks r.
Proof.
  induction s as [|c t IH].
  - exists "". split; auto. intros d [].
  - cbn [drop_trailing]. destruct (all_blank (String c t)) eqn:E.
    + exists (String c t). split; auto. now apply all_blank_spec.
    + destruct IH as (r & Er & B). exists r. cbn [append]. now rewrite <- Er.
Qed.
Lemma drop_trailing_keep core r : blanks r -> (forall a b, core = a ++ b -> b <> "" -> ~ blanks b) ->
  drop_trailing (core ++ r) = core.
Proof.
  intros B. induction core as [|c t IH]; intros H; cbn [append].
  - destruct r as [|c r]; [reflexivity|]. cbn [drop_trailing]. now rewrite (proj2 (all_blank_spec _)).
  - cbn [drop_trailing]. destruct (all_blank (String c (t ++ r))) eqn:E.
    + exfalso. apply all_blank_spec in E. apply (H "" (String c t)); auto; [easy|].
      change (String c (t ++ r)) with (String c t ++ r) in E. now apply blanks_app in E.
    + f_equal. apply IH. intros a b -> Hb. apply (H (String c a) b); auto.
Qed.

Lemma blanks_to_underscores_Forall2 s n :
  blanks_to_underscores (to_upper s) = n <-> Forall2 (fun a b => if Ascii.eqb (upper_char a) " " then b = "_"%char else b = upper_char a) (las s) (las n).
Proof.
  revert n; induction s as [|c r IH]; intros n; cbn.
  - split; [intros <-; constructor|]. intros F; inversion F; subst. destruct n; [reflexivity|discriminate].
  - split.
    + intros <-. cbn. constructor; [destruct (Ascii.eqb (upper_char c) " "); reflexivity|]. now apply IH.
    + intros F. destruct n as [|d n]; inversion F; subst. apply IH in H4. rewrite H4.
      destruct (Ascii.eqb (upper_char c) " "); subst; reflexivity.
Qed.

(** names of the tables: non-empty, upper case letters and underscores, neither beginning
    nor ending with an underscore *)
Definition good_name (n : string) : Prop :=
  (forall c, In c (las n) -> c <> " "%char) /\
  (exists c t, n = String c t /\ c <> "_"%char) /\
  (exists a c, n = a ++ String c "" /\ c <> "_"%char).

Lemma F2_app_inv_l {A B} (R : A -> B -> Prop) l1 l2 l : Forall2 R (l1 ++ l2)%list l ->
  exists a b, l = (a ++ b)%list /\ Forall2 R l1 a /\ Forall2 R l2 b.
Proof.
  revert l; induction l1 as [|x l1 IH]; intros l H; cbn in H.
  - exists [], l. auto.
  - inversion H; subst. destruct (IH _ H4) as (a & b & -> & Ha & Hb). exists (y :: a), b. cbn. auto.
Qed.

Lemma same_letter_spec n : (forall c, In c n -> c <> " "%char) -> forall s,
  Forall2 (fun a b => if Ascii.eqb (upper_char a) " " then b = "_"%char else b = upper_char a) s n <-> Forall2 same_letter s n.
Proof.
  induction n as [|b n IH]; intros H s.
  { split; intros F; inversion F; subst; constructor. }
  assert (IH' := IH (fun c Hc => H c (or_intror Hc))). clear IH.
  split; intros F; inversion F as [|x y l l' Hh Ht]; subst; constructor; try (apply IH'; exact Ht).
  - unfold same_letter. destruct (Ascii.eqb_spec (upper_char x) " ") as [E|E]; [right|left; auto].
    split; [now apply (proj1 (upper_blank x))|exact Hh].
  - unfold same_letter in Hh. destruct Hh as [<-|[-> ->]]; [|reflexivity].
    destruct (Ascii.eqb_spec (upper_char x) " ") as [E|E]; auto. exfalso. apply (H (upper_char x)); [now left|auto].
Qed.

Lemma tidy_spells s n : good_name n -> (tidy s = n <-> spells s n).
Proof.
  intros (G1 & (c0 & t0 & Gn & Gc) & (a1 & c1 & Gn1 & Gc1)). unfold tidy, trim. split.
  - intros E. destruct (all_blank (to_upper s)) eqn:B.
    { (* all blank: the text becomes underscores only *)
      exfalso. apply all_blank_spec in B.
      rewrite Gn in E. destruct (to_upper s) as [|c r]; [discriminate E|].
      rewrite (B c) in E by (now left). cbn in E. injection E as <- _. now apply Gc. }
    destruct (drop_blanks_dec (to_upper s)) as (l & El & Bl & _).
    destruct (drop_trailing_dec (drop_blanks (to_upper s))) as (r & Er & Br).
    set (core := drop_trailing (drop_blanks (to_upper s))) in *.
    assert (D : to_upper s = l ++ core ++ r) by (rewrite <- Er; exact El).
    (* split s accordingly *)
    assert (SP : forall s u v, to_upper s = u ++ v -> exists su sv, s = su ++ sv /\ to_upper su = u /\ to_upper sv = v).
    { clear. induction s as [|c s IH]; intros u v H; cbn in H.
      - destruct u; [|discriminate]. destruct v; [|discriminate]. exists "", "". auto.
      - destruct u as [|d u].
        + exists "", (String c s). cbn in *. auto.
        + injection H as H1 H2. destruct (IH _ _ H2) as (su & sv & -> & E1 & E2).
          exists (String c su), sv. cbn. now rewrite E1, H1. }
    destruct (SP _ _ _ D) as (sl & srest & -> & Esl & Erest).
    destruct (SP _ _ _ Erest) as (sc & sr & -> & Esc & Esr).
    exists sl, sc, sr. split; [reflexivity|].
    split; [apply blanks_to_upper; now rewrite Esl|]. split; [apply blanks_to_upper; now rewrite Esr|].
    apply same_letter_spec; [exact G1|]. apply blanks_to_underscores_Forall2. now rewrite Esc.
  - intros (l & core & r & -> & Bl & Br & F).
    assert (NB : forall a b, core = a ++ b -> b <> "" -> ~ blanks b).
    { intros a b -> Hb Bb. rewrite las_app in F. apply F2_app_inv_l in F as (na & nb & En & Fa & Fb).
      (* the last character of n is c1 and is the image of a blank *)
      assert (exists b' , las b = (b' ++ [" "%char])%list) as (b' & Eb).
      { destruct (las b) as [|x y] eqn:Q using rev_ind.
        - exfalso. apply Hb. destruct b; [auto|discriminate].
        - exists y. f_equal. f_equal. apply Bb. rewrite Q. apply in_app_iff. right. now left. }
      rewrite Eb in Fb. apply F2_app_inv_l in Fb as (m1 & m2 & -> & _ & F2). inversion F2; subst. inversion H3; subst.
      rewrite Gn1, las_app in En. cbn in En. rewrite app_assoc in En. apply app_inj_tail in En as [_ <-].
      destruct H1 as [H1|[_ H1]]; [|now apply Gc1].
      cbn in H1. rewrite <- H1 in *. apply (G1 " "%char); [rewrite Gn1, las_app; apply in_app_iff; right; now left|reflexivity]. }
    assert (CH : exists d w, core = String d w /\ d <> " "%char).
    { assert (G0 : c0 <> " "%char) by (apply G1; rewrite Gn; now left).
      rewrite Gn in F. cbn in F. destruct core as [|d w]; inversion F as [|x y l0 l1 Hh Ht]. exists d, w. split; auto.
      intros ->. destruct Hh as [Hh|[_ Hh]]; [|now apply Gc]. apply G0. rewrite <- Hh. reflexivity. }
    destruct CH as (d & w & Ed & Hd).
    rewrite !to_upper_app, (to_upper_blanks l), (to_upper_blanks r) by auto.
    assert (NA : all_blank (l ++ to_upper core ++ r) = false).
    { destruct (all_blank (l ++ to_upper core ++ r)) eqn:Q; auto. exfalso.
      apply all_blank_spec, blanks_app in Q as [_ Q]. apply blanks_app in Q as [Q _]. apply blanks_to_upper in Q.
      apply Hd. apply Q. rewrite Ed. now left. }
    rewrite NA, drop_blanks_app by auto.
    assert (DB : drop_blanks (to_upper core ++ r) = to_upper core ++ r).
    { rewrite Ed. cbn. destruct (Ascii.eqb_spec (upper_char d) " ") as [E|E]; auto. apply (proj1 (upper_blank d)) in E. contradiction. }
    rewrite DB, drop_trailing_keep; auto.
    + apply blanks_to_underscores_Forall2. now apply same_letter_spec.
    + intros a b Eab Hb Bb.
      assert (SP : forall s u v, to_upper s = u ++ v -> exists su sv, s = su ++ sv /\ to_upper su = u /\ to_upper sv = v).
      { clear. induction s as [|c s IH]; intros u v H; cbn in H.
        - destruct u; [|discriminate]. destruct v; [|discriminate]. exists "", "". auto.
        - destruct u as [|d u].
          + exists "", (String c s). cbn in *. auto.
          + injection H as H1 H2. destruct (IH _ _ H2) as (su & sv & -> & E1 & E2).
            exists (String c su), sv. cbn. now rewrite E1, H1. }
      destruct (SP _ _ _ Eab) as (sa & sb & Es & Ea & Eb).
      apply (NB sa sb Es); [intros ->; apply Hb; now rewrite <- Eb|]. apply blanks_to_upper. now rewrite Eb.
Qed.

Lemma tensor_good : Forall (fun p => good_name (snd p)) tensor_table.
Proof.
  repeat constructor; cbn; try (intros c H; repeat (destruct H as [<-|H]; [discriminate|]); destruct H).
  all: try (eexists _, _; split; [reflexivity|discriminate]).
  - exists "SCALA", "R"%char. split; [reflexivity|discriminate].
  - exists "VECTO", "R"%char. split; [reflexivity|discriminate].
  - exists "TENSO", "R"%char. split; [reflexivity|discriminate].
  - exists "NO_SUCH_TENSOR_ORDE", "R"%char. split; [reflexivity|discriminate].
Qed.
Lemma coordinate_good : Forall (fun p => good_name (snd p)) coordinate_table.
Proof.
  repeat constructor; cbn; try (intros c H; repeat (destruct H as [<-|H]; [discriminate|]); destruct H).
  all: try (eexists _, _; split; [reflexivity|discriminate]).
  - exists "", "X"%char. split; [reflexivity|discriminate].
  - exists "", "Y"%char. split; [reflexivity|discriminate].
  - exists "", "Z"%char. split; [reflexivity|discriminate].
  - exists "NO_SUCH_SPATIAL_COORDINAT", "E"%char. split; [reflexivity|discriminate].
Qed.
Fixpoint chop (s : string) : string :=
  match s with EmptyString => "" | String c EmptyString => "" | String c r => String c (chop r) end.
Fixpoint last_char (s : string) : ascii :=
  match s with EmptyString => " "%char | String c EmptyString => c | String _ r => last_char r end.
Lemma bc_good : Forall (fun p => good_name (snd p)) bc_table.
Proof.
  repeat constructor; cbn; try (intros c H; repeat (destruct H as [<-|H]; [discriminate|]); destruct H).
  all: try (eexists _, _; split; [reflexivity|discriminate]).
  all: match goal with |- exists a c, ?n = _ /\ _ =>
         let a := eval cbn in (chop n) in let c := eval cbn in (last_char n) in
         exists a, c; split; [reflexivity|discriminate] end.
Qed.

Lemma enum_of_spec {A} (table : list (A * string)) : Forall (fun p => good_name (snd p)) table ->
  NoDup (map snd table) -> forall s a,
  enum_of table s = Ok a <-> exists n, In (a, n) table /\ spells s n.
Proof.
  intros G ND s a. unfold enum_of. rewrite Forall_forall in G. split.
  - destruct (find _ _) as [[b n]|] eqn:F; [|discriminate]. intros [= <-].
    apply find_some in F as [Hi He]. apply in_rev in Hi. cbn in He. apply String.eqb_eq in He.
    exists n. split; auto. apply tidy_spells; [exact (G _ Hi)|]. auto.
  - intros (n & Hi & Hs). apply tidy_spells in Hs; [|exact (G _ Hi)].
    destruct (find _ _) as [[b m]|] eqn:F.
    + apply find_some in F as [Hi' He]. apply in_rev in Hi'. cbn in He. apply String.eqb_eq in He. subst m.
      f_equal. cbn. assert (U : forall l, NoDup (map snd l) -> In (a, n) l -> In (b, n) l -> b = a :> A).
      { clear. induction l as [|[x y] l IH]; cbn; [easy|]. intros ND H1 H2. inversion ND; subst.
        destruct H1 as [E1|H1], H2 as [E2|H2]; [congruence| | |auto].
        - exfalso. injection E1 as _ ->. apply H3. apply in_map_iff. exists (b, n). auto.
        - exfalso. injection E2 as _ ->. apply H3. apply in_map_iff. exists (a, n). auto. }
      rewrite Hs in Hi'. now apply (U table).
    + exfalso. apply find_none with (x := (a, n)) in F; [|now apply -> in_rev]. cbn in F.
      rewrite Hs in F. rewrite String.eqb_refl in F. discriminate.
Qed.
Lemma enum_of_err {A} (table : list (A * string)) s : 
  enum_of table s = Err \/ exists a, enum_of table s = Ok a.
Proof. unfold enum_of. destruct (find _ _); eauto. Qed.

(** ** Output schedule *)
Definition written (outs : list (option Z)) : list Z :=
  flat_map (fun o => match o with Some k => [k] | None => [] end) outs.

Lemma int_op_ok z : (int_min <= z <= int_max)%Z -> int_op z = Ok z.
Proof.
  intros H. unfold int_op, int_ok. destruct (Z.leb_spec int_min z), (Z.leb_spec z int_max); cbn; auto; lia.
Qed.

Lemma write_once sc w : (int_min <= w_count w + 1 <= int_max)%Z -> (int_min <= sc_last sc + 1 <= int_max)%Z ->
  (int_min <= w_exodus w + 1 <= int_max)%Z -> (0 <= w_count w)%Z ->
  (due (sc_first sc - 1) (sc_last sc) (sc_freq sc) (w_count w) /\
   write sc w = Ok ({| w_count := w_count w + 1; w_exodus := w_exodus w + 1 |}, Some (w_exodus w + 1))%Z) \/
  (~ due (sc_first sc - 1) (sc_last sc) (sc_freq sc) (w_count w) /\
   write sc w = Ok ({| w_count := w_count w + 1; w_exodus := w_exodus w |}, None)%Z).
Proof.
  intros H1 H2 H3 H0. unfold write, due. rewrite int_op_ok by auto. cbn [bind].
  destruct (Z.ltb_spec (w_count w + 1) (sc_first sc)); [right; split; [lia|auto]|].
  rewrite int_op_ok by auto. cbn [bind].
  destruct (Z.ltb_spec (sc_last sc + 1) (w_count w + 1)); [right; split; [lia|auto]|].
  destruct (Z.leb_spec (sc_freq sc) 0); [right; split; [lia|auto]|].
  replace (w_count w + 1 - 1)%Z with (w_count w) by lia.
  destruct (Z.eqb_spec (Z.rem (w_count w) (sc_freq sc)) 0) as [E|E]; cbn [negb].
  - left. rewrite int_op_ok by auto. cbn [bind]. split; [|auto]. split; [lia|]. split; [lia|].
    rewrite Z.rem_mod_nonneg in E by lia. apply Z.mod_divide in E; auto; lia.
  - right. split; [|auto]. intros (_ & _ & D). apply E. rewrite Z.rem_mod_nonneg by lia. apply Z.mod_divide; auto; lia.
Qed.

Lemma write_run_spec sc n : (int_min <= sc_last sc + 1 <= int_max)%Z -> forall w,
  (0 <= w_exodus w <= w_count w)%Z -> (w_count w + Z.of_nat n <= int_max)%Z ->
  exists w' outs, write_run sc w n = Ok (w', outs) /\ length outs = n /\
    (forall s, s < n -> (exists k, nth_error outs s = Some (Some k)) <->
       due (sc_first sc - 1) (sc_last sc) (sc_freq sc) (w_count w + Z.of_nat s)) /\
    written outs = map (fun i => (w_exodus w + Z.of_nat i)%Z) (seq 1 (length (written outs))).
Proof.
  intros HL. induction n as [|n IH]; intros w He Hc.
  - exists w, []. repeat split; auto; intros; lia.
  - assert (I : (int_min < 0)%Z) by reflexivity.
    destruct (write_once sc w) as [[D E]|[D E]]; try lia.
    + cbn [write_run]. rewrite E. cbn [bind].
      destruct (IH {| w_count := w_count w + 1; w_exodus := w_exodus w + 1 |}) as (w' & outs & E2 & L & S2 & W2); cbn [w_count w_exodus]; try lia.
      rewrite E2. cbn [bind]. eexists _, _. split; [reflexivity|]. split; [cbn; now f_equal|]. split.
      * intros [|s] Hs; cbn [nth_error].
        -- rewrite Z.add_0_r. split; [intros _; exact D|eauto].
        -- rewrite (S2 s) by lia. cbn [w_count]. replace (w_count w + 1 + Z.of_nat s)%Z with (w_count w + Z.of_nat (S s))%Z by lia. reflexivity.
      * cbn [written flat_map]. fold (written outs). cbn [app length seq map]. f_equal.
        rewrite W2 at 1. cbn [w_exodus]. rewrite <- (seq_shift (length (written outs)) 1), map_map. apply map_ext. intros a. lia.
    + cbn [write_run]. rewrite E. cbn [bind].
      destruct (IH {| w_count := w_count w + 1; w_exodus := w_exodus w |}) as (w' & outs & E2 & L & S2 & W2); cbn [w_count w_exodus]; try lia.
      rewrite E2. cbn [bind]. eexists _, _. split; [reflexivity|]. split; [cbn; now f_equal|]. split.
      * intros [|s] Hs; cbn [nth_error].
        -- rewrite Z.add_0_r. split; [intros [k K]; discriminate K|intros; contradiction].
        -- rewrite (S2 s) by lia. cbn [w_count]. replace (w_count w + 1 + Z.of_nat s)%Z with (w_count w + Z.of_nat (S s))%Z by lia. reflexivity.
      * cbn [written flat_map]. fold (written outs). cbn [app]. exact W2.
Qed.
