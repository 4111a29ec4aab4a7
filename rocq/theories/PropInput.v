(** * C42 horizons, C43 degrees of freedom, C46 block names, C49 output schedule, C52 keywords *)
From Coq Require Import String Ascii.
From Verif Require Import Base Num ModelScalar ModelInput SpecInput ProofInput.
Local Open Scope string_scope.

(** ** C42 *)
(** The names of a definition are the words of its "Block Names" text. *)
Theorem C42_block_names_are_the_words : forall s ws, spelled s ws <-> ws = words s.
Proof. intros s ws. split; [apply spelled_words|intros ->; apply words_spelled]. Qed.
Print Assumptions C42_block_names_are_the_words.

(** After loading any list of well formed block sublists: the horizon evaluated for a block
    is that of the definition in force, whether it is constant is what that definition
    says, and without a definition in force all three questions are errors.  [run] is the
    expression evaluator, [show] the text of a number. *)
Theorem C42_definition_in_force_is_used : forall (N : Num) show (run : string -> V3 N -> option N) (bs : list (block_params N)) ds h,
  definitions show bs = Some ds -> load_horizons show hz_empty bs = Ok h ->
  forall blk const text, in_force ds blk (const, text) ->
    has_constant h blk = Ok const /\
    (forall x v, run (if contains "value" text then text else "value = " ++ text) x = Some v ->
       evaluate_horizon run h blk x = Ok v) /\
    (forall x, run (if contains "value" text then text else "value = " ++ text) x = None ->
       evaluate_horizon run h blk x = Err) /\
    constant_value run h blk = evaluate_horizon run h blk vzero.
Proof.
  intros N show run bs ds h Hd Hl blk const text HF.
  rewrite load_definitions, Hd in Hl. injection Hl as <-.
  apply found_spec in HF.
  split; [|split; [|split]].
  - destruct (lookup_all ds run blk vzero) as (_ & -> & _). now rewrite HF.
  - intros x v Hv. destruct (lookup_all ds run blk x) as (-> & _ & _). rewrite HF. cbn [snd]. unfold body_of. now rewrite Hv.
  - intros x Hv. destruct (lookup_all ds run blk x) as (-> & _ & _). rewrite HF. cbn [snd]. unfold body_of. now rewrite Hv.
  - destruct (lookup_all ds run blk vzero) as (-> & _ & ->). reflexivity.
Qed.
Theorem C42_no_definition_is_error : forall (N : Num) show (run : string -> V3 N -> option N) (bs : list (block_params N)) ds h blk,
  definitions show bs = Some ds -> load_horizons show hz_empty bs = Ok h ->
  none_for ds blk -> none_for ds "default" ->
  has_constant h blk = Err /\ constant_value run h blk = Err /\ forall x, evaluate_horizon run h blk x = Err.
Proof.
  intros N show run bs ds h blk Hd Hl N1 N2.
  rewrite load_definitions, Hd in Hl. injection Hl as <-.
  assert (HF : found ds blk = None) by (apply found_none; auto).
  split; [|split].
  - destruct (lookup_all ds run blk vzero) as (_ & -> & _). now rewrite HF.
  - destruct (lookup_all ds run blk vzero) as (_ & _ & ->). now rewrite HF.
  - intros x. destruct (lookup_all ds run blk x) as (-> & _ & _). now rewrite HF.
Qed.
(** Exactly one of the two cases applies, the definition in force is unique, and loading
    fails exactly on malformed sublists. *)
Theorem C42_definition_in_force_is_unique : forall ds blk,
  ((exists d, in_force ds blk d) \/ (none_for ds blk /\ none_for ds "default")) /\
  (forall d d', in_force ds blk d -> in_force ds blk d' -> d = d').
Proof.
  intros ds blk. split.
  - destruct (found ds blk) as [d|] eqn:E; [left; exists d; now apply found_spec|right; now apply found_none].
  - intros d d' H H'. apply found_spec in H, H'. congruence.
Qed.
Theorem C42_load_fails_only_on_malformed : forall (N : Num) show (bs : list (block_params N)),
  (exists h, load_horizons show hz_empty bs = Ok h) <->
  Forall (fun b => bp_horizon b <> HNone /\ bp_names b <> None) bs.
Proof.
  intros N show bs. rewrite load_definitions.
  assert (G : (exists ds, definitions show bs = Some ds) <-> Forall (fun b => bp_horizon b <> HNone /\ bp_names b <> None) bs).
  { induction bs as [|b t IH]; cbn [definitions]; [split; eauto|]. split.
    - intros [ds H]. destruct (definitions show t) eqn:E; [|discriminate].
      constructor; [|apply IH; eauto]. destruct (bp_names b), (bp_horizon b); try discriminate; split; discriminate.
    - intros F. inversion F as [|? ? [H1 H2] H3]; subst. apply IH in H3 as [ds ->].
      destruct (bp_names b), (bp_horizon b); try easy; eauto. }
  rewrite <- G. destruct (definitions show bs); split; intros [h H]; try discriminate; eauto.
Qed.
(** The header documents that asking for the constant horizon of a block whose horizon is
    not constant throws; it does not. *)
Theorem C42_constant_value_of_variable_horizon_refuted :
  exists (bs : list (block_params RN)) h (run : string -> V3 RN -> option RN) v,
    load_horizons (fun _ => "") hz_empty bs = Ok h /\
    has_constant h "b" = Ok false /\ constant_value run h "b" = Ok v.
Proof.
  exists [{| bp_horizon := HText "value = 1 + x"; bp_names := Some "b" |}].
  eexists. exists (fun _ _ => Some (ofZ 1)). eexists. split; [reflexivity|]. split; reflexivity.
Qed.
Print Assumptions C42_definition_in_force_is_used.
Print Assumptions C42_no_definition_is_error.
Print Assumptions C42_definition_in_force_is_unique.
Print Assumptions C42_load_fails_only_on_malformed.
Print Assumptions C42_constant_value_of_variable_horizon_refuted.

Example C42_ex :
  let bs := [{| bp_horizon := HText "1"; bp_names := Some " block_1  block_2 " |};
             {| bp_horizon := HText "2"; bp_names := Some "DEFAULT" |};
             {| bp_horizon := HText "3"; bp_names := Some "block_2" |}] : list (block_params RN) in
  exists ds h, definitions (fun _ => "") bs = Some ds /\ load_horizons (fun _ => "") hz_empty bs = Ok h /\
    in_force ds "block_1" (false, "1") /\ in_force ds "block_2" (false, "3") /\
    in_force ds "block_3" (false, "2").
Proof.
  eexists _, _. split; [reflexivity|]. split; [reflexivity|].
  repeat split; apply found_spec; reflexivity.
Qed.

(** ** C43 *)
(** From the initial state, for every choice of physics: offsets and counts give a
    one-to-one numbering of the unknowns of all nodes. *)
Theorem C43_layout_is_a_bijection_after_first_initialisation_partial : forall p,
  layout_bijective (dofs_initialize dofs_init p) p /\
  (forall u, dof_count (dofs_initialize dofs_init p) u = if active p u then components u else 0).
Proof. intros p. split; [apply layout_first|apply counts_first]. Qed.
(** Initialising again does not give a layout of the new physics: what is missing from the
    theorem above is re-initialisation, and there the property is false. *)
Theorem C43_reinitialisation_refuted : forall p q, physics_size p <> 0 -> physics_size q <> 0 ->
  ~ layout_bijective (dofs_initialize (dofs_initialize dofs_init p) q) q.
Proof.
  intros p q Hp Hq H. destruct (H 1) as (_ & _ & S).
  assert (E : n_total (dofs_initialize (dofs_initialize dofs_init p) q) = physics_size p + physics_size q).
  { pose proof (total_accumulates [p; q] dofs_init) as T. cbn [fold_left fold_right] in T. rewrite T. cbn. lia. }
  destruct (S 0) as (node & u & c & Hn & Hv & R); [lia|].
  assert (node = 0) by lia. subst node. clear - Hp Hv R.
  destruct p as [[] [] [] []], q as [[] [] [] []]; cbn in Hp; try lia; destruct u, Hv as [Ha Hc]; cbn in Ha, Hc, R; try discriminate; lia.
Qed.
(** The number of unknowns per node is the sum over all initialisations so far. *)
Theorem C43_total_accumulates : forall ps,
  n_total (fold_left dofs_initialize ps dofs_init) = fold_right (fun p a => physics_size p + a) 0 ps.
Proof. intros ps. apply (total_accumulates ps dofs_init). Qed.
Print Assumptions C43_layout_is_a_bijection_after_first_initialisation_partial.
Print Assumptions C43_reinitialisation_refuted.
Print Assumptions C43_total_accumulates.

Example C43_ex :
  let d := dofs_initialize dofs_init {| ph_disp := true; ph_temp := true; ph_conc := false; ph_pres := true |} in
  n_total d = 5 /\ dof_row d 2 UPres 0 = 14 /\ dof_row d 2 UDisp 1 = 11.
Proof. repeat split. Qed.

(** ** C46 *)
Theorem C46_underscore_name_partial : forall prefix n, lacks "GRAIN" prefix -> numeral n ->
  (value_of n <= int_max)%Z -> block_id (prefix ++ "_" ++ n) = Ok (value_of n).
Proof. exact cubit_name. Qed.
Theorem C46_dream3d_name : forall n, numeral n -> (value_of n <= int_max)%Z ->
  (Z.of_nat (String.length n) < 2 ^ 63)%Z -> block_id ("GRAIN" ++ n ++ "_SET") = Ok (value_of n).
Proof. exact dream3d_name. Qed.
(** What is missing from [C46_underscore_name_partial]: prefixes containing one of the
    letters G, R, A, I, N, for which the property is false: distinct blocks are given the
    same number, or the name is rejected. *)
Theorem C46_underscore_name_refuted :
  block_id "RUBBER_1" = Ok 0%Z /\ block_id "RUBBER_2" = Ok 0%Z /\ block_id "A_1" = Err.
Proof. repeat split; vm_compute; reflexivity. Qed.
(** Not isolated cases: a letter of GRAIN followed by at least five characters before the
    underscore, the fifth not a digit, sign or white space, and the number is never used:
    the block id is 0 or -1 whatever n is. *)
Theorem C46_underscore_number_ignored_refuted : forall a g b x r n,
  lacks "GRAIN" a -> In g (list_ascii_of_string "GRAIN") -> String.length b = 4 ->
  digit x = None -> is_space x = false -> x <> "-"%char -> x <> "+"%char ->
  let name := (a ++ String g (b ++ String x r)) ++ "_" ++ n in
  block_id name = Ok 0%Z \/ block_id name = Ok (-1)%Z.
Proof.
  intros a g b x r n La Hg Lb Dx Sx Mx Px name.
  assert (E : name = a ++ String g (b ++ String x (r ++ "_" ++ n))).
  { unfold name. rewrite <- !app_assoc_s. cbn [append]. f_equal. f_equal. now rewrite <- app_assoc_s. }
  assert (P : find_first_of "GRAIN" name = Some (String.length a)).
  { rewrite E. generalize (b ++ String x (r ++ "_" ++ n)). clear - La Hg. intros q. induction a as [|c a IH]; cbn [append find_first_of String.length].
    - now rewrite (proj2 (mem_char_In g "GRAIN") Hg).
    - rewrite (proj2 (mem_char_nIn c "GRAIN")) by (apply La; now left).
      rewrite IH; [reflexivity|]. intros d Hd. apply La. now right. }
  assert (S : exists s, find_last_of "_SET" name = Some s).
  { unfold name. generalize (a ++ String g (b ++ String x r)). intros q. induction q as [|c q IH].
    - cbn [append find_last_of]. destruct (find_last_of "_SET" n); eexists; reflexivity.
    - destruct IH as [s IH]. exists (Datatypes.S s).
      change (find_last_of "_SET" (String c (q ++ "_" ++ n)) = Some (Datatypes.S s)).
      cbn [find_last_of]. now rewrite IH. }
  destruct S as [s S]. unfold block_id. rewrite P, S. unfold substr.
  destruct (Nat.ltb_spec (String.length name) (String.length a + 5)) as [H|H].
  { rewrite E in H. rewrite length_app_s in H. cbn [String.length] in H. rewrite length_app_s in H.
    cbn [String.length] in H. lia. }
  cbn [bind]. match goal with |- context [substring _ ?kk _] => generalize kk end; intros k.
  assert (T : substring (String.length a + 5) k name = substring 0 k (String x (r ++ "_" ++ n))).
  { rewrite E. replace (a ++ String g (b ++ String x (r ++ "_" ++ n)))
      with ((a ++ String g b) ++ String x (r ++ "_" ++ n)) by (rewrite <- app_assoc_s; reflexivity).
    replace (String.length a + 5) with (String.length (a ++ String g b)) by (rewrite length_app_s; cbn; lia).
    apply substring_skip. }
  rewrite T. destruct k as [|k]; cbn [substring].
  - right. reflexivity.
  - left. unfold extract_int. cbn [skip_space]. rewrite Sx.
    destruct (Ascii.eqb_spec x "-"); [easy|]. destruct (Ascii.eqb_spec x "+"); [easy|].
    cbn [read_digits]. now rewrite Dx.
Qed.
Print Assumptions C46_underscore_name_partial.
Print Assumptions C46_dream3d_name.
Print Assumptions C46_underscore_name_refuted.
Print Assumptions C46_underscore_number_ignored_refuted.

Example C46_ex : lacks "GRAIN" "block" /\ numeral "12" /\ value_of "12" = 12%Z /\
  block_id "block_12" = Ok 12%Z /\ block_id "GRANULAR_12" = Ok (-1)%Z /\ block_id "GRAIN307_SET" = Ok 307%Z.
Proof.
  split; [|split; [split|repeat split]]; try (vm_compute; reflexivity); try discriminate.
  - intros c Hc Hi. cbn in Hc, Hi.
    repeat (destruct Hc as [<-|Hc]; [repeat (destruct Hi as [Hi|Hi]; [discriminate Hi|]); exact Hi|]). exact Hc.
  - intros c Hc. cbn in Hc. destruct Hc as [<-|[<-|[]]]; vm_compute; discriminate.
Qed.

(** ** C49 *)
(** A run of n calls (initial configuration and n - 1 steps): output is written after step
    s exactly when first - 1 <= s <= last and the frequency is positive and divides s, and
    the indices of the writes are 1, 2, 3, ... *)
Theorem C49_written_steps_partial : forall sc n,
  (int_min <= sc_last sc < int_max)%Z -> (Z.of_nat n <= int_max)%Z ->
  exists w outs, write_run sc writer_init n = Ok (w, outs) /\ length outs = n /\
    (forall s, s < n -> (exists k, nth_error outs s = Some (Some k)) <->
       due (sc_first sc - 1) (sc_last sc) (sc_freq sc) (Z.of_nat s)) /\
    exists m, flat_map (fun o => match o with Some k => [k] | None => [] end) outs = map Z.of_nat (seq 1 m).
Proof.
  intros sc n HL Hn.
  destruct (write_run_spec sc n ltac:(cbn; unfold int_max, int_min in *; lia) writer_init ltac:(cbn; lia) ltac:(cbn; unfold int_max, int_min in *; lia)) as (w & outs & E & L & S & W).
  exists w, outs. split; [auto|]. split; [auto|]. split; [exact S|].
  exists (length (written outs)). exact W.
Qed.
Theorem C49_no_frequency_no_output : forall sc n, (sc_freq sc <= 0)%Z ->
  (int_min <= sc_last sc < int_max)%Z -> (Z.of_nat n <= int_max)%Z ->
  exists w, write_run sc writer_init n = Ok (w, repeat None n).
Proof.
  intros sc n Hf HL Hn.
  destruct (write_run_spec sc n ltac:(cbn; unfold int_max, int_min in *; lia) writer_init ltac:(cbn; lia) ltac:(cbn; unfold int_max, int_min in *; lia)) as (w & outs & E & L & S & W).
  exists w. rewrite E. f_equal. f_equal.
  assert (K : forall s, s < n -> nth_error outs s = Some None).
  { intros s Hs. destruct (nth_error outs s) as [[k|]|] eqn:Q; auto.
    - exfalso. destruct (S s Hs) as [S1 _]. destruct (S1 (ex_intro _ k Q)) as (_ & F & _). lia.
    - apply nth_error_None in Q. lia. }
  clear - L K. revert outs L K. induction n as [|n IH]; intros [|o outs] L K; try discriminate; [reflexivity|].
  cbn [repeat]. f_equal.
  - specialize (K 0 ltac:(lia)). cbn in K. congruence.
  - apply IH; [now injection L|]. intros s Hs. apply (K (S s)). lia.
Qed.
(** "Initial Output Step" a does not keep step a - 1 from being written; what is missing
    from [C49_written_steps_partial] is the lower bound a. *)
Theorem C49_first_step_refuted : forall a, (1 <= a < int_max)%Z ->
  let sc := {| sc_freq := 1; sc_first := a; sc_last := int_max - 1 |} in
  exists w outs, write_run sc writer_init (Z.to_nat a) = Ok (w, outs) /\
    ~ due a (sc_last sc) 1 (a - 1) /\ exists k, nth_error outs (Z.to_nat (a - 1)) = Some (Some k).
Proof.
  intros a Ha sc.
  destruct (write_run_spec sc (Z.to_nat a) ltac:(cbn; unfold int_max, int_min in *; lia) writer_init ltac:(cbn; lia) ltac:(cbn; unfold int_max, int_min in *; lia)) as (w & outs & E & L & S & W).
  exists w, outs. split; [exact E|]. split; [intros [H _]; lia|].
  apply S; [lia|]. cbn. split; [unfold int_max in *; lia|]. split; [lia|apply Z.divide_1_l].
Qed.
(** A last step equal to INT_MAX overflows the comparison. *)
Theorem C49_last_step_int_max_overflows : forall f a n, (a <= 1)%Z ->
  write_run {| sc_freq := f; sc_first := a; sc_last := int_max |} writer_init (S n) = UB.
Proof.
  intros f a n Ha. cbn [write_run]. unfold write. cbn [w_count writer_init sc_first sc_last].
  rewrite int_op_ok by (unfold int_min, int_max; lia). cbn [bind].
  destruct (Z.ltb_spec (0 + 1) a); [lia|]. reflexivity.
Qed.
Print Assumptions C49_written_steps_partial.
Print Assumptions C49_no_frequency_no_output.
Print Assumptions C49_first_step_refuted.
Print Assumptions C49_last_step_int_max_overflows.

Example C49_ex : exists w,
  write_run {| sc_freq := 2; sc_first := 1; sc_last := 5 |} writer_init 8 =
  Ok (w, [Some 1%Z; None; Some 2%Z; None; Some 3%Z; None; None; None]).
Proof. eexists. vm_compute. reflexivity. Qed.

(** ** C52 *)
(** A text is accepted exactly when it spells a name of the table (up to case, blanks for
    underscores, surrounding blanks), and the result is the setting of that name. *)
Theorem C52_accepted_texts : forall s,
  (forall a, to_tensor_order s = Ok a <-> exists n, tensor_text a = Ok n /\ spells s n) /\
  (forall a, to_coordinate s = Ok a <-> exists n, coordinate_text a = Ok n /\ spells s n) /\
  (forall a, to_bc_type s = Ok a <-> exists n, bc_text a = Ok n /\ spells s n).
Proof.
  intros s. repeat split.
  - intros H. apply enum_of_spec in H as (n & Hi & Hs); [|exact tensor_good|repeat constructor; cbn; intuition discriminate].
    exists n. split; auto. cbn in Hi. repeat (destruct Hi as [[= <- <-]|Hi]; [reflexivity|]). destruct Hi.
  - intros (n & Hn & Hs). apply enum_of_spec; [exact tensor_good|repeat constructor; cbn; intuition discriminate|].
    exists n. split; auto. destruct a; injection Hn as <-; cbn; auto 12.
  - intros H. apply enum_of_spec in H as (n & Hi & Hs); [|exact coordinate_good|repeat constructor; cbn; intuition discriminate].
    exists n. split; auto. cbn in Hi. repeat (destruct Hi as [[= <- <-]|Hi]; [reflexivity|]). destruct Hi.
  - intros (n & Hn & Hs). apply enum_of_spec; [exact coordinate_good|repeat constructor; cbn; intuition discriminate|].
    exists n. split; auto. destruct a; injection Hn as <-; cbn; auto 12.
  - intros H. apply enum_of_spec in H as (n & Hi & Hs); [|exact bc_good|repeat constructor; cbn; intuition discriminate].
    exists n. split; auto. cbn in Hi. repeat (destruct Hi as [[= <- <-]|Hi]; [reflexivity|]). destruct Hi.
  - intros (n & Hn & Hs). apply enum_of_spec; [exact bc_good|repeat constructor; cbn; intuition discriminate|].
    exists n. split; auto. destruct a; injection Hn as <-; cbn; auto 15.
Qed.
Theorem C52_round_trip :
  (forall a, exists n, tensor_text a = Ok n /\ to_tensor_order n = Ok a) /\
  (forall a, exists n, coordinate_text a = Ok n /\ to_coordinate n = Ok a) /\
  (forall a, exists n, bc_text a = Ok n /\ to_bc_type n = Ok a).
Proof. repeat split; intros []; eexists; (split; [reflexivity|vm_compute; reflexivity]). Qed.
Theorem C52_unknown_text_is_error : forall s,
  ((forall a n, tensor_text a = Ok n -> ~ spells s n) -> to_tensor_order s = Err) /\
  ((forall a n, coordinate_text a = Ok n -> ~ spells s n) -> to_coordinate s = Err) /\
  ((forall a n, bc_text a = Ok n -> ~ spells s n) -> to_bc_type s = Err).
Proof.
  intros s. destruct (C52_accepted_texts s) as (A & B & C).
  repeat split; intros H.
  - destruct (enum_of_err tensor_table s) as [E|[a E]]; [exact E|]. apply A in E as (n & Hn & Hs). now destruct (H a n Hn).
  - destruct (enum_of_err coordinate_table s) as [E|[a E]]; [exact E|]. apply B in E as (n & Hn & Hs). now destruct (H a n Hn).
  - destruct (enum_of_err bc_table s) as [E|[a E]]; [exact E|]. apply C in E as (n & Hn & Hs). now destruct (H a n Hn).
Qed.
Theorem C52_initial_conditions : forall b,
  is_initial b = Ok true <-> In b [INITIAL_TEMPERATURE; INITIAL_DISPLACEMENT; INITIAL_VELOCITY; INITIAL_FLUID_PRESSURE_U].
Proof.
  intros []; vm_compute; split; intros H; try discriminate; auto 8; exfalso;
    repeat (destruct H as [H|H]; [discriminate H|]); destruct H.
Qed.
Print Assumptions C52_accepted_texts.
Print Assumptions C52_round_trip.
Print Assumptions C52_unknown_text_is_error.
Print Assumptions C52_initial_conditions.

Example C52_ex : spells "  Prescribed Displacement " "PRESCRIBED_DISPLACEMENT" /\
  to_bc_type "  Prescribed Displacement " = Ok PRESCRIBED_DISPLACEMENT /\ to_bc_type "Prescribed-Displacement" = Err.
Proof.
  split; [|split; vm_compute; reflexivity].
  exists "  ", "Prescribed Displacement", " ". split; [reflexivity|].
  split; [intros c Hc; cbn in Hc; intuition congruence|]. split; [intros c Hc; cbn in Hc; intuition congruence|].
  unfold same_letter. cbn. repeat (constructor; [(left; vm_compute; reflexivity) || (right; split; reflexivity)|]). constructor.
Qed.
