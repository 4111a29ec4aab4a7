(** * C40: node sets mean the listed nodes *)
From Coq Require Import String Ascii.
From Verif Require Import Base Num ModelScalar ModelInput SpecInput ProofInput ModelBC SpecBC ProofBC ProofBC2 ModelNodeSet SpecNodeSet ProofNodeSet.
Local Open Scope string_scope.

(** ** Sets given as text *)

(** Whatever white space separates, precedes or follows the numbers, the result is the listed
    nodes in their order, counted from zero; a text ending in white space repeats the last
    one.  The text must be recognisable as a list: its first word does not begin with a zero
    or there is a blank or tab between words. *)
Theorem C40_listed_nodes_in_order files s ns :
  lists s ns -> ns <> [] -> no_leading_zero s \/ inner_blank s ->
  (~ ends_white s -> read_text files s = Ok (map node ns)) /\
  (ends_white s -> read_text files s = Ok (map node ns ++ [node (last ns 0%Z)])%list).
Proof.
  intros (ws & Sp & F) Hn L.
  assert (E : file_name s = "").
  { destruct L as [L|L]; [|now apply inner_blank_list]. destruct F as [|w n ws ns Hw F]; [easy|].
    destruct Hw as ((Hw1 & Hw2) & _). destruct w as [|c r]; [easy|]. eapply first_digit_list; [exact Sp|reflexivity|apply Hw2; now left|].
    intros ->. eapply L; [exact Sp|reflexivity|eauto]. }
  unfold read_text. rewrite E. cbn [String.eqb].
  pose proof (read_list_spec ws ns F s (S (String.length s)) None Sp ltac:(lia)) as R. destruct ns; [easy|exact R].
Qed.
Print Assumptions C40_listed_nodes_in_order.

(** As a set: exactly the listed nodes. *)
Theorem C40_listed_nodes files s ns :
  lists s ns -> ns <> [] -> no_leading_zero s \/ inner_blank s ->
  exists l, read_text files s = Ok l /\ forall k, In k l <-> exists n, In n ns /\ k = node n.
Proof.
  intros H Hn L. destruct (C40_listed_nodes_in_order files s ns H Hn L) as [A B].
  assert (M : forall k, In k (map node ns) <-> exists n, In n ns /\ k = node n).
  { intros k. rewrite in_map_iff. split; intros (n & X & Y); exists n; split; auto. }
  assert (D : ends_white s \/ ~ ends_white s).
  { unfold ends_white. destruct (last_char s) as [c|]; [|right; intros (c & X & _); discriminate].
    destruct (is_space c) eqn:E; [left; eauto|right; intros (d & X & Y); congruence]. }
  destruct D as [D|D].
  - exists (map node ns ++ [node (last ns 0%Z)])%list. split; [now apply B|]. intros k. rewrite in_app_iff, M. cbn [In]. split; [|auto].
    intros [X|[<-|[]]]; [exact X|]. exists (last ns 0%Z). split; [|reflexivity].
    clear -Hn. induction ns as [|a [|b r] IH]; [easy|now left|]. right. now apply IH.
  - exists (map node ns). split; [now apply A|exact M].
Qed.
Print Assumptions C40_listed_nodes.

(** A blank between two words is enough, even when they start with zeros; so is a first
    digit that is not zero. *)
Example C40_list_case : exists l, read_text (fun _ => None) (" 12	7" ++ newline ++ "0300  ") = Ok l /\
  l = [11%nat; 6%nat; 299%nat; 299%nat] /\ lists (" 12	7" ++ newline ++ "0300  ") [12; 7; 300]%Z /\ no_leading_zero (" 12	7" ++ newline ++ "0300  ").
Proof.
  exists [11%nat; 6%nat; 299%nat; 299%nat]. split; [vm_compute; reflexivity|]. split; [reflexivity|].
  assert (W : words (" 12	7" ++ newline ++ "0300  ") = ["12"; "7"; "0300"]) by (vm_compute; reflexivity). split.
  - exists ["12"; "7"; "0300"]. split; [rewrite <- W; apply words_spelled|].
    repeat constructor; try discriminate; try (vm_compute; reflexivity); try (unfold int_max; vm_compute; discriminate);
      intros c Hc; cbn in Hc; repeat (destruct Hc as [<-|Hc]; [discriminate|]); destruct Hc.
  - intros ws w Sp Hh (r & ->). apply spelled_words in Sp. rewrite W in Sp. subst ws. cbn in Hh. discriminate.
Qed.

(** *** Where the claim fails *)

(** An empty set, written as an empty text or as blanks: the variable that is stored was
    never written. *)
Theorem C40_empty_set_refuted files s : blanks s -> read_text files s = UB.
Proof.
  intros B. assert (E : file_name s = "").
  { unfold file_name, trim. rewrite (proj2 (all_blank_spec s) B). destruct s as [|c r]; [reflexivity|].
    assert (c = " "%char) by (apply B; now left). subst c. reflexivity. }
  unfold read_text. rewrite E. cbn [String.eqb read_list]. rewrite extract_white by now apply blanks_white. reflexivity.
Qed.
Print Assumptions C40_empty_set_refuted.

Lemma unblank_trim w : w <> "" -> (forall c, In c (las w) -> c <> " "%char) -> trim w = w.
Proof.
  intros Hn H. destruct w as [|c r]; [easy|]. unfold trim.
  rewrite (all_blank_false (String c r) c); [|now left|apply H; now left].
  assert (D : drop_blanks (String c r) = String c r) by (cbn [drop_blanks]; destruct (Ascii.eqb_spec c " "); [exfalso; eapply H; [now left|assumption]|reflexivity]).
  rewrite D. clear D Hn. revert H. generalize (String c r). clear. induction s as [|c r IH]; intros H; [reflexivity|].
  cbn [drop_trailing]. rewrite (all_blank_false (String c r) c); [|now left|apply H; now left]. rewrite IH; [reflexivity|]. intros d Hd. apply H. now right.
Qed.
Lemma find_first_none set s : (forall c, In c (las s) -> mem_char c set = false) -> find_first_of set s = None.
Proof.
  induction s as [|c r IH]; intros H; [reflexivity|]. cbn [find_first_of]. rewrite (H c) by now left. rewrite IH; [reflexivity|]. intros d Hd. apply H. now right.
Qed.

(** A single node number written with a leading zero followed by an 8 or a 9 is taken for the
    name of a file. *)
Theorem C40_leading_zero_refuted files c r :
  c = "8"%char \/ c = "9"%char -> (forall d, In d (las r) -> digit d <> None) ->
  let w := String "0" (String c r) in
  numeral w /\ read_text files w = match files w with Some content => read_file content | None => Err end.
Proof.
  intros Hc Hr w.
  assert (D : forall d, In d (las w) -> digit d <> None).
  { intros d [<-|[<-|Hd]]; [discriminate|destruct Hc as [->| ->]; discriminate|now apply Hr]. }
  split; [split; [discriminate|exact D]|].
  assert (E : file_name w = w).
  { unfold file_name. rewrite unblank_trim; [|discriminate|intros d Hd ->; now apply (D _ Hd)].
    rewrite find_first_none.
    2:{ intros d Hd. cbn [mem_char]. pose proof (D d Hd) as X. destruct (Ascii.eqb_spec " " d) as [<-|]; [now elim X|]. destruct (Ascii.eqb_spec "009" d) as [<-|]; [now elim X|reflexivity]. }
    unfold w. destruct Hc as [->| ->]; reflexivity. }
  unfold read_text. rewrite E. reflexivity.
Qed.
Print Assumptions C40_leading_zero_refuted.
Example C40_leading_zero_case : read_text (fun _ => None) "08" = Err /\ read_text (fun _ => None) "8" = Ok [7%nat]
   /\ read_text (fun _ => None) "08 9" = Ok [7%nat; 8%nat].
Proof. vm_compute. auto. Qed.

(** A number above INT_MAX stands for INT_MAX, and everything after it is dropped without a
    word. *)
Theorem C40_too_large_number_refuted files w t :
  numeral w -> (int_max < value_of w)%Z -> ~ starts_digit t -> file_name (w ++ t) = "" ->
  read_text files (w ++ t) = Ok [node int_max].
Proof.
  intros Hw V Ht E. unfold read_text. rewrite E. cbn [String.eqb read_list].
  pose proof (extract_word "" w t ltac:(intros d []) Hw Ht) as X. cbn [append] in X. rewrite X.
  destruct (Z.ltb_spec int_max (value_of w)); [|lia]. reflexivity.
Qed.
Print Assumptions C40_too_large_number_refuted.
Example C40_too_large_case : file_name ("2147483648" ++ " 5 6") = "" /\ (int_max < value_of "2147483648")%Z /\ ~ starts_digit " 5 6".
Proof. split; [vm_compute; reflexivity|]. split; [vm_compute; reflexivity|]. cbn. intros H; apply H; reflexivity. Qed.

(** ** Sets read from a file *)

(** Lines of numbers, blank lines and comments: exactly the listed nodes, in order. *)
Theorem C40_file_of_nodes files s content ls nss :
  file_name s <> "" -> files (file_name s) = Some content -> content = file_of ls ->
  ls <> [] -> Forall one_line ls -> Forall2 line_lists ls nss ->
  read_text files s = Ok (map node (concat nss)).
Proof.
  intros Hf Hc -> Hn Ho F. unfold read_text. rewrite Hc. destruct (String.eqb_spec (file_name s) ""); [easy|]. now apply read_file_spec.
Qed.
Print Assumptions C40_file_of_nodes.
Example C40_file_case : let ls := ["# nodes"; " 3 14  "; ""; "15"; ""] in
  read_text (fun f => if String.eqb f "top.txt" then Some (file_of ls) else None) " top.txt " = Ok [2%nat; 13%nat; 14%nat]
  /\ file_name " top.txt " = "top.txt" /\ ls <> [] /\ Forall one_line ls /\ Forall2 line_lists ls [[]; [3; 14]; []; [15]; []]%Z.
Proof.
  cbn zeta. split; [vm_compute; reflexivity|]. split; [vm_compute; reflexivity|]. split; [discriminate|]. split.
  - repeat constructor; intros X; cbn in X; repeat (destruct X as [X|X]; [discriminate X|]); exact X.
  - assert (Nw : forall ws ns, Forall2 node_word ws ns -> forall s, words s = ws -> line_lists s ns).
    { intros ws ns F s <-. right. exists (words s). split; [apply words_spelled|exact F]. }
    constructor; [left; split; [exists "", "#"%char, " nodes"; repeat split; [intros d []|auto]|reflexivity]|].
    assert (W3 : node_word "3" 3 /\ node_word "14" 14 /\ node_word "15" 15).
    { repeat split; try discriminate; try (unfold int_max; vm_compute; discriminate);
      intros c Hc; cbn in Hc; repeat (destruct Hc as [<-|Hc]; [discriminate|]); destruct Hc. }
    destruct W3 as (W3 & W14 & W15).
    constructor; [apply (Nw ["3"; "14"]); [repeat (assumption || apply Forall2_cons || apply Forall2_nil)|vm_compute; reflexivity]|].
    constructor; [apply (Nw []); [constructor|vm_compute; reflexivity]|].
    constructor; [apply (Nw ["15"]); [repeat (assumption || apply Forall2_cons || apply Forall2_nil)|vm_compute; reflexivity]|].
    constructor; [apply (Nw []); [constructor|vm_compute; reflexivity]|]. constructor.
Qed.

(** A line such as "3, 4 5" is cut short after its first number without a word, whatever
    follows the stray character. *)
Theorem C40_stray_character_in_a_line_refuted w n c t :
  node_word w n -> digit c = None -> is_space c = false -> c <> "-"%char -> c <> "+"%char ->
  read_line (w ++ String c t) = Ok [node n].
Proof.
  intros ((Hn & Hd) & V & R) Dc Sc Nm Np. destruct w as [|d w]; [easy|].
  pose proof (Hd d (or_introl eq_refl)) as Dd. pose proof (digit_not_space d Dd) as Sd.
  assert (Nd : d <> " "%char) by (intros ->; discriminate). assert (Nc : c <> " "%char) by (intros ->; discriminate).
  assert (T : exists t', trim (String d w ++ String c t) = String d w ++ String c t').
  { unfold trim. rewrite (all_blank_false _ d); [|now left|exact Nd].
    cbn [append drop_blanks]. destruct (Ascii.eqb_spec d " "); [easy|]. change (String d (w ++ String c t)) with (String d w ++ String c t).
    rewrite drop_trailing_tail by (intros B; apply Nc; apply B; now left). exists (drop_trailing t). cbn [drop_trailing].
    rewrite (all_blank_false (String c t) c); [reflexivity|now left|exact Nc]. }
  destruct T as (t' & T). unfold read_line. rewrite T.
  assert (E : extract (String d w ++ String c t') = XInt n (String c t')).
  { pose proof (extract_word "" (String d w) (String c t') ltac:(intros x []) (conj Hn Hd)) as X. cbn [append] in X |- *. rewrite X, V.
    - destruct (Z.ltb_spec int_max n); [lia|reflexivity]. - cbn. congruence. }
  assert (E2 : extract (String c t') = XBad).
  { unfold extract. cbn [skip_space]. rewrite Sc. destruct (Ascii.eqb_spec c "-"); [easy|]. destruct (Ascii.eqb_spec c "+"); [easy|]. cbn [read_digits]. now rewrite Dc. }
  cbn [append]. assert (Q : (Ascii.eqb d "#" || Ascii.eqb d "/" || Ascii.eqb d "*")%bool = false).
  { rewrite !orb_false_iff, !Ascii.eqb_neq. repeat split; intros ->; now apply Dd. }
  rewrite Q. change (String d (w ++ String c t')) with (String d w ++ String c t'). cbn [read_ints]. rewrite E.
  destruct (String.length (String d w ++ String c t')) as [|k] eqn:L; [rewrite length_app_s in L; cbn in L; lia|]. cbn [read_ints]. rewrite E2.
  cbn [mapO]. destruct (Z.ltb_spec n 1); [lia|]. reflexivity.
Qed.
Print Assumptions C40_stray_character_in_a_line_refuted.
Example C40_stray_case : read_line "3, 4 5" = Ok [2%nat] /\ node_word "3" 3.
Proof. split; [vm_compute; reflexivity|]. repeat split; try discriminate; try (unfold int_max; vm_compute; discriminate).
  intros c Hc; cbn in Hc; repeat (destruct Hc as [<-|Hc]; [discriminate|]); destruct Hc. Qed.

(** ** All sets of a run *)

(** When the set-up succeeds, the set of every entry whose name contains NODE_SET holds, on
    each processor, exactly those of the nodes of the text that the processor owns. *)
Theorem C40_sets_of_a_processor files rank_deficient params mesh owned m :
  initialize_node_sets files rank_deficient params mesh owned = Ok m ->
  (forall name t, In (name, t) params -> contains "NODE_SET" (tidy name) = true ->
     exists text l set, t = PText text /\ read_text files text = Ok l /\ find_set m (tidy name) = Some set /\
       forall k, In k set <-> In k l /\ In k owned) /\
  (forall name l, In (name, l) mesh -> (rank_deficient = true -> tidy name <> "RANK_DEFICIENT_NODES") ->
     exists set, find_set m (tidy name) = Some set /\ forall k, In k set <-> In k l /\ In k owned).
Proof.
  intros H. split.
  - intros name t I C. destruct (initialize_params _ _ _ _ _ _ H name t I C) as (text & l & E & R & F). exists text, l, (cull owned l).
    repeat (split; [assumption|]). intros k. apply cull_in.
  - intros name l I C. exists (cull owned l). split; [exact (initialize_mesh _ _ _ _ _ _ H name l I C)|]. intros k. apply cull_in.
Qed.
Print Assumptions C40_sets_of_a_processor.

(** Two entries with the same name are rejected. *)
Theorem C40_same_name_twice files rank_deficient ps1 ps2 ps3 e1 e2 mesh owned m :
  contains "NODE_SET" (tidy (fst e1)) = true -> tidy (fst e1) = tidy (fst e2) ->
  initialize_node_sets files rank_deficient (ps1 ++ e1 :: ps2 ++ e2 :: ps3)%list mesh owned <> Ok m.
Proof.
  intros C E H. unfold initialize_node_sets in H.
  destruct (foldM (add_entry files) [] (ps1 ++ e1 :: ps2 ++ e2 :: ps3)%list) as [mm| |] eqn:E0; cbn [bind] in H; try discriminate. clear H.
  apply foldM_app in E0. destruct E0 as (m1 & E1 & H). cbn [foldM] in H.
  destruct (add_entry files m1 e1) as [m2| |] eqn:E2; cbn [bind] in H; try discriminate.
  apply foldM_app in H. destruct H as (m3 & E3 & H). cbn [foldM] in H.
  assert (F : exists l, find_set m2 (tidy (fst e1)) = Some l).
  { unfold add_entry in E2. rewrite C in E2. destruct (find_set m1 (tidy (fst e1))) eqn:Fm; [discriminate|]. destruct (snd e1); [|discriminate].
    destruct (read_text files t) as [l| |]; cbn [bind] in E2; try discriminate. injection E2 as <-. exists l. rewrite find_set_app, Fm. unfold find_set. cbn. now rewrite String.eqb_refl. }
  destruct F as (l & F). assert (F3 : find_set m3 (tidy (fst e1)) = Some l) by (eapply foldM_keeps; [intros; eapply add_entry_keeps; eassumption|exact E3|exact F]).
  unfold add_entry in H at 1. rewrite <- E, C, F3 in H. discriminate.
Qed.
Print Assumptions C40_same_name_twice.
Example C40_sets_case : exists m, initialize_node_sets (fun _ => None) false [("Node Set 1", PText "1 2 3 "); ("Solver", POther)] [("nodelist_1", [2; 5]%nat)] [0; 2; 5]%nat = Ok m
  /\ find_set m (tidy "node set 1") = Some [0; 2; 2]%nat /\ find_set m (tidy "NODELIST_1") = Some [2; 5]%nat.
Proof. eexists. split; [vm_compute; reflexivity|]. split; vm_compute; reflexivity. Qed.
