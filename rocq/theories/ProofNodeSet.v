(** * Proofs for node sets *)
From Coq Require Import String Ascii.
From Verif Require Import Base Num ModelScalar ModelInput SpecInput ProofInput ModelBC SpecBC ProofBC ProofBC2 ModelNodeSet SpecNodeSet.
Local Open Scope string_scope.
Notation las := list_ascii_of_string.

Lemma digit_not_space c : digit c <> None -> is_space c = false.
Proof.
  intros H. destruct (digit c) as [d|] eqn:E; [|easy]. apply digit_range in E. destruct E as [_ E].
  destruct c as [b0 b1 b2 b3 b4 b5 b6 b7]. destruct b0, b1, b2, b3, b4, b5, b6, b7; vm_compute in E; try lia; reflexivity.
Qed.
Lemma digit_not_sign c : digit c <> None -> Ascii.eqb c "-" = false /\ Ascii.eqb c "+" = false.
Proof. intros H. split; apply Ascii.eqb_neq; intros ->; now apply H. Qed.

Lemma skip_white a t : white a -> skip_space (a ++ t) = skip_space t.
Proof.
  induction a as [|c a IH]; intros H; [reflexivity|]. cbn [append skip_space]. rewrite (H c) by now left. apply IH. intros d Hd. apply H. now right.
Qed.

Definition starts_digit (t : string) : Prop := match t with String c _ => digit c <> None | EmptyString => False end.
Lemma digits_from_stop w t : (forall c, In c (las w) -> digit c <> None) -> ~ starts_digit t -> forall acc,
  digits_from acc (w ++ t) = fold_left (fun acc c => (10 * acc + digit_value c)%Z) (las w) acc /\ after_digits (w ++ t) = t.
Proof.
  intros H Ht. induction w as [|c w IH]; intros acc; cbn [append].
  - destruct t as [|c r]; [auto|]. cbn [starts_digit] in Ht. cbn [digits_from after_digits].
    destruct (digit c); [exfalso; apply Ht; discriminate|auto].
  - cbn [digits_from after_digits list_ascii_of_string fold_left]. unfold digit_value at 2.
    destruct (digit c) as [d|] eqn:E; [|exfalso; now apply (H c); [left|]].
    apply IH. intros x Hx. apply H. now right.
Qed.
Lemma extract_word a w t : white a -> numeral w -> ~ starts_digit t ->
  extract (a ++ w ++ t) = if (int_max <? value_of w)%Z then XBig int_max else XInt (value_of w) t.
Proof.
  intros Ha [Hn Hd] Ht. unfold extract. rewrite skip_white by exact Ha. destruct w as [|c w]; [easy|].
  pose proof (Hd c (or_introl eq_refl)) as Hc. cbn [append]. cbn [skip_space]. rewrite (digit_not_space c Hc).
  destruct (digit_not_sign c Hc) as [-> ->]. cbn [read_digits].
  destruct (digits_from_stop w t) with (acc := digit_value c) as [E1 E2]; [intros x Hx; apply Hd; now right|exact Ht|].
  assert (V : value_of (String c w) = digits_from (digit_value c) (w ++ t)).
  { rewrite E1. unfold value_of. cbn [list_ascii_of_string fold_left]. reflexivity. }
  rewrite V. unfold digit_value in *. cbn [after_digits]. destruct (digit c) as [d|] eqn:E; [|easy].
  assert (0 <= digits_from d (w ++ t))%Z.
  { rewrite E1. apply fold_nonneg. apply digit_range in E. lia. }
  destruct (Z.ltb_spec (digits_from d (w ++ t)) int_min) as [L|L]; [unfold int_min in L; lia|]. rewrite E2. reflexivity.
Qed.
Lemma extract_white a : white a -> extract a = XNone.
Proof. intros H. unfold extract. rewrite <- (app_nil_r_s a), skip_white by exact H. reflexivity. Qed.

Lemma white_app a b : white a -> white b -> white (a ++ b).
Proof. intros Ha Hb c Hc. rewrite las_app in Hc. apply in_app_or in Hc. destruct Hc; auto. Qed.
Lemma spelled_lead a s ws : white a -> spelled s ws -> spelled (a ++ s) ws.
Proof.
  intros Ha H. destruct H.
  - apply Sp_none. now apply white_app.
  - rewrite app_assoc_s. apply Sp_last; auto. now apply white_app.
  - rewrite app_assoc_s. apply Sp_word; auto. now apply white_app.
Qed.
Lemma spelled_inv s ws : spelled s ws -> match ws with
  | [] => white s
  | w :: ws' => exists a, white a /\ solid w /\ ((s = a ++ w ++ "" /\ ws' = []) \/
       exists c t, s = a ++ w ++ String c t /\ is_space c = true /\ spelled (String c t) ws')
  end.
Proof.
  intros H. destruct H.
  - exact H. - exists s. split; [exact H|]. split; [exact H0|]. left. now rewrite app_nil_r_s.
  - exists s. split; [exact H|]. split; [exact H0|]. right. exists c, t. split; [reflexivity|]. split; [exact H1|].
    apply (spelled_lead (String c "") t); [intros x [<-|[]]; exact H1|exact H2].
Qed.
Lemma space_not_digit c t : is_space c = true -> ~ starts_digit (String c t).
Proof. intros H X. cbn in X. apply digit_not_space in X. congruence. Qed.

Lemma last_char_app a b : last_char (a ++ b) = match last_char b with Some c => Some c | None => last_char a end.
Proof. induction a as [|c a IH]; cbn [append last_char]; [now destruct (last_char b)|]. rewrite IH. now destruct (last_char b). Qed.
Lemma last_char_in s c : last_char s = Some c -> In c (las s).
Proof.
  revert c; induction s as [|d r IH]; intros c H; [discriminate|]. cbn in *. destruct (last_char r); [right; now apply IH|left; congruence].
Qed.
Lemma last_char_some s : s <> "" -> exists c, last_char s = Some c.
Proof. destruct s as [|c r]; [easy|]. intros _. cbn. destruct (last_char r); eauto. Qed.

Lemma read_list_spec ws ns : Forall2 node_word ws ns -> forall s fuel old, spelled s ws -> (String.length s < fuel)%nat ->
  match ns with
  | [] => read_list fuel old s = match old with None => UB | Some z => if (z <? 1)%Z then Err else Ok [node z] end
  | _ => (~ ends_white s -> read_list fuel old s = Ok (map node ns)) /\
         (ends_white s -> read_list fuel old s = Ok (map node ns ++ [node (last ns 0%Z)])%list)
  end.
Proof.
  induction 1 as [|w n ws ns Hw F IH]; intros s fuel old Sp L; (destruct fuel as [|fuel]; [lia|]).
  - apply spelled_inv in Sp. cbn [read_list]. rewrite extract_white by exact Sp. reflexivity.
  - apply spelled_inv in Sp. destruct Sp as (a & Ha & Hs & [(-> & ->)|(c & t & -> & Hc & Sp)]).
    + inversion F; subst. cbn [read_list]. rewrite extract_word; [|exact Ha|apply Hw|easy].
      destruct Hw as (Hn & V & R). rewrite V. destruct (Z.ltb_spec int_max n); [lia|].
      destruct (Z.ltb_spec n 1); [lia|]. cbn [bind map String.eqb].
      assert (NE : ~ ends_white (a ++ w ++ "")).
      { intros (c & H1 & H2). rewrite app_nil_r_s, last_char_app in H1. destruct Hs as [Hs1 Hs2].
        destruct (last_char_some w Hs1) as (d & Hd). rewrite Hd in H1. injection H1 as ->. apply last_char_in in Hd. rewrite (Hs2 _ Hd) in H2. discriminate. }
      split; [reflexivity|]. intros; easy.
    + cbn [read_list]. rewrite extract_word; [|exact Ha|apply Hw|now apply space_not_digit].
      destruct Hw as (Hn & V & R). rewrite V. destruct (Z.ltb_spec int_max n); [lia|].
      destruct (Z.ltb_spec n 1); [lia|]. cbn [String.eqb].
      assert (Lt : (String.length (String c t) < fuel)%nat).
      { rewrite !length_app_s in L. destruct w; [now destruct Hs|]. cbn [String.length] in *. lia. }
      specialize (IH (String c t) fuel (Some n) Sp Lt).
      assert (EW : ends_white (a ++ w ++ String c t) <-> ends_white (String c t)).
      { unfold ends_white. rewrite !last_char_app. destruct (last_char_some (String c t)) as (d & ->); easy. }
      destruct ns as [|n' ns'].
      * rewrite IH. destruct (Z.ltb_spec n 1); [lia|]. cbn [bind map last app]. split; [|reflexivity].
        intros X. exfalso. apply X. apply EW. inversion F; subst. apply spelled_inv in Sp. destruct (last_char_some (String c t)) as (d & Hd); [easy|].
        exists d. split; [exact Hd|]. apply Sp. now apply last_char_in.
      * destruct IH as [I1 I2]. split; intros X.
        -- rewrite I1 by (intros Y; apply X; now apply EW). reflexivity.
        -- rewrite I2 by now apply EW. reflexivity.
Qed.

(** ** List or file name *)
Lemma all_blank_false s c : In c (las s) -> c <> " "%char -> all_blank s = false.
Proof.
  intros I N. destruct (all_blank s) eqn:E; [|reflexivity]. apply all_blank_spec in E. elim N. now apply E.
Qed.
Lemma drop_blanks_keep x z : ~ blanks x -> drop_blanks (x ++ z) = drop_blanks x ++ z.
Proof.
  induction x as [|c x IH]; intros H; [exfalso; apply H; intros d []|]. cbn [append drop_blanks].
  destruct (Ascii.eqb_spec c " ") as [->|N]; [|reflexivity]. apply IH. intros B. apply H. intros d [<-|Hd]; [reflexivity|now apply B].
Qed.
Lemma drop_trailing_tail z y : ~ blanks y -> drop_trailing (z ++ y) = z ++ drop_trailing y.
Proof.
  intros H. induction z as [|c z IH]; [reflexivity|]. cbn [append drop_trailing].
  destruct (all_blank (String c (z ++ y))) eqn:E; [|now rewrite IH].
  exfalso. apply H. apply all_blank_spec in E. intros d Hd. apply E. right. rewrite las_app. apply in_or_app. now right.
Qed.
Lemma find_first_app set a c b : mem_char c set = true -> find_first_of set (a ++ String c b) <> None.
Proof.
  intros H. induction a as [|d a IH]; cbn [append find_first_of].
  - now rewrite H. - destruct (mem_char d set); [discriminate|]. destruct (find_first_of set (a ++ String c b)); [discriminate|easy].
Qed.
Lemma inner_blank_list s : inner_blank s -> file_name s = "".
Proof.
  intros (x & c & y & -> & Hc & Hx & Hy). unfold file_name, trim.
  assert (E : all_blank (x ++ String c y) = false).
  { destruct (all_blank _) eqn:E; [|reflexivity]. apply all_blank_spec in E. exfalso. apply Hx. intros d Hd. apply E. rewrite las_app. apply in_or_app. now left. }
  rewrite E, drop_blanks_keep by exact Hx.
  replace (drop_blanks x ++ String c y) with ((drop_blanks x ++ String c "") ++ y) by (rewrite <- app_assoc_s; reflexivity).
  rewrite drop_trailing_tail by exact Hy. rewrite <- app_assoc_s. cbn [append].
  destruct (find_first_of _ _) eqn:F; [reflexivity|]. exfalso. revert F. apply find_first_app. destruct Hc as [->| ->]; reflexivity.
Qed.
Lemma white_blanks_drop a z : white a -> exists a', white a' /\ drop_blanks (a ++ z) = a' ++ (if all_blank a then drop_blanks z else z).
Proof.
  induction a as [|c a IH]; intros H; [exists ""; split; [intros d []|reflexivity]|].
  cbn [append drop_blanks all_blank]. destruct (Ascii.eqb_spec c " ") as [->|N].
  - apply IH. intros d Hd. apply H. now right.
  - exists (String c a). split; [exact H|]. reflexivity.
Qed.
Lemma trim_lead a c r : white a -> is_space c = false -> exists a' r', white a' /\ trim (a ++ String c r) = a' ++ String c r'.
Proof.
  intros Ha Hc. assert (N : c <> " "%char) by (intros ->; discriminate).
  unfold trim. rewrite (all_blank_false (a ++ String c r) c); [|rewrite las_app; apply in_or_app; right; now left|exact N].
  destruct (white_blanks_drop a (String c r) Ha) as (a' & Ha' & E). rewrite E.
  assert (D : drop_blanks (String c r) = String c r) by (cbn [drop_blanks]; destruct (Ascii.eqb_spec c " "); easy).
  rewrite D. replace (if all_blank a then String c r else String c r) with (String c r) by now destruct (all_blank a).
  rewrite drop_trailing_tail. 2:{ intros B. apply N. apply B. now left. }
  cbn [drop_trailing]. rewrite (all_blank_false (String c r) c); [|now left|exact N]. exists a', (drop_trailing r). auto.
Qed.
Lemma number_in_ge base s : (1 <= base)%Z -> forall acc, (0 <= acc)%Z -> (acc <= number_in base acc s)%Z.
Proof.
  intros Hb. induction s as [|c r IH]; intros acc Ha; cbn [number_in]; [lia|].
  destruct (digit_in base c) as [d|] eqn:E; [|lia].
  assert (0 <= d)%Z.
  { unfold digit_in in E. repeat match type of E with context [if ?b then _ else _] => destruct b end; try discriminate; injection E as <-; lia. }
  specialize (IH (base * acc + d)%Z). nia.
Qed.
Lemma digit_in_10 c d : digit c = Some d -> digit_in 10 c = Some d.
Proof.
  unfold digit, digit_in. destruct (_ && _)%bool eqn:E; [|discriminate]. intros H; injection H as <-.
  apply andb_true_iff in E. destruct E as [A B]. apply Nat.leb_le in A, B. destruct (Z.ltb_spec (Z.of_nat (nat_of_ascii c - 48)) 10); [reflexivity|lia].
Qed.
Lemma first_digit_list s ws w c r : spelled s (w :: ws) -> w = String c r -> digit c <> None -> c <> "0"%char -> file_name s = "".
Proof.
  intros Sp -> Hd Hz. apply spelled_inv in Sp. destruct Sp as (a & Ha & Hs & X).
  assert (E : exists r', s = a ++ String c r').
  { destruct X as [(-> & _)|(c' & t & -> & _)]; cbn [append]; eauto. }
  destruct E as (r' & ->). destruct (trim_lead a c r' Ha (digit_not_space c Hd)) as (a' & r'' & Ha' & T). unfold file_name. rewrite T.
  destruct (find_first_of _ _); [reflexivity|]. unfold strtol0. rewrite skip_white by exact Ha'. cbn [skip_space].
  rewrite (digit_not_space c Hd). destruct (digit_not_sign c Hd) as [-> ->].
  assert (P : (1 <= number_in 10 0 (String c r''))%Z).
  { cbn [number_in]. destruct (digit c) as [d|] eqn:E; [|easy]. rewrite (digit_in_10 c d E).
    assert (1 <= d)%Z.
    { assert (d <> 0)%Z; [|apply digit_range in E; lia]. intros ->. apply Hz. unfold digit in E. destruct (_ && _)%bool eqn:B; [|discriminate].
      injection E as E. apply andb_true_iff in B. destruct B as [B1 B2]. apply Nat.leb_le in B1, B2.
      assert (N : nat_of_ascii c = 48) by lia. rewrite <- (ascii_nat_embedding c), N. reflexivity. }
    pose proof (number_in_ge 10 r'' ltac:(lia) (10 * 0 + d)%Z ltac:(lia)). lia. }
  assert (U : (match String c r'' with String "0" (String x r) => if (Ascii.eqb x "x" || Ascii.eqb x "X")%bool then number_in 16 0 r else number_in 8 0 (String x r)
     | _ => number_in 10 0 (String c r'') end) = number_in 10 0 (String c r'')).
  { clear -Hz. destruct c as [[] [] [] [] [] [] [] []]; try reflexivity. now elim Hz. }
  rewrite U. destruct (Z.eqb_spec (number_in 10 0 (String c r'')) 0); [lia|]. reflexivity.
Qed.

(** ** Files *)
Lemma lines_from_spec l r cur : one_line l -> lines_from cur (l ++ String "010" r) = (cur ++ l) :: lines_from "" r.
Proof.
  revert cur; induction l as [|c l IH]; intros cur H; cbn [append lines_from].
  - cbn. now rewrite app_nil_r_s.
  - destruct (Ascii.eqb_spec c "010") as [->|N]; [exfalso; apply H; now left|].
    rewrite IH by (intros X; apply H; now right). rewrite <- app_assoc_s. reflexivity.
Qed.
Lemma lines_last l cur : one_line l -> lines_from cur l = [cur ++ l].
Proof.
  revert cur; induction l as [|c l IH]; intros cur H; cbn [lines_from]; [now rewrite app_nil_r_s|].
  destruct (Ascii.eqb_spec c "010") as [->|N]; [exfalso; apply H; now left|].
  rewrite IH by (intros X; apply H; now right). rewrite <- app_assoc_s. reflexivity.
Qed.
Lemma lines_of_file ls : ls <> [] -> Forall one_line ls -> lines (file_of ls) = ls.
Proof.
  intros Hn F. unfold lines. induction F as [|l ls Hl F IH]; [easy|]. destruct ls as [|l2 ls].
  - cbn [file_of]. now rewrite lines_last.
  - change (file_of (l :: l2 :: ls)) with (l ++ String "010" (file_of (l2 :: ls))). rewrite lines_from_spec by exact Hl.
    rewrite IH by discriminate. reflexivity.
Qed.
Lemma words_trail t r cur : white r -> words_from cur (t ++ r) = words_from cur t.
Proof.
  intros H. revert cur; induction t as [|c t IH]; intros cur; cbn [append words_from].
  - induction r as [|c r IHr] in cur, H |- *; [reflexivity|]. cbn [words_from]. rewrite (H c) by now left.
    assert (W : white r) by (intros d Hd; apply H; now right). rewrite (IHr W). cbn [words_from]. now destruct (String.eqb cur "").
  - now rewrite !IH.
Qed.
Lemma blanks_white b : blanks b -> white b.
Proof. intros H c Hc. now rewrite (H c Hc). Qed.
Lemma trim_dec s : exists l r, s = l ++ trim s ++ r /\ blanks l /\ blanks r /\
  (s <> "" -> trim s = "" -> False) .
Proof.
  unfold trim. destruct (all_blank s) eqn:E.
  - exists "", "". rewrite app_nil_r_s. split; [reflexivity|]. split; [intros d []|]. split; [intros d []|]. congruence.
  - destruct (drop_blanks_dec s) as (l & E1 & Hl & N). destruct (drop_trailing_dec (drop_blanks s)) as (r & E2 & Hr).
    exists l, r. rewrite <- E2. split; [exact E1|]. split; [exact Hl|]. split; [exact Hr|]. intros _ Z. rewrite Z in E2. cbn in E2.
    assert (B : blanks s). { rewrite E1, E2. apply blanks_app. auto. } apply all_blank_spec in B. congruence.
Qed.
Lemma trim_spelled s ws : spelled s ws -> spelled (trim s) ws.
Proof.
  intros H. destruct (trim_dec s) as (l & r & E & Hl & Hr & _). apply spelled_words in H. subst ws.
  assert (W : words s = words (trim s)).
  { rewrite E at 1. rewrite words_white by now apply blanks_white. unfold words. rewrite words_trail by now apply blanks_white. reflexivity. }
  rewrite W. apply words_spelled.
Qed.
Lemma read_ints_spec ws ns : Forall2 node_word ws ns -> forall s fuel, spelled s ws -> (String.length s < fuel)%nat -> read_ints fuel s = ns.
Proof.
  induction 1 as [|w n ws ns Hw F IH]; intros s fuel Sp L; (destruct fuel as [|fuel]; [lia|]); apply spelled_inv in Sp; cbn [read_ints].
  - now rewrite extract_white.
  - destruct Sp as (a & Ha & Hs & X). assert (Y : exists t, s = a ++ w ++ t /\ ~ starts_digit t /\ spelled t ws).
    { destruct X as [(-> & ->)|(c & t & -> & Hc & Sp)]; [exists ""|exists (String c t)]; (split; [reflexivity|]); (split; [easy || now apply space_not_digit|]); [|exact Sp].
      apply Sp_none. intros d []. }
    destruct Y as (t & -> & Nd & Sp). rewrite extract_word; [|exact Ha|apply Hw|exact Nd]. destruct Hw as (Hn & V & R). rewrite V.
    destruct (Z.ltb_spec int_max n); [lia|]. f_equal. apply IH; [exact Sp|]. rewrite !length_app_s in L. destruct w; [now destruct Hs|]. cbn [String.length] in L. lia.
Qed.
Lemma first_word_char c r ws : is_space c = false -> spelled (String c r) ws -> exists w' ws', ws = String c w' :: ws'.
Proof.
  intros Hc Sp. apply spelled_inv in Sp. destruct ws as [|w ws].
  - exfalso. rewrite (Sp c) in Hc by now left. discriminate.
  - destruct Sp as (a & Ha & (Hs & _) & X). destruct a as [|d a].
    + destruct w as [|e w]; [easy|]. exists w, ws. destruct X as [(E & _)|(x & t & E & _)]; cbn in E; injection E as -> _; reflexivity.
    + exfalso. assert (d = c) by (destruct X as [(E & _)|(x & t & E & _)]; cbn in E; injection E as -> _; reflexivity). subst d. rewrite (Ha c) in Hc by now left. discriminate.
Qed.
Lemma mapO_nodes ns : Forall (fun n => 1 <= n)%Z ns -> mapO (fun z => if (z <? 1)%Z then Err else Ok (Z.to_nat (z - 1))) ns = Ok (map node ns).
Proof.
  induction 1 as [|n ns Hn F IH]; [reflexivity|]. cbn [mapO map]. destruct (Z.ltb_spec n 1); [lia|]. cbn [bind]. rewrite IH. reflexivity.
Qed.
Lemma read_line_spec l ns : line_lists l ns -> read_line l = Ok (map node ns).
Proof.
  intros [((b & c & r & -> & Hb & Hc) & ->)|(ws & Sp & F)]; unfold read_line.
  - assert (Hs : is_space c = false) by (destruct Hc as [->|[->| ->]]; reflexivity).
    assert (N : c <> " "%char) by (intros ->; discriminate).
    assert (T : exists r', trim (b ++ String c r) = String c r').
    { unfold trim. rewrite (all_blank_false (b ++ String c r) c); [|rewrite las_app; apply in_or_app; right; now left|exact N].
      rewrite drop_blanks_app by exact Hb. cbn [drop_blanks]. destruct (Ascii.eqb_spec c " "); [easy|]. cbn [drop_trailing].
      rewrite (all_blank_false (String c r) c); [eauto|now left|exact N]. }
    destruct T as (r' & ->). destruct Hc as [->|[->| ->]]; reflexivity.
  - pose proof (trim_spelled _ _ Sp) as Sp'. destruct (trim l) as [|c r] eqn:T.
    + apply spelled_words in Sp'. cbn in Sp'. subst ws. inversion F. reflexivity.
    + destruct (Ascii.eqb c "#" || Ascii.eqb c "/" || Ascii.eqb c "*")%bool eqn:E.
      * exfalso. assert (D : digit c = None /\ is_space c = false).
        { rewrite !orb_true_iff, !Ascii.eqb_eq in E. destruct E as [[->| ->]| ->]; split; reflexivity. }
        destruct D as [D1 D2]. destruct (first_word_char c r ws D2 Sp') as (w' & ws' & ->). inversion F as [|? ? ? ? Hw]; subst. destruct Hw as ((_ & Hd) & _).
        apply (Hd c); [now left|exact D1].
      * rewrite (read_ints_spec ws ns F _ _ Sp') by lia. apply mapO_nodes. clear -F. induction F as [|w n ws ns Hw F IH]; constructor; [apply Hw|exact IH].
Qed.
Lemma read_file_spec ls nss : ls <> [] -> Forall one_line ls -> Forall2 line_lists ls nss -> read_file (file_of ls) = Ok (map node (concat nss)).
Proof.
  intros Hn Ho F. unfold read_file. rewrite lines_of_file by assumption.
  assert (E : mapO read_line ls = Ok (map (map node) nss)).
  { clear Hn Ho. induction F as [|l ns ls nss H F IH]; [reflexivity|]. cbn [mapO map]. rewrite (read_line_spec _ _ H). cbn [bind]. rewrite IH. reflexivity. }
  rewrite E. cbn [bind]. f_equal. symmetry. apply concat_map.
Qed.

(** ** All sets *)
Lemma find_set_app m1 m2 n : find_set (m1 ++ m2)%list n = match find_set m1 n with Some l => Some l | None => find_set m2 n end.
Proof.
  unfold find_set. induction m1 as [|e m1 IH]; cbn [app find]; [reflexivity|]. destruct (String.eqb (fst e) n); [reflexivity|exact IH].
Qed.
Lemma add_entry_keeps files m e m' n l : add_entry files m e = Ok m' -> find_set m n = Some l -> find_set m' n = Some l.
Proof.
  unfold add_entry. destruct (contains "NODE_SET" (tidy (fst e))); [|intros H; injection H as <-; auto].
  destruct (find_set m (tidy (fst e))); [discriminate|]. destruct (snd e); [|discriminate].
  destruct (read_text files t); cbn [bind]; try discriminate. intros H; injection H as <-. intros H. rewrite find_set_app, H. reflexivity.
Qed.
Lemma add_mesh_keeps m e m' n l : add_mesh m e = Ok m' -> find_set m n = Some l -> find_set m' n = Some l.
Proof.
  unfold add_mesh. destruct (find_set m (tidy (fst e))); [discriminate|]. intros H; injection H as <-. intros H. rewrite find_set_app, H. reflexivity.
Qed.
Lemma foldM_keeps {A} (f : node_sets -> A -> outcome node_sets) n l : (forall m e m', f m e = Ok m' -> find_set m n = Some l -> find_set m' n = Some l) ->
  forall es m m', foldM f m es = Ok m' -> find_set m n = Some l -> find_set m' n = Some l.
Proof.
  intros K. induction es as [|e es IH]; intros m m' H F; cbn [foldM] in H; [now injection H as <-|].
  destruct (f m e) as [m1| |] eqn:E; cbn [bind] in H; try discriminate. eauto.
Qed.
Lemma sets_from_params files params : forall m m', foldM (add_entry files) m params = Ok m' ->
  forall name t, In (name, t) params -> contains "NODE_SET" (tidy name) = true ->
    exists text l, t = PText text /\ read_text files text = Ok l /\ find_set m' (tidy name) = Some l.
Proof.
  induction params as [|e es IH]; intros m m' H name t I0 C; cbn [foldM] in H; [easy|]. destruct I0 as [->|I].
  - destruct (add_entry files m (name, t)) as [m1| |] eqn:E; cbn [bind] in H; try discriminate. unfold add_entry in E. cbn [fst snd] in E. rewrite C in E.
    destruct (find_set m (tidy name)) eqn:Fm; [discriminate|]. destruct t as [text|]; [|discriminate]. destruct (read_text files text) as [l| |] eqn:R; cbn [bind] in E; try discriminate.
    injection E as <-. exists text, l. split; [reflexivity|]. split; [exact R|].
    eapply foldM_keeps; [intros; eapply add_entry_keeps; eassumption|exact H|]. rewrite find_set_app, Fm. unfold find_set. cbn. now rewrite String.eqb_refl.
  - destruct (add_entry files m e) as [m1| |] eqn:E; cbn [bind] in H; try discriminate. eapply IH; eassumption.
Qed.
Lemma sets_from_mesh mesh : forall m m', foldM add_mesh m mesh = Ok m' ->
  forall name l, In (name, l) mesh -> find_set m' (tidy name) = Some l.
Proof.
  induction mesh as [|e es IH]; intros m m' H name l I0; cbn [foldM] in H; [easy|]. destruct I0 as [->|I].
  - destruct (add_mesh m (name, l)) as [m1| |] eqn:E; cbn [bind] in H; try discriminate. unfold add_mesh in E. cbn [fst snd] in E.
    destruct (find_set m (tidy name)) eqn:Fm; [discriminate|]. injection E as <-.
    eapply foldM_keeps; [intros; eapply add_mesh_keeps; eassumption|exact H|]. rewrite find_set_app, Fm. unfold find_set. cbn. now rewrite String.eqb_refl.
  - destruct (add_mesh m e) as [m1| |] eqn:E; cbn [bind] in H; try discriminate. eapply IH; eassumption.
Qed.
Lemma find_set_cull owned m n : find_set (map (fun e => (fst e, cull owned (snd e))) m) n = option_map (cull owned) (find_set m n).
Proof.
  unfold find_set. induction m as [|e m IH]; [reflexivity|]. cbn [map find fst]. destruct (String.eqb (fst e) n); [reflexivity|exact IH].
Qed.
Lemma find_set_rank m n : n <> "RANK_DEFICIENT_NODES" ->
  find_set (filter (fun e => negb (String.eqb (fst e) "RANK_DEFICIENT_NODES")) m ++ [("RANK_DEFICIENT_NODES", [])])%list n = find_set m n.
Proof.
  intros N. rewrite find_set_app. assert (E : find_set (filter (fun e => negb (String.eqb (fst e) "RANK_DEFICIENT_NODES")) m) n = find_set m n).
  { unfold find_set. induction m as [|e m IH]; [reflexivity|]. cbn [filter find]. destruct (String.eqb_spec (fst e) "RANK_DEFICIENT_NODES") as [X|X]; cbn [negb find].
    - destruct (String.eqb_spec (fst e) n); [congruence|exact IH]. - destruct (String.eqb (fst e) n); [reflexivity|exact IH]. }
  rewrite E. destruct (find_set m n); [reflexivity|]. unfold find_set. cbn [find fst].
  destruct (String.eqb_spec "RANK_DEFICIENT_NODES" n); [congruence|reflexivity].
Qed.
Lemma rank_name : contains "NODE_SET" "RANK_DEFICIENT_NODES" = false. Proof. vm_compute; reflexivity. Qed.
Lemma initialize_params files rd params mesh owned m : initialize_node_sets files rd params mesh owned = Ok m ->
  forall name t, In (name, t) params -> contains "NODE_SET" (tidy name) = true ->
    exists text l, t = PText text /\ read_text files text = Ok l /\ find_set m (tidy name) = Some (cull owned l).
Proof.
  unfold initialize_node_sets. intros H name t I C.
  destruct (foldM (add_entry files) [] params) as [m1| |] eqn:E1; cbn [bind] in H; try discriminate.
  destruct (foldM add_mesh m1 mesh) as [m2| |] eqn:E2; cbn [bind] in H; try discriminate. injection H as <-.
  destruct (sets_from_params _ _ _ _ E1 name t I C) as (text & l & -> & R & F). exists text, l. split; [reflexivity|]. split; [exact R|].
  rewrite find_set_cull. assert (N : tidy name <> "RANK_DEFICIENT_NODES") by (intros X; rewrite X, rank_name in C; discriminate).
  assert (F2 : find_set m2 (tidy name) = Some l) by (eapply foldM_keeps; [intros; eapply add_mesh_keeps; eassumption|exact E2|exact F]).
  destruct rd; [rewrite find_set_rank by exact N|]; rewrite F2; reflexivity.
Qed.
Lemma initialize_mesh files rd params mesh owned m : initialize_node_sets files rd params mesh owned = Ok m ->
  forall name l, In (name, l) mesh -> (rd = true -> tidy name <> "RANK_DEFICIENT_NODES") -> find_set m (tidy name) = Some (cull owned l).
Proof.
  unfold initialize_node_sets. intros H name l I C.
  destruct (foldM (add_entry files) [] params) as [m1| |] eqn:E1; cbn [bind] in H; try discriminate.
  destruct (foldM add_mesh m1 mesh) as [m2| |] eqn:E2; cbn [bind] in H; try discriminate. injection H as <-.
  rewrite find_set_cull. pose proof (sets_from_mesh _ _ _ E2 name l I) as F2.
  destruct rd; [rewrite find_set_rank by now apply C|]; rewrite F2; reflexivity.
Qed.
