(** * C47 restart time, and the text of a numeric horizon (C42) *)
From Coq Require Import SpecFloat Reals Lra String.
From Verif Require Import Base Num ModelScalar ModelInput ModelPrint SpecPrint ProofInput ProofPrint.
Local Open Scope Z_scope.

(** ** C47 *)
(** The text written is a decimal of six digits nearest to the time. *)
Theorem C47_written_text_is_nearest_six_digits : forall m e, is_double m e ->
  exists M X, print 6 (S754_finite false m e) = TDec false M X /\ digits 6 M /\
    (Rabs (decimal_value 6 M X - double_value m e) <= 1 / 2 * pow10 (X - 5))%R.
Proof.
  intros m e D. pose proof (print_pos_shape 6 m e D ltac:(lia)) as H. cbn [print].
  destruct (print_pos 6 (numerator m e) (denominator e)) as [M X]. exists M, X. destruct H as [H1 H2]. auto.
Qed.
Print Assumptions C47_written_text_is_nearest_six_digits.

(** Accepted: a time that is what the reader makes of a decimal of at most six digits (the
    reader being accurate to 1/25 of the last digit there).  Missing for the full claim:
    all other times, see the next theorems. *)
Theorem C47_six_digit_times_are_accepted_partial : forall (parse : text -> FN) current initial final m e M X,
  written_time current initial final = S754_finite false m e -> is_double m e ->
  parse (TDec false M X) = S754_finite false m e ->
  digits 6 M -> (Rabs (double_value m e - decimal_value 6 M X) <= 1 / 25 * pow10 (X - 5))%R ->
  read_restart parse (written_text current initial final) (written_time current initial final)
    = Ok (written_time current initial final).
Proof.
  intros parse current initial final m e M X W D HP HM HC. unfold written_text, read_restart. rewrite W. cbn [print].
  rewrite (print_pos_close m e M X D HM HC). rewrite HP. rewrite eqb_refl by discriminate. reflexivity.
Qed.
Print Assumptions C47_six_digit_times_are_accepted_partial.

(** Whatever the reader, of all times with the same six digits at most one is accepted. *)
Theorem C47_at_most_one_time_per_text : forall (parse : text -> FN) m e m' e' v v',
  print 6 (S754_finite false m e) = print 6 (S754_finite false m' e') ->
  read_restart parse (print 6 (S754_finite false m e)) (S754_finite false m e) = Ok v ->
  read_restart parse (print 6 (S754_finite false m' e')) (S754_finite false m' e') = Ok v' ->
  m = m' /\ e = e'.
Proof.
  intros parse m e m' e' v v' E H H'. rewrite <- E in H'. unfold read_restart in H, H'.
  destruct (eqb (n:=FN) (parse (print 6 (S754_finite false m e))) (S754_finite false m e)) eqn:A; [|discriminate].
  destruct (eqb (n:=FN) (parse (print 6 (S754_finite false m e))) (S754_finite false m' e')) eqn:B; [|discriminate].
  destruct (eqb_two _ _ _ _ _ A B). auto.
Qed.
Print Assumptions C47_at_most_one_time_per_text.

Definition one_f : spec_float := S754_finite false 4503599627370496 (-52).
(** 1.0000001 *)
Definition one_and_a_bit : spec_float := S754_finite false 4503600077730459 (-52).
Lemma same_text : print 6 one_f = print 6 one_and_a_bit.
Proof. vm_compute. reflexivity. Qed.
Definition zero_f : spec_float := S754_zero false.
Lemma written_one : @eq spec_float (written_time zero_f zero_f one_f) one_f.
Proof. vm_compute. reflexivity. Qed.
Lemma written_bit : @eq spec_float (written_time zero_f zero_f one_and_a_bit) one_and_a_bit.
Proof. vm_compute. reflexivity. Qed.

(** The claim for every time fails for every reader: one of two runs from time 0, ending at
    1.0 and at 1.0000001, cannot be restarted at the time at which it ended. *)
Theorem C47_every_time_refuted : forall parse : text -> FN,
  exists final : FN, final <> S754_nan /\
    read_restart parse (written_text zero_f zero_f final) (written_time zero_f zero_f final) = Err /\
    written_time zero_f zero_f final = final.
Proof.
  intros parse.
  destruct (read_restart parse (print 6 one_f) one_f) as [v| |] eqn:A.
  - exists one_and_a_bit. split; [discriminate|]. split; [|exact written_bit].
    unfold written_text. etransitivity; [exact (f_equal (fun t => read_restart parse (print 6 t) t) written_bit)|].
    destruct (read_restart parse (print 6 one_and_a_bit) one_and_a_bit) as [v'| |] eqn:B; [|reflexivity|].
    + destruct (C47_at_most_one_time_per_text parse _ _ _ _ _ _ same_text A B) as [Q _]. discriminate Q.
    + unfold read_restart in B. destruct (eqb _ _) in B; discriminate.
  - exists one_f. split; [discriminate|]. split; [|exact written_one].
    unfold written_text. etransitivity; [exact (f_equal (fun t => read_restart parse (print 6 t) t) written_one)|]. exact A.
  - unfold read_restart in A. destruct (eqb _ _) in A; discriminate.
Qed.
Print Assumptions C47_every_time_refuted.

(** 0.001 is accepted: 4611686018427388 * 2^-62 is the double read for "0.001". *)
Definition milli : spec_float := S754_finite false 4611686018427388 (-62).
Lemma written_milli : @eq spec_float (written_time zero_f zero_f milli) milli.
Proof. vm_compute. reflexivity. Qed.
Lemma milli_close :
  (Rabs (double_value 4611686018427388 (-62) - decimal_value 6 100000 (-3)) <= 1 / 25 * pow10 (-3 - 5))%R.
Proof.
  unfold double_value, decimal_value. change (-3 - (6 - 1)) with (Z.opp 8). change (-3 - 5) with (Z.opp 8).
  rewrite pow10_neg, (pow10_IZR 8) by lia. change (-62) with (Z.opp 62). rewrite powerRZ_neg', (powerRZ_IZR 2) by lia.
  change (10 ^ 8) with 100000000. change (2 ^ 62) with 4611686018427387904. apply Rabs_le. lra.
Qed.
Example C47_ex : read_restart (fun _ => milli : FN) (written_text zero_f zero_f milli) (written_time zero_f zero_f milli)
    = Ok (written_time zero_f zero_f milli).
Proof.
  apply (C47_six_digit_times_are_accepted_partial _ _ _ _ 4611686018427388 (-62) 100000 (-3)).
  - exact written_milli.
  - split; lia.
  - reflexivity.
  - split; lia.
  - exact milli_close.
Qed.

Lemma two_values_gen (o : outcome spec_float) e m m' : m <> m' -> o <> Ok (S754_finite false m e) \/ o <> Ok (S754_finite false m' e).
Proof.
  intros N. destruct o as [v| |]; [|left; discriminate|left; discriminate].
  destruct v as [s|s| |s a b]; try (left; discriminate).
  destruct (Pos.eq_dec a m) as [->|A]; [right|left]; intros H; injection H; congruence.
Qed.
Lemma two_values o : o <> Ok (S754_finite false 5404319552844595 (-54)) \/ o <> Ok (S754_finite false 5404319552844596 (-54)).
Proof. apply two_values_gen. discriminate. Qed.

(** ** C42: a numeric horizon goes through a text of 16 digits *)
(** Peridigm_HorizonManager.cpp:83-86 writes the number with 16 digits into the text that
    is evaluated later.  Whatever the layout of the text and the evaluator, some constant
    horizon is evaluated to a different number. *)
Theorem C42_constant_horizon_is_not_exact_refuted : forall (render : text -> string) (run : string -> V3 FN -> option FN),
  exists m e h, is_double m e /\
    load_horizons (N:=FN) (fun x => render (print 16 x)) hz_empty
      [{| bp_horizon := HNumber (N:=FN) (S754_finite false m e); bp_names := Some "b"%string |}] = Ok h /\
    constant_value run h "b" <> Ok (S754_finite false m e : FN).
Proof.
  intros render run.
  assert (E : print 16 (S754_finite false 5404319552844595 (-54)) = print 16 (S754_finite false 5404319552844596 (-54)))
    by (vm_compute; reflexivity).
  assert (L : exists h, forall m, print 16 (S754_finite false m (-54)) = print 16 (S754_finite false 5404319552844595 (-54)) ->
     load_horizons (N:=FN) (fun x => render (print 16 x)) hz_empty
      [{| bp_horizon := HNumber (N:=FN) (S754_finite false m (-54)); bp_names := Some "b"%string |}] = Ok h).
  { eexists. intros m Hm. unfold load_horizons, foldM, load_one. cbn [bp_horizon bp_names]. rewrite Hm. reflexivity. }
  destruct L as [h L].
  assert (D : constant_value run h "b" <> Ok (S754_finite false 5404319552844595 (-54) : FN) \/
              constant_value run h "b" <> Ok (S754_finite false 5404319552844596 (-54) : FN)).
  { apply two_values. }
  destruct D as [D|D].
  - exists 5404319552844595%positive, (-54), h. split; [split; lia|]. split; [apply L; reflexivity|exact D].
  - exists 5404319552844596%positive, (-54), h. split; [split; lia|]. split; [apply L; now symmetry|exact D].
Qed.
Print Assumptions C42_constant_horizon_is_not_exact_refuted.
