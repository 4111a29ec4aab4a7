(** * C34 load stepping of the quasi-static solver *)
From Coq Require Import Reals Lra SpecFloat.
From Verif Require Import Base Num ModelScalar ModelQuasi SpecQuasi ProofQuasi ProofQuasi2.
Local Open Scope R_scope.

Lemma exec_inv (solve : nat -> RN * RN) ad (t0 : R) todo fuel r : execute_quasi_static (N:=RN) solve ad (t0 :: todo) fuel = Ok (Some r) -> increasing (t0 :: todo) ->
  let s := Build_qstate (N:=RN) todo t0 t0 false 0 0 false 0 [] in
  qs_loop solve ad (last todo t0) fuel s = Some r /\ inv solve ad t0 s /\ base ad s = t0.
Proof.
  intros H I s. unfold execute_quasi_static in H. destruct (match ad with Some _ => _ | None => _ end); [discriminate|]. injection H as H. split; [exact H|].
  assert (B : base ad s = t0) by (unfold base; destruct ad; reflexivity). split; [|exact B]. unfold inv. rewrite B. cbn. auto.
Qed.

(** Whatever the solver does, the loop ends, in both modes. *)
Theorem C34_attempts_end : forall (solve : nat -> RN * RN) ad (steps : list R), steps <> [] -> increasing steps ->
  (forall a, ad = Some a -> (max_in_step a <= max_total a)%Z) -> exists r, stops_with solve ad steps r.
Proof.
  intros solve ad steps Ne I Ha. destruct steps as [|t0 todo]; [easy|].
  set (s := Build_qstate (N:=RN) todo t0 t0 false 0 0 false 0 []).
  assert (B : base ad s = t0) by (unfold base; destruct ad; reflexivity).
  assert (Is : inv solve ad t0 s) by (unfold inv; rewrite B; cbn; auto).
  destruct (loop_stops solve ad (last todo t0) t0 _ _ _ s eq_refl eq_refl eq_refl Is) as (n & r & H).
  exists r, n. intros fuel L. unfold execute_quasi_static.
  replace (match ad with Some a => (max_total a <? max_in_step a)%Z | None => false end) with false.
  - f_equal. exact (loop_mono solve ad (last todo t0) n fuel s r H L).
  - destruct ad as [a|]; [|reflexivity]. symmetry. apply Z.ltb_ge. now apply Ha.
Qed.
Print Assumptions C34_attempts_end.

(** Each attempt is accepted or counts as a failure, and failures are limited. *)
Theorem C34_number_of_attempts : forall (solve : nat -> RN * RN) ad (steps : list R) fuel e n acc, increasing steps ->
  execute_quasi_static (N:=RN) solve ad steps fuel = Ok (Some (e, n, acc)) ->
  (length acc <= n)%nat /\ (Z.of_nat n <= Z.of_nat (length acc) + match ad with Some a => Z.max 0 (max_total a) | None => 0 end + 1)%Z /\
  (e = Finished -> (Z.of_nat n <= Z.of_nat (length acc) + match ad with Some a => Z.max 0 (max_total a) | None => 0 end)%Z).
Proof.
  intros solve ad steps fuel e n acc I H. destruct steps as [|t0 todo]; [discriminate|].
  destruct (exec_inv solve ad t0 todo fuel _ H I) as (L & Is & B).
  pose proof (loop_ind solve ad (last todo t0) t0 (counted ad) (fun r => let '(e, n, acc) := r in (length acc <= n)%nat /\
    (Z.of_nat n <= Z.of_nat (length acc) + match ad with Some a => Z.max 0 (max_total a) | None => 0 end + 1)%Z /\
    (e = Finished -> (Z.of_nat n <= Z.of_nat (length acc) + match ad with Some a => Z.max 0 (max_total a) | None => 0 end)%Z))) as K.
  refine (K _ _ _ _ _ fuel _ _ Is _ L); clear K.
  - intros s f t rest td _ C _ _ _. now apply counted_accept.
  - intros s t rest a _ C _ _ Ea T _. now apply counted_halve with (a := a).
  - intros s _ (C1 & C2 & C3) _. repeat split; lia.
  - intros s t rest _ (C1 & C2 & C3) _ _ Ea. rewrite Ea in *. repeat split; try discriminate; lia.
  - intros s t rest a _ (C1 & C2 & C3) _ _ Ea _. rewrite Ea in *. split; [lia|]. split; [lia|]. destruct (switch_to_explicit a); discriminate.
  - unfold counted. cbn. destruct ad; cbn; lia.
Qed.
Print Assumptions C34_number_of_attempts.

(** The accepted steps cover the time from the initial one without gaps and strictly
    forward, in both modes and however the run ends; each was solved; and the explicit solver
    takes over where the last one ended. *)
Theorem C34_steps_without_gaps : forall (solve : nat -> RN * RN) ad (t0 : R) todo fuel e n acc, increasing (t0 :: todo) ->
  execute_quasi_static (N:=RN) solve ad (t0 :: todo) fuel = Ok (Some (e, n, acc)) ->
  exists tl, covers t0 acc tl /\ Forall (fun a => solved solve (ls_attempt a)) acc /\ (forall t, e = Switched (t : T RN) -> t = tl).
Proof.
  intros solve ad t0 todo fuel e n acc I H. destruct (exec_inv solve ad t0 todo fuel _ H I) as (L & Is & B).
  pose proof (loop_ind solve ad (last todo t0) t0 (fun _ => True) (fun r => let '(e, n, acc) := r in
    exists tl, covers t0 acc tl /\ Forall (fun a => solved solve (ls_attempt a)) acc /\ (forall t, e = Switched (t : T RN) -> t = tl))) as K.
  refine (K _ _ _ _ _ fuel _ _ Is Logic.I L); clear K; auto.
  - intros s (_ & C & F & _) _ _. exists (base ad s). split; [exact C|]. split; [exact F|discriminate].
  - intros s t rest (_ & C & F & _) _ _ _ _. exists (base ad s). split; [exact C|]. split; [exact F|discriminate].
  - intros s t rest a (_ & C & F & _) _ _ _ Ea _. exists (base ad s). split; [exact C|]. split; [exact F|].
    destruct (switch_to_explicit a); [|discriminate]. intros t' E. now injection E.
Qed.
Print Assumptions C34_steps_without_gaps.

(** Without "Reduce all remaining load steps": every accepted step ends at a scheduled time
    or at a dyadic subdivision of a scheduled step, and a finished run has visited every
    scheduled time and ends exactly at the last. *)
Theorem C34_schedule_kept : forall (solve : nat -> RN * RN) ad (t0 : R) todo fuel e n acc,
  (forall a, ad = Some a -> reduce_all a = false) -> todo <> [] -> increasing (t0 :: todo) ->
  execute_quasi_static (N:=RN) solve ad (t0 :: todo) fuel = Ok (Some (e, n, acc)) ->
  Forall (fun a : load_step RN => subdivides (t0 :: todo) (ls_to a)) acc /\
  (e = Finished -> covers t0 acc (last todo t0) /\ forall t, In t (t0 :: todo) -> t = t0 \/ exists a, In a acc /\ ls_to a = t).
Proof.
  intros solve ad t0 todo fuel e n acc Hm Ne I H. destruct (exec_inv solve ad t0 todo fuel _ H I) as (L & Is & B).
  pose proof (loop_ind solve ad (last todo t0) t0 (sched ad t0 todo) (fun r => let '(e, n, acc) := r in
    Forall (fun a : load_step RN => subdivides (t0 :: todo) (ls_to a)) acc /\
    (e = Finished -> covers t0 acc (last todo t0) /\ forall t, In t (t0 :: todo) -> t = t0 \/ exists a, In a acc /\ ls_to a = t))) as K.
  refine (K _ _ _ _ _ fuel _ _ Is _ L); clear K.
  - intros s f t rest td. now apply sched_accept.
  - intros s t rest a Is' P Et _ Ea _ _. now apply sched_halve with (solve := solve) (a := a).
  - intros s Is' P Et. split; [apply P|]. intros _. destruct (sched_end solve ad t0 todo s Is' P Et) as (E1 & E2).
    split; [|exact E2]. destruct Is' as (_ & C & _). rewrite E1 in C. exact C.
  - intros s t rest _ P _ _ _. split; [apply P|discriminate].
  - intros s t rest a _ P _ _ _ _. split; [apply P|]. destruct (switch_to_explicit a); discriminate.
  - split; [constructor|]. destruct todo as [|t1 todo]; [easy|]. exists O, t0, t1, []. split; [reflexivity|]. split; [now left|]. split; [reflexivity|].
    split; [split; [rewrite B; apply dyadic_left|constructor]|]. intros [|j] t Lj Hj; [injection Hj as ->; now left|lia].
Qed.
Print Assumptions C34_schedule_kept.

(** When no attempt fails, in either mode, the accepted steps are the scheduled ones. *)
Theorem C34_no_failures : forall (solve : nat -> RN * RN) ad (t0 : R) todo, (forall k, solved solve k) ->
  (forall a, ad = Some a -> (max_in_step a <= max_total a)%Z) ->
  stops_with solve ad (t0 :: todo) (Finished, length todo, as_scheduled 0 t0 todo).
Proof.
  intros solve ad t0 todo H Ha. exists (S (length todo)). intros fuel L. unfold execute_quasi_static.
  replace (match ad with Some a => (max_total a <? max_in_step a)%Z | None => false end) with false.
  - f_equal. exact (loop_mono solve ad (last todo t0) (S (length todo)) fuel _ _ (all_solved solve ad (last todo t0) H todo t0 0 []) L).
  - destruct ad as [a|]; [|reflexivity]. symmetry. apply Z.ltb_ge. now apply Ha.
Qed.
Print Assumptions C34_no_failures.

(** With "Reduce all remaining load steps": a finished run ends at or beyond the final time;
    no accepted step starts there, so it goes beyond it by less than its last step. *)
Theorem C34_reduced_steps_reach_the_end : forall (solve : nat -> RN * RN) a (t0 : R) todo fuel e n acc,
  reduce_all a = true -> increasing (t0 :: todo) ->
  execute_quasi_static (N:=RN) solve (Some a) (t0 :: todo) fuel = Ok (Some (e, n, acc)) ->
  Forall (fun s : load_step RN => ls_from s < last todo t0) acc /\
  (e = Finished -> exists tl, covers t0 acc tl /\ last todo t0 <= tl).
Proof.
  intros solve a t0 todo fuel e n acc Hm I H. destruct (exec_inv solve (Some a) t0 todo fuel _ H I) as (L & Is & B).
  pose proof (loop_ind solve (Some a) (last todo t0) t0 (ahead a (last todo t0)) (fun r => let '(e, n, acc) := r in
    Forall (fun s : load_step RN => ls_from s < last todo t0) acc /\ (e = Finished -> exists tl, covers t0 acc tl /\ last todo t0 <= tl))) as K.
  refine (K _ _ _ _ _ fuel _ _ Is _ L); clear K.
  - intros s f t rest td. now apply ahead_accept.
  - intros s t rest a' Is' P Et _ Ea _ _. now apply ahead_halve with (solve := solve) (t0 := t0).
  - intros s (_ & C & _) (P1 & P2 & P3) Et. split; [exact P3|]. intros _. exists (base (Some a) s). split; [exact C|]. rewrite Et in P1. exact P1.
  - intros s t rest _ (_ & _ & P3) _ _ Ea. discriminate.
  - intros s t rest a' _ (_ & _ & P3) _ _ _ _. split; [exact P3|]. destruct (switch_to_explicit a'); discriminate.
  - unfold ahead. rewrite B. cbn [q_todo q_conv q_done]. split; [apply Rle_refl|]. split; [|constructor]. apply increasing_before; [exact I|apply Rle_refl].
Qed.
Print Assumptions C34_reduced_steps_reach_the_end.

(** In that mode a finished run need not end at the final time: for every step size h and
    remainder r below it, a schedule 0, 2h, 2h + r whose first attempt fails ends at 3h. *)
Theorem C34_final_time_refuted : forall (solve : nat -> RN * RN) a (h r : R), 0 < r < h -> reduce_all a = true ->
  (1 <= max_in_step a <= max_total a)%Z -> ~ solved solve 0 -> (forall k, (0 < k)%nat -> solved solve k) ->
  stops_with solve (Some a) [0; 2 * h; 2 * h + r]
    (Finished, 4%nat, [Build_load_step (N:=RN) 1 0 h; Build_load_step (N:=RN) 2 h (2 * h); Build_load_step (N:=RN) 3 (2 * h) (3 * h)]).
Proof.
  intros solve a h r (Hr1 & Hr2) Hm (Ha1 & Ha2) Hf Hs.
  assert (Ok_ : forall k, (0 < k)%nat -> acceptable (N:=RN) (fst (solve k)) (snd (solve k)) = true) by (intros k Hk; apply acceptable_true; now apply Hs).
  assert (No : acceptable (N:=RN) (fst (solve 0%nat)) (snd (solve 0%nat)) = false).
  { destruct (acceptable (N:=RN) (fst (solve 0%nat)) (snd (solve 0%nat))) eqn:E; [|reflexivity]. exfalso. apply Hf. now apply acceptable_true in E. }
  set (final := 2 * h + r).
  assert (Lt : forall (x y : R), x < y -> ltb (n:=RN) x y = true) by (intros; now apply Rltb_true).
  assert (Ge : forall (x y : R), y <= x -> ltb (n:=RN) x y = false) by (intros; now apply Rltb_false).
  assert (A : same_step_again (N:=RN) 6 h h final h 0 = Some [2 * h; 3 * h]).
  { cbn [same_step_again]. rewrite Lt by (unfold final; lra). cbv zeta.
    match goal with |- match (if ltb ?e _ then _ else _) with _ => _ end = _ => replace e with (2 * h : T RN) by (change (2 * h = h + IZR 1 * h :> R); ring) end.
    rewrite Lt by (unfold final; lra).
    match goal with |- match match (if ltb ?e _ then _ else _) with _ => _ end with _ => _ end = _ => replace e with (3 * h : T RN) by (change (3 * h = h + IZR 2 * h :> R); ring) end.
    rewrite Ge by (unfold final; lra). reflexivity. }
  exists 7%nat. intros fuel Lf. unfold execute_quasi_static.
  replace (max_total a <? max_in_step a)%Z with false by (symmetry; apply Z.ltb_ge; lia). f_equal. cbn [last]. fold final.
  apply (loop_mono solve (Some a) final 7); [|exact Lf].
  rewrite loop_unfold. cbn [q_todo q_attempt]. rewrite No. cbn [q_total q_here].
  replace ((max_total a <? 0 + 1)%Z || (max_in_step a <? 0 + 1)%Z)%bool with false by (symmetry; apply orb_false_iff; split; apply Z.ltb_ge; lia).
  unfold halve_next, base at 1 2 3. cbn [q_failed q_cur q_here q_total q_attempt q_done].
  replace (0 + (2 * h - 0) / 2) with h by field.
  rewrite loop_unfold. cbn [q_todo q_attempt]. rewrite (Ok_ 1%nat) by lia. unfold next_todo at 1. cbn [q_conv]. rewrite Hm. cbn [andb].
  unfold base at 1. cbn [q_failed q_prev]. rewrite Rminus_0_r. rewrite A.
  unfold accept_next, base at 1 2. cbn [q_failed q_cur q_here q_total q_attempt q_done q_prev app].
  rewrite loop_unfold. cbn [q_todo q_attempt]. rewrite (Ok_ 2%nat) by lia. unfold next_todo at 1. cbn [q_conv]. rewrite andb_false_r.
  unfold accept_next, base at 1 2. cbn [q_failed q_cur q_here q_total q_attempt q_done q_prev app].
  rewrite loop_unfold. cbn [q_todo q_attempt]. rewrite (Ok_ 3%nat) by lia. unfold next_todo at 1. cbn [q_conv]. rewrite andb_false_r.
  unfold accept_next, base at 1 2. cbn [q_failed q_cur q_here q_total q_attempt q_done q_prev app].
  rewrite loop_unfold. cbn [q_todo]. reflexivity.
Qed.
Print Assumptions C34_final_time_refuted.

(** A run that gives up reports no error: after its start it always returns normally. *)
Theorem C34_failure_is_not_an_error_refuted : forall (N : Num) (solve : nat -> N * N) ad t0 todo fuel,
  (forall a, ad = Some a -> (max_in_step a <= max_total a)%Z) ->
  exists r, execute_quasi_static solve ad (t0 :: todo) fuel = Ok r.
Proof.
  intros N solve ad t0 todo fuel Ha. unfold execute_quasi_static.
  replace (match ad with Some a => (max_total a <? max_in_step a)%Z | None => false end) with false; [eauto|].
  destruct ad as [a|]; [|reflexivity]. symmetry. apply Z.ltb_ge. now apply Ha.
Qed.
Print Assumptions C34_failure_is_not_an_error_refuted.

(** A residual up to 100 times the tolerance is accepted. *)
Theorem C34_tolerance_refuted : forall (solve : nat -> RN * RN) ad (t0 t1 : R), t0 < t1 ->
  (forall a, ad = Some a -> (max_in_step a <= max_total a)%Z) ->
  (forall k, snd (solve k) < fst (solve k) < 100 * snd (solve k)) ->
  stops_with solve ad [t0; t1] (Finished, 1%nat, [Build_load_step (N:=RN) 0 t0 t1]).
Proof. intros solve ad t0 t1 L Ha Hk. apply (C34_no_failures solve ad t0 [t1]); [|exact Ha]. intros k. right. apply Hk. Qed.
Print Assumptions C34_tolerance_refuted.

(** The schedule made from two times and a number of steps is increasing, has that many
    steps of equal size, and ends at the final time. *)
Theorem C34_uniform_schedule : forall (ti tf : R) n, ti < tf -> (0 < n)%nat ->
  let l := uniform_steps (N:=RN) ti tf n in
  length l = S n /\ hd 0 l = ti /\ last l 0 = tf /\ increasing l /\
  forall i, (i <= n)%nat -> nth_error l i = Some (ti + INR i * ((tf - ti) / INR n)).
Proof.
  intros ti tf n L Hn l.
  assert (P : 0 < INR n) by (apply lt_0_INR; lia).
  assert (E : forall i, (i <= n)%nat -> nth_error l i = Some (ti + INR i * ((tf - ti) / INR n))).
  { intros [|i] Hi; [change (nth_error l 0) with (Some ti); rewrite Rmult_0_l, Rplus_0_r; reflexivity|].
    unfold l, uniform_steps. cbn [nth_error]. rewrite nth_error_map.
    replace (nth_error (seq 0 n) i) with (Some i) by (symmetry; rewrite (nth_error_nth' _ O) by (rewrite seq_length; lia); now rewrite seq_nth by lia).
    cbn [option_map]. f_equal. change (ti + IZR (Z.of_nat (S i)) * (tf - ti) / IZR (Z.of_nat n) = ti + INR (S i) * ((tf - ti) / INR n) :> R).
    rewrite <- !INR_IZR_INZ. field. lra. }
  assert (Len : length l = S n) by (unfold l, uniform_steps; cbn [length]; now rewrite map_length, seq_length).
  split; [exact Len|]. split; [reflexivity|].
  assert (Inc : forall (l : list R) a d, 0 < d -> (forall i, (i < length l)%nat -> nth_error l i = Some (a + INR i * d)) -> increasing l).
  { clear. induction l as [|x l IH]; intros a d Hd H; [exact I|]. destruct l as [|y l]; [exact I|].
    pose proof (H 0%nat ltac:(cbn; lia)) as H0. pose proof (H 1%nat ltac:(cbn; lia)) as H1. cbn in H0, H1. injection H0 as ->. injection H1 as ->.
    split; [lra|]. apply (IH (a + d) d Hd). intros i Hi. specialize (H (S i) ltac:(cbn in *; lia)). cbn [nth_error] in H. rewrite H. f_equal. rewrite S_INR. ring. }
  split; [|split; [|exact E]].
  - rewrite (last_nth l n tf 0); [reflexivity| |].
    + assert (Z : ti + INR n * ((tf - ti) / INR n) = tf) by (field; lra). rewrite (E n) by lia. now rewrite Z.
    + apply skipn_all2. rewrite Len. lia.
  - apply (Inc l ti ((tf - ti) / INR n)); [apply Rdiv_lt_0_compat; lra|]. intros i Hi. apply E. apply Nat.lt_succ_r. rewrite <- Len. exact Hi.
Qed.
Print Assumptions C34_uniform_schedule.

(** In double precision it can end beyond the final time: three steps from 0 to 0.05. *)
Theorem C34_uniform_schedule_binary64_refuted :
  match uniform_steps (N:=FN) (S754_zero false) (S754_finite false 7205759403792794 (-57)) 3 with
  | [_; _; _; t] => SFltb (S754_finite false 7205759403792794 (-57)) t
  | _ => false
  end = true.
Proof. vm_compute. reflexivity. Qed.
Print Assumptions C34_uniform_schedule_binary64_refuted.

(** *** Concrete cases *)
(** The second attempt fails: steps 0 to 1, then 1 to 2 halved, then on to 3. *)
Definition second_fails (k : nat) : RN * RN := if Nat.eqb k 1 then (1000, 1) else (0, 1).
Definition two_failures (reduce : bool) : adaptive := {| max_in_step := 1; max_total := 2; reduce_all := reduce; switch_to_explicit := false |}.
Example C34_case : stops_with second_fails (Some (two_failures false)) [0; 1; 2; 3]
  (Finished, 5%nat, [Build_load_step (N:=RN) 0 0 1; Build_load_step (N:=RN) 2 1 (1 + (2 - 1) / 2); Build_load_step (N:=RN) 3 (1 + (2 - 1) / 2) 2; Build_load_step (N:=RN) 4 2 3]).
Proof.
  assert (Y : forall k, k <> 1%nat -> acceptable (N:=RN) (fst (second_fails k)) (snd (second_fails k)) = true).
  { intros k Hk. apply acceptable_true. unfold second_fails. apply Nat.eqb_neq in Hk. rewrite Hk. cbn. left; lra. }
  assert (No : acceptable (N:=RN) (fst (second_fails 1)) (snd (second_fails 1)) = false).
  { destruct (acceptable _ _) eqn:E; [|reflexivity]. apply acceptable_true in E. cbn in E. lra. }
  exists 6%nat. intros fuel L. unfold execute_quasi_static. cbn [two_failures max_total max_in_step Z.ltb Z.compare Pos.compare Pos.compare_cont]. f_equal.
  apply (loop_mono second_fails _ _ 6); [|exact L].
  rewrite loop_unfold. cbn [q_todo q_attempt]. rewrite (Y 0%nat) by discriminate. unfold next_todo at 1. cbn [two_failures reduce_all andb].
  unfold accept_next, base at 1 2. cbn [q_failed q_cur q_here q_total q_attempt q_done q_prev app].
  rewrite loop_unfold. cbn [q_todo q_attempt]. rewrite No. cbn [two_failures max_total max_in_step q_total q_here Z.add Pos.add Z.ltb Z.compare Pos.compare Pos.compare_cont orb].
  unfold halve_next, base at 1 2 3. cbn [q_failed q_cur q_here q_total q_attempt q_done].
  rewrite loop_unfold. cbn [q_todo q_attempt]. rewrite (Y 2%nat) by discriminate. unfold next_todo at 1. cbn [two_failures reduce_all andb].
  unfold accept_next, base at 1 2. cbn [q_failed q_cur q_here q_total q_attempt q_done q_prev app].
  rewrite loop_unfold. cbn [q_todo q_attempt]. rewrite (Y 3%nat) by discriminate. unfold next_todo at 1. cbn [two_failures reduce_all andb].
  unfold accept_next, base at 1 2. cbn [q_failed q_cur q_here q_total q_attempt q_done q_prev app].
  rewrite loop_unfold. cbn [q_todo q_attempt]. rewrite (Y 4%nat) by discriminate. unfold next_todo at 1. cbn [two_failures reduce_all andb].
  unfold accept_next, base at 1 2. cbn [q_failed q_cur q_here q_total q_attempt q_done q_prev app].
  rewrite loop_unfold. cbn [q_todo]. reflexivity.
Qed.
(** The hypotheses of the refutation are met. *)
Example C34_final_time_case : stops_with (fun k => if Nat.eqb k 0 then (1000, 1) else (0, 1)) (Some (two_failures true)) [0; 2 * 2; 2 * 2 + 1]
  (Finished, 4%nat, [Build_load_step (N:=RN) 1 0 2; Build_load_step (N:=RN) 2 2 (2 * 2); Build_load_step (N:=RN) 3 (2 * 2) (3 * 2)]).
Proof.
  apply C34_final_time_refuted; try reflexivity; try lra; cbn; try lia.
  - unfold solved. cbn. lra.
  - intros [|k] Hk; [lia|]. left. cbn. lra.
Qed.
