(** * C74: a run continued after a restart *)
From Coq Require Import String Reals Lra.
From Verif Require Import Base Num ModelScalar ModelInput ModelBC ModelExplicit SpecExplicit ProofExplicit3 PropBC PropExplicit.
Local Open Scope R_scope.

Lemma last_default {A} (x d : A) l : last (x :: l) d = last l x.
Proof. revert x. induction l as [|y l IH]; intros x; [reflexivity|]. change (last (x :: y :: l) d) with (last (y :: l) d). rewrite IH. symmetry. destruct l as [|z l]; [reflexivity|]. change (last (y :: z :: l) x) with (last (z :: l) x). clear IH. revert z. induction l as [|w l IH]; intros z; [reflexivity|]. exact (IH w). Qed.

Section Continue.
  Variables (compiles : string -> bool) (run : string -> V3 RN -> RN -> RN -> option RN) (finite : RN -> bool).
  Variable sets : string -> option (list nat).
  Variables boundary forces : list (cond RN).
  Context {M : Type}.
  Variable evaluate : M -> list RN -> list RN -> list RN -> outcome (M * list RN * option (list RN)).
  Variable rho : list R.
  Notation loop := (explicit_loop compiles run finite sets boundary forces M evaluate rho).

  (** The loop knows the time only as the initial time plus a number of steps. *)
  Lemma loop_shift (ti tm dt : R) a k : tm = ti + IZR a * dt -> forall z (t : R) s, loop k (a + z) ti dt t s = loop k z tm dt t s.
  Proof.
    intros E. induction k as [|k IH]; intros z t s; [reflexivity|]. cbn [explicit_loop].
    assert (Q : add (n:=RN) ti (mul (n:=RN) (ofZ (n:=RN) (a + z + 1)) dt) = add (n:=RN) tm (mul (n:=RN) (ofZ (n:=RN) (z + 1)) dt)).
    { cbn. rewrite E, !plus_IZR. ring. }
    rewrite Q. match goal with |- bind ?e _ = _ => destruct e as [s'| |]; try reflexivity end. cbn [bind].
    rewrite <- Z.add_assoc. now rewrite IH.
  Qed.
  Lemma loop_split (ti dt : R) j k : forall z (t : R) s r, loop j z ti dt t s = Ok r ->
    forall (t1 : R) s1, (t1, s1) = last r (t, s) -> loop (j + k) z ti dt t s = (let? r' := loop k (z + Z.of_nat j) ti dt t1 s1 in Ok (r ++ r')).
  Proof.
    induction j as [|j IH]; intros z t s r H t1 s1 E; cbn [explicit_loop plus] in *.
    - injection H as <-. cbn in E. injection E as -> ->. rewrite Z.add_0_r. destruct (loop k z ti dt t s); reflexivity.
    - match type of H with bind ?e _ = _ => destruct e as [s'| |] eqn:Es; try discriminate end. cbn [bind] in *.
      match type of H with bind ?e _ = _ => destruct e as [r0| |] eqn:El; try discriminate end. cbn [bind] in H. injection H as <-.
      match type of El with loop _ _ _ _ ?t' _ = _ => rewrite (IH _ t' _ _ El t1 s1) end.
      + replace (z + 1 + Z.of_nat j)%Z with (z + Z.of_nat (S j))%Z by lia. destruct (loop k (z + Z.of_nat (S j)) ti dt t1 s1); reflexivity.
      + rewrite E. apply last_default.
  Qed.
End Continue.

(** ** An explicit run that stops at the time [tm], a whole number of steps after its start, and is
    then continued by a new run to [tf] gives the very states of a single run to [tf]: stopping
    and resuming cannot be seen.  ([C74_resume] gives the state back; [true]: it comes from restart
    files.) *)
Theorem C74_continue : forall floorZ compiles (run : string -> V3 RN -> RN -> RN -> option RN) finite sets boundary forces (M : Type)
    (evaluate : M -> list RN -> list RN -> list RN -> outcome (M * list RN * option (list RN))) (rho : list R) restart (ti tm tf dt : R) (n : nat) s out tl sl,
  is_floor floorZ -> 0 < dt -> tm = ti + INR n * dt -> tm <= tf -> (tf - ti) / dt < 2147483648 ->
  execute_explicit floorZ compiles run finite sets boundary forces M evaluate rho restart ti tm dt s = Ok (out ++ [(tl, sl)]) ->
  tl = tm /\
  execute_explicit floorZ compiles run finite sets boundary forces M evaluate rho restart ti tf dt s =
    (let? more := execute_explicit floorZ compiles run finite sets boundary forces M evaluate rho true tm tf dt sl in Ok (out ++ more)).
Proof.
  intros floorZ compiles run finite sets boundary forces M evaluate rho restart ti tm tf dt n s out tl sl F D Em L B H.
  assert (Ln : 0 <= INR n * dt) by (apply Rmult_le_pos; [apply pos_INR|lra]).
  destruct (C32_number_of_steps floorZ ti tf dt F D ltac:(lra) B) as (nf & Ef & Bf1 & Bf2).
  assert (Bm : (tm - ti) / dt < 2147483648).
  { apply Rle_lt_trans with ((tf - ti) / dt); [|exact B]. apply Rmult_le_compat_r; [left; now apply Rinv_0_lt_compat|lra]. }
  destruct (C32_number_of_steps floorZ ti tm dt F D ltac:(lra) Bm) as (nm & E1 & Bm1 & Bm2).
  assert (nm = n).
  { rewrite Em in Bm1, Bm2. assert (INR nm <= INR n) by (apply Rmult_le_reg_r with dt; lra). assert (INR n < INR (S nm)) by (apply Rmult_lt_reg_r with dt; lra).
    apply INR_le in H0. apply INR_lt in H1. lia. }
  subst nm.
  assert (B2 : (tf - tm) / dt < 2147483648).
  { apply Rle_lt_trans with ((tf - ti) / dt); [|exact B]. apply Rmult_le_compat_r; [left; now apply Rinv_0_lt_compat|lra]. }
  destruct (C32_number_of_steps floorZ tm tf dt F D L B2) as (n2 & E2 & B21 & B22).
  assert (nf = n + n2)%nat.
  { rewrite Em in B21, B22. rewrite S_INR in *. 
    assert (INR nf < INR (S (n + n2))) by (apply Rmult_lt_reg_r with dt; [lra|]; rewrite S_INR, plus_INR; lra).
    assert (INR (n + n2) < INR (S nf)) by (apply Rmult_lt_reg_r with dt; [lra|]; rewrite S_INR, plus_INR; lra).
    apply INR_lt in H0. apply INR_lt in H1. lia. }
  subst nf. unfold execute_explicit in *. rewrite Ef, E2. rewrite E1 in H. cbn [bind] in *. rewrite !Nat2Z.id in *.
  match type of H with bind ?e _ = _ => destruct e as [s0| |] eqn:E0; try discriminate end. cbn [bind] in *.
  match type of H with bind ?e _ = _ => destruct e as [r| |] eqn:Er; try discriminate end. cbn [bind] in *.
  assert (Hr : ((ti, s0) :: r) = out ++ [(tl, sl)]) by now injection H.
  assert (El : (tl, sl) = last r ((ti : T RN), s0)).
  { rewrite <- (last_default ((ti : T RN), s0) (tl, sl) r). etransitivity; [|exact (f_equal (fun l => last l (tl, sl)) (eq_sym Hr))]. now rewrite last_last. }
  assert (Et : tl = tm).
  { assert (Q := loop_times RN _ _ _ _ _ _ _ _ _ _ _ _ _ _ _ _ Er). destruct n as [|n].
    - destruct r; [|discriminate Q]. cbn in El. injection El as -> _. rewrite Em. cbn. ring.
    - rewrite seq_S, map_app in Q. cbn [map] in Q. assert (r <> []) by (intros ->; destruct (map _ (seq 0 n)); discriminate Q).
      destruct (exists_last H0) as (r' & e & ->). rewrite last_last in El. subst e. rewrite map_app in Q. apply app_inj_tail in Q as (_ & Q). cbn [fst map] in Q.
      change (tl = ti + IZR (0 + 1 + Z.of_nat n) * dt) in Q. rewrite Em, Q. rewrite INR_IZR_INZ. do 3 f_equal. lia. }
  split; [exact Et|].
  rewrite (loop_split compiles run finite sets boundary forces evaluate rho ti dt n n2 _ _ _ _ Er tl sl El).
  replace (0 + Z.of_nat n)%Z with (Z.of_nat n + 0)%Z by lia.
  rewrite (loop_shift compiles run finite sets boundary forces evaluate rho ti tm dt (Z.of_nat n)) by (rewrite Em, INR_IZR_INZ; reflexivity).
  subst tl. destruct (explicit_loop compiles run finite sets boundary forces M evaluate rho n2 0 tm dt tm sl) as [r'| |]; try reflexivity. cbn [bind].
  f_equal. rewrite app_comm_cons. etransitivity; [exact (f_equal (fun l => l ++ r') Hr)|]. now rewrite <- app_assoc.
Qed.
Print Assumptions C74_continue.

(** ** But the time a restart records is the final time asked for, not the time the run reached.
    They agree just if the run is a whole number of steps long; otherwise the resumed run starts
    its clock late, by less than a step, on a state that has not moved. *)
Theorem C74_clock_refuted : forall floorZ compiles (run : string -> V3 RN -> RN -> RN -> option RN) finite sets boundary forces (M : Type)
    (evaluate : M -> list RN -> list RN -> list RN -> outcome (M * list RN * option (list RN))) (rho : list R) restart (ti tf dt : R) s out tl sl,
  is_floor floorZ -> 0 < dt -> ti <= tf ->
  execute_explicit floorZ compiles run finite sets boundary forces M evaluate rho restart ti tf dt s = Ok (out ++ [(tl, sl)]) ->
  tl <= tf < tl + dt /\ (tl = tf <-> exists n : nat, tf = ti + INR n * dt).
Proof.
  intros floorZ compiles run finite sets boundary forces M evaluate rho restart ti tf dt s out tl sl F D L H.
  unfold execute_explicit in H. destruct (number_of_steps floorZ _ _ _) as [n| |] eqn:En; try discriminate. cbn [bind] in H.
  match type of H with bind ?e _ = _ => destruct e as [s0| |] eqn:E0; try discriminate end. cbn [bind] in *.
  match type of H with bind ?e _ = _ => destruct e as [r| |] eqn:Er; try discriminate end. cbn [bind] in *.
  destruct (steps_spec floorZ ti tf dt n F D En) as (B & P). specialize (P L).
  assert (Hr : ((ti, s0) :: r) = out ++ [(tl, sl)]) by now injection H.
  assert (El : (tl, sl) = last r ((ti : T RN), s0)).
  { rewrite <- (last_default ((ti : T RN), s0) (tl, sl) r). etransitivity; [|exact (f_equal (fun l => last l (tl, sl)) (eq_sym Hr))]. now rewrite last_last. }
  assert (Et : tl = ti + IZR n * dt).
  { assert (Q := loop_times RN _ _ _ _ _ _ _ _ _ _ _ _ _ _ _ _ Er). destruct (Z.to_nat n) as [|k] eqn:Ek.
    - destruct r; [|discriminate Q]. cbn in El. injection El as -> _. replace n with 0%Z by lia. change (@eq R ti (ti + 0 * dt)). ring.
    - rewrite seq_S, map_app in Q. cbn [map] in Q. assert (r <> []) by (intros ->; destruct (map _ (seq 0 k)); discriminate Q).
      destruct (exists_last H0) as (r' & e & ->). rewrite last_last in El. subst e. rewrite map_app in Q. apply app_inj_tail in Q as (_ & Q). cbn [fst map] in Q.
      change (tl = ti + IZR (0 + 1 + Z.of_nat k) * dt) in Q. rewrite Q. do 3 f_equal. lia. }
  change (T RN) with R in *. split; [lra|]. split.
  - intros <-. exists (Z.to_nat n). rewrite INR_IZR_INZ, Z2Nat.id by lia. exact Et.
  - intros (k & Ek). rewrite Ek in B. rewrite INR_IZR_INZ in *.
    assert (IZR n <= IZR (Z.of_nat k)) by (apply Rmult_le_reg_r with dt; lra). assert (IZR (Z.of_nat k) < IZR (n + 1)) by (apply Rmult_lt_reg_r with dt; [lra|]; rewrite plus_IZR; lra).
    apply le_IZR in H0. apply lt_IZR in H1. rewrite Et, Ek. do 3 f_equal. lia.
Qed.
Print Assumptions C74_clock_refuted.

Lemma run_not_empty floorZ compiles (run : string -> V3 RN -> RN -> RN -> option RN) finite sets bo fo (M : Type) evaluate rho restart ti tf dt s o :
  execute_explicit floorZ compiles run finite sets bo fo M evaluate rho restart ti tf dt s = Ok o -> o <> [].
Proof.
  unfold execute_explicit. intros H ->. destruct (number_of_steps floorZ ti tf dt); try discriminate H. cbn [bind] in H.
  match type of H with bind ?e _ = _ => destruct e as [s0| |]; try discriminate H end. cbn [bind] in H.
  match type of H with bind ?e _ = _ => destruct e as [r| |]; try discriminate H end.
Qed.
Lemma bind_ok {A B} (a : outcome A) (f : A -> B) b : Ok b = (let? x := a in Ok (f x)) -> exists x, a = Ok x /\ b = f x.
Proof. destruct a as [x| |]; try discriminate. cbn. intros H. injection H as ->. eauto. Qed.

(** The two points of the case of C33, ten steps, stopped after four; and a stop between steps. *)
Example C74_continue_case : exists out sl all more,
  execute_explicit (N:=RN) floorR yes ex_run yes ex_sets [] [] _ ex_eval [2; 3] false (0 : R) (4 / 10 : R) (1 / 10 : R) ex_es = Ok (out ++ [((4 / 10 : R) : T RN, sl)]) /\
  execute_explicit (N:=RN) floorR yes ex_run yes ex_sets [] [] _ ex_eval [2; 3] true (4 / 10 : R) (1 : R) (1 / 10 : R) sl = Ok more /\
  execute_explicit (N:=RN) floorR yes ex_run yes ex_sets [] [] _ ex_eval [2; 3] false (0 : R) (1 : R) (1 / 10 : R) ex_es = Ok all /\
  all = out ++ more.
Proof.
  assert (Hev : always_evaluates yes (length [2; 3]) ex_eval).
  { change (always_evaluates yes (length ex_x) ex_eval). apply lps_evaluates; try reflexivity; auto. repeat constructor. }
  destruct (C32_run_succeeds floorR yes ex_run yes ex_sets ex_show [] (Build_conds (N:=RN) [] [] []) _ ex_eval [2; 3] false 0 (4/10) (1/10) ex_es floorR_ok) as (o & E); try reflexivity; try lra.
  { exact ex_complete. } { discriminate. } { contradiction. } { exact Hev. }
  destruct (C32_run_succeeds floorR yes ex_run yes ex_sets ex_show [] (Build_conds (N:=RN) [] [] []) _ ex_eval [2; 3] false 0 1 (1/10) ex_es floorR_ok) as (all & E'); try reflexivity; try lra.
  { exact ex_complete. } { discriminate. } { contradiction. } { exact Hev. }
  assert (O := run_not_empty _ _ _ _ _ _ _ _ _ _ _ _ _ _ _ _ E).
  destruct (exists_last O) as (out & (tl & sl) & ->).
  destruct (C74_continue floorR yes ex_run yes ex_sets [] [] _ ex_eval [2; 3] false 0 (4/10) 1 (1/10) 4 ex_es out tl sl floorR_ok) as (Et & Q); try lra; [cbn; lra|exact E|].
  subst tl. destruct (bind_ok _ _ _ (eq_trans (eq_sym E') Q)) as (more & Em & ->). exists out, sl, (out ++ more), more. split; [exact E|]. split; [exact Em|]. split; [exact E'|reflexivity].
Qed.
