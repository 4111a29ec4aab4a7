(** * C32 explicit runs, C33 linear and C55 angular momentum, C38 conditions in a run *)
From Coq Require Import String Reals Lra.
From Coq Require Import SpecFloat.
From Verif Require Import Base Num SpecGlobal ProofGlobal ModelScalar ModelInput ModelNeigh ModelBC SpecDamage SpecBC ProofBC ProofBC2 PropBC ModelForce SpecForce ModelExplicit SpecExplicit ProofExplicit ProofExplicit2 ProofExplicit3.
Local Open Scope R_scope.

(** ** C32 *)
(** The number of steps is the greatest that does not go beyond the final time. *)
Theorem C32_number_of_steps : forall floorZ (ti tf dt : R), is_floor floorZ -> 0 < dt -> ti <= tf -> (tf - ti) / dt < 2147483648 ->
  exists n, number_of_steps (N:=RN) floorZ ti tf dt = Ok (Z.of_nat n) /\ ti + INR n * dt <= tf < ti + INR (S n) * dt.
Proof.
  intros floorZ ti tf dt F D L B.
  assert (E : exists n, number_of_steps (N:=RN) floorZ ti tf dt = Ok n).
  { unfold number_of_steps. destruct (F ((tf - ti) / dt)) as (z & E & B1 & B2).
    match goal with |- exists n, match ?e with _ => _ end = _ => change (e = Some z) in E end. rewrite E.
    assert (0 <= (tf - ti) / dt) by (apply Rmult_le_pos; [lra|]; left; now apply Rinv_0_lt_compat).
    assert (-1 < z)%Z by (apply lt_IZR; lra). assert (z < 2147483648)%Z by (apply lt_IZR; lra).
    assert (I : int_ok z = true) by (unfold int_ok, int_min, int_max; apply andb_true_iff; split; apply Z.leb_le; lia).
    rewrite I. eauto. }
  destruct E as (n & E). destruct (steps_spec floorZ ti tf dt n F D E) as (B1 & P). specialize (P L).
  exists (Z.to_nat n). rewrite Z2Nat.id by exact P. split; [exact E|]. rewrite S_INR, INR_IZR_INZ, Z2Nat.id by exact P. exact B1.
Qed.
Print Assumptions C32_number_of_steps.

(** Every output of a successful run: output number k is at time ti + k dt, which is not
    beyond the final time; less than one step is missing after the last; the points and
    their model positions stay; and each state follows from the one before by a
    velocity-Verlet step, boundary conditions prescribing some of the mid-step velocities. *)
Theorem C32_run : forall floorZ compiles (run : string -> V3 RN -> RN -> RN -> option RN) finite sets show (ps : list (bc_params RN)) cs (M : Type)
    (evaluate : M -> list RN -> list RN -> list RN -> outcome (M * list RN * option (list RN))) (rho : list R) restart (ti tf dt : R) s out,
  is_floor floorZ -> 0 < dt -> ti <= tf -> add_all show ps = Ok cs -> complete s ->
  execute_explicit floorZ compiles run finite sets (cs_boundary cs) (cs_force cs) M evaluate rho restart ti tf dt s = Ok out ->
  exists n, length out = S n /\ ti + INR n * dt <= tf < ti + INR (S n) * dt /\
    (forall k t sk, nth_error out k = Some (t, sk) ->
       t = ti + INR k * dt /\ t <= tf /\ complete sk /\ bs_gids (e_b sk) = bs_gids (e_b s) /\ bs_x (e_b sk) = bs_x (e_b s)) /\
    (forall k t1 s1 t2 s2, nth_error out k = Some (t1, s1) -> nth_error out (S k) = Some (t2, s2) ->
       verlet evaluate rho (prescribed_in sets ps) dt s1 s2).
Proof.
  intros floorZ compiles run finite sets show ps cs M evaluate rho restart ti tf dt s out F D L made Cs H.
  destruct (exec_spec floorZ compiles run finite sets show ps cs evaluate rho made restart ti tf dt s out H Cs) as (n & s0 & En & Ln & E0 & _ & C0 & G0 & X0 & _ & _ & J).
  destruct (steps_spec floorZ ti tf dt n F D En) as (B & P). specialize (P L).
  exists (Z.to_nat n). split; [exact Ln|]. rewrite S_INR, INR_IZR_INZ, Z2Nat.id by exact P. split; [exact B|]. split.
  - intros k t sk Hk.
    destruct (exec_ind floorZ compiles run finite sets show ps cs evaluate rho made restart ti tf dt s out (fun _ _ _ => True) H Cs) with (i := k) (t1 := t) (s1 := sk) as (A1 & A2 & A3 & A4 & _); auto.
    split; [exact A1|]. split; [|auto]. assert (k < length out)%nat by (apply nth_error_Some; rewrite Hk; discriminate).
    assert (Ik : INR k <= IZR n) by (rewrite INR_IZR_INZ; apply IZR_le; lia).
    assert (INR k * dt <= IZR n * dt) by (apply Rmult_le_compat_r; lra). change (t <= tf). rewrite A1. lra.
  - intros k t1 s1 t2 s2 H1 H2. destruct (J k t1 s1 t2 s2 H1 H2) as (_ & _ & J3 & J4 & _).
    destruct (step_frame _ _ _ _ _ _ _ evaluate rho made _ _ _ _ _ J4 J3) as (_ & _ & _ & V). exact V.
Qed.
Print Assumptions C32_run.

(** A run succeeds when the expressions and the evaluation do. *)
Theorem C32_run_succeeds : forall floorZ compiles (run : string -> V3 RN -> RN -> RN -> option RN) finite sets show (ps : list (bc_params RN)) cs (M : Type)
    (evaluate : M -> list RN -> list RN -> list RN -> outcome (M * list RN * option (list RN))) (rho : list R) restart (ti tf dt : R) s,
  is_floor floorZ -> 0 < dt -> ti <= tf -> (tf - ti) / dt < 2147483648 -> add_all show ps = Ok cs -> complete s ->
  (forall t, compiles t = true) -> (forall t x tm v, run t x tm v <> None) -> (forall v, finite v = true) -> (forall p, In p ps -> sets (tidy (bp_set p)) <> None) ->
  length rho = length (bs_gids (e_b s)) -> always_evaluates finite (length rho) evaluate ->
  exists out, execute_explicit floorZ compiles run finite sets (cs_boundary cs) (cs_force cs) M evaluate rho restart ti tf dt s = Ok out.
Proof.
  intros floorZ compiles run finite sets show ps cs M evaluate rho restart ti tf dt s F D L B made Cs H1 H2 H3 H4 H5 H6.
  destruct (C32_number_of_steps floorZ ti tf dt F D L B) as (n & En & _).
  exact (exec_succeeds floorZ compiles run finite sets show ps cs evaluate rho made (length rho) H1 H2 H3 H4 eq_refl H6 restart ti tf dt s _ Cs (eq_sym H5) En).
Qed.
Print Assumptions C32_run_succeeds.

(** More steps than an int can count: the conversion is undefined behaviour, whatever the
    state; the comparison with INT_MAX that follows cannot help. *)
Theorem C32_too_many_steps_refuted : forall floorZ compiles run finite sets bo fo (M : Type)
    (evaluate : M -> list RN -> list RN -> list RN -> outcome (M * list RN * option (list RN))) (rho : list RN) restart (ti tf dt : R) s,
  is_floor floorZ -> 2147483648 <= (tf - ti) / dt ->
  execute_explicit (N:=RN) floorZ compiles run finite sets bo fo M evaluate rho restart ti tf dt s = UB.
Proof.
  intros floorZ compiles run finite sets bo fo M evaluate rho restart ti tf dt s F B. unfold execute_explicit, number_of_steps.
  destruct (F ((tf - ti) / dt)) as (z & E & B1 & B2).
  match goal with |- bind (match ?e with _ => _ end) _ = _ => change (e = Some z) in E end. rewrite E.
  assert (2147483647 < z)%Z by (apply lt_IZR; lra).
  assert (I : int_ok z = false) by (unfold int_ok, int_max; apply andb_false_iff; right; apply Z.leb_gt; lia). rewrite I. reflexivity.
Qed.
Print Assumptions C32_too_many_steps_refuted.

(** In double precision the last step can be beyond the final time: every run from 0 to 1.7
    with step 0.1, of anything. *)
Definition d17 : T FN := S754_finite false 7656119366529843 (-52).
Definition d01 : T FN := S754_finite false 7205759403792794 (-56).
Theorem C32_final_time_binary64_refuted : forall compiles run finite sets bo fo (M : Type)
    (evaluate : M -> list FN -> list FN -> list FN -> outcome (M * list FN * option (list FN))) rho restart s out,
  execute_explicit (N:=FN) floor64 compiles run finite sets bo fo M evaluate rho restart (S754_zero false) d17 d01 s = Ok out ->
  exists t sl, nth_error out 17 = Some (t, sl) /\ ltb (n:=FN) d17 t = true.
Proof.
  intros compiles run finite sets bo fo M evaluate rho restart s out H. unfold execute_explicit in H.
  assert (E : number_of_steps (N:=FN) floor64 (S754_zero false) d17 d01 = Ok 17%Z) by (vm_compute; reflexivity).
  rewrite E in H. cbn [bind] in H.
  match type of H with bind ?e _ = _ => destruct e as [s0| |] eqn:E0; cbn [bind] in H; try discriminate end.
  match type of H with bind ?e _ = _ => destruct e as [r| |] eqn:Er; cbn [bind] in H; try discriminate end. injection H as <-.
  apply loop_times in Er. change (Z.to_nat 17) with 17%nat in Er.
  pose proof (f_equal (fun l => nth_error l 16) Er) as Q. cbv beta in Q.
  rewrite !nth_error_map in Q. change (nth_error (seq 0 17) 16) with (Some 16%nat) in Q. change (nth_error (?a :: r) 17) with (nth_error r 16).
  destruct (nth_error r 16) as [[t sl]|]; cbn [option_map fst] in Q; [|discriminate]. injection Q as Q. exists t, sl. split; [reflexivity|]. rewrite Q. vm_compute. reflexivity.
Qed.
Print Assumptions C32_final_time_binary64_refuted.
(** Such a run: one point, no forces. *)
Example C32_final_time_binary64_case :
  match execute_explicit (N:=FN) floor64 (fun _ => true) (fun _ _ _ _ => None) (fun _ => true) (fun _ => None) [] [] unit
    (fun m u y v => Ok (m, map (fun _ => S754_zero false) u, None)) [fofZ 2] false (S754_zero false) d17 d01
    {| e_b := {| bs_gids := [0]%nat; bs_x := [v3 (N:=FN) (fofZ 1) (fofZ 2) (fofZ 3)]; bs_field := fun tg => repeat (S754_zero false) (target_dim tg) |};
       e_y := [fofZ 1; fofZ 2; fofZ 3]; e_a := [fofZ 0; fofZ 0; fofZ 0]; e_mat := tt |} with Ok out => length out | _ => 0%nat end = 18%nat.
Proof. vm_compute. reflexivity. Qed.

(** ** C38 in an explicit run *)
(** A prescribed displacement that holds at the start holds at every output. *)
Theorem C38_explicit_run_follows_the_prescription : forall floorZ compiles (run : string -> V3 RN -> RN -> RN -> option RN) finite sets show (ps : list (bc_params RN)) cs (M : Type)
    (evaluate : M -> list RN -> list RN -> list RN -> outcome (M * list RN * option (list RN))) (rho : list R) restart (ti tf dt : R) s out p g comp x (f : R -> R),
  dt <> 0 -> add_all show ps = Ok cs -> complete s ->
  execute_explicit floorZ compiles run finite sets (cs_boundary cs) (cs_force cs) M evaluate rho restart ti tf dt s = Ok out ->
  bp_type p = PRESCRIBED_DISPLACEMENT -> last_concerning boundary_writes sets ps p TDeltaU g comp ->
  position (e_b s) g = Some x -> defines run (text_of show p) x (f : RN -> RN) -> value_at (e_b s) TU g comp = Some (f ti : T RN) ->
  forall k t sk, nth_error out k = Some (t, sk) -> value_at (e_b sk) TU g comp = Some (f t : T RN).
Proof.
  intros floorZ compiles run finite sets show ps cs M evaluate rho restart ti tf dt s out p g comp x f Nz made Cs H Ty L X D U k t sk Hk.
  assert (Hc : (comp < 3)%nat).
  { destruct L as (_ & _ & _ & (_ & Co & _) & _). destruct (bp_coord p); cbn in Co; try discriminate; injection Co as <-; lia. }
  destruct (exec_ind floorZ compiles run finite sets show ps cs evaluate rho made restart ti tf dt s out (fun _ t sk => value_at (e_b sk) TU g comp = Some (f t : T RN)) H Cs) with (i := k) (t1 := t) (s1 := sk) as (_ & _ & _ & _ & A); [| |exact Hk|exact A].
  - intros s0 _ _ _ _ U0. rewrite U0 by exact Hc. exact U.
  - intros i s1 s2 C1 G1 X1 St P.
    assert (Q : ti + INR (S i) * dt - (ti + INR i * dt) = dt) by (rewrite S_INR; ring).
    apply (step_follows compiles run finite sets show ps cs evaluate rho made dt (ti + INR (S i) * dt) (ti + INR i * dt) s1 s2 p g comp x f C1 St); auto.
    + intros Z. apply Nz. rewrite <- Q, Z. ring.
    + unfold position in *. now rewrite G1, X1.
Qed.
Print Assumptions C38_explicit_run_follows_the_prescription.

(** The external force at every output is the body force of its time. *)
Theorem C38_explicit_run_body_forces : forall floorZ compiles (run : string -> V3 RN -> RN -> RN -> option RN) finite sets show (ps : list (bc_params RN)) cs (M : Type)
    (evaluate : M -> list RN -> list RN -> list RN -> outcome (M * list RN * option (list RN))) (rho : list R) (ti tf dt : R) s out,
  add_all show ps = Ok cs -> complete s ->
  execute_explicit floorZ compiles run finite sets (cs_boundary cs) (cs_force cs) M evaluate rho false ti tf dt s = Ok out ->
  forall k t sk, nth_error out k = Some (t, sk) ->
  (forall g comp i, (comp < 3)%nat -> pos (bs_gids (e_b s)) g = Some i -> (forall p, In p ps -> ~ concerns force_writes sets p TForce g comp) ->
    value_at (e_b sk) TForce g comp = Some (0 : T RN)) /\
  (forall p g comp x (f : R -> R), last_concerning force_writes sets ps p TForce g comp -> position (e_b s) g = Some x ->
    defines run (text_of show p) x (f : RN -> RN) -> value_at (e_b sk) TForce g comp = Some (f t : T RN)).
Proof.
  intros floorZ compiles run finite sets show ps cs M evaluate rho ti tf dt s out made Cs H k t sk Hk.
  destruct (exec_ind floorZ compiles run finite sets show ps cs evaluate rho made false ti tf dt s out (fun _ t sk =>
    (forall g comp i, (comp < 3)%nat -> pos (bs_gids (e_b s)) g = Some i -> (forall p, In p ps -> ~ concerns force_writes sets p TForce g comp) ->
      value_at (e_b sk) TForce g comp = Some (0 : T RN)) /\
    (forall p g comp x (f : R -> R), last_concerning force_writes sets ps p TForce g comp -> position (e_b s) g = Some x ->
      defines run (text_of show p) x (f : RN -> RN) -> value_at (e_b sk) TForce g comp = Some (f t : T RN))) H Cs) with (i := k) (t1 := t) (s1 := sk) as (_ & _ & _ & _ & A); [| |exact Hk|exact A].
  - intros s0 E0 _ _ _ _. destruct (start_external compiles run finite sets show ps cs evaluate rho made ti s s0 Cs E0) as (b2 & B & S2 & G2 & X2).
    destruct (C38_body_forces RN show compiles run finite ps cs sets ti ti b2 (e_b s0) made B S2) as (P1 & P2). rewrite G2 in P1. split; [exact P1|].
    intros p g comp x f L X D. apply (P2 p g comp x f L); [unfold position in *; now rewrite G2, X2|exact D].
  - intros i s1 s2 C1 G1 X1 St _. destruct (step_external compiles run finite sets show ps cs evaluate rho made _ _ _ s1 s2 C1 St) as (b2 & b3 & B & S2 & G2 & X2 & V).
    destruct (C38_body_forces RN show compiles run finite ps cs sets _ _ b2 b3 made B S2) as (P1 & P2). rewrite G2, G1 in P1. split.
    + intros g comp j Hc Hp Hn. rewrite V. exact (P1 g comp j Hc Hp Hn).
    + intros p g comp x f L X D. rewrite V. apply (P2 p g comp x f L); [unfold position in *; now rewrite G2, X2, G1, X1|exact D].
Qed.
Print Assumptions C38_explicit_run_body_forces.

(** ** C33 *)
Lemma grow0 (ti : R) (U P : V3 RN) : U = vadd U (vscale (N:=RN) (ti - ti) P).
Proof. symmetry. apply vext; cbn; ring. Qed.
Lemma grow1 (ti dt k : R) (U P : V3 RN) : vadd (vadd U (vscale (N:=RN) (ti + k * dt - ti) P)) (vscale (N:=RN) dt P) = vadd U (vscale (N:=RN) (ti + (k + 1) * dt - ti) P).
Proof. apply vext; cbn; ring. Qed.

(** Without conditions: the total momentum at every output is the initial one, and the
    mass-weighted displacement grows by momentum times time.  A restarted run starts with
    the accelerations read, which must be balanced. *)
Theorem C33_momentum_and_centre_of_mass : forall floorZ compiles run finite sets (M : Type)
    (evaluate : M -> list RN -> list RN -> list RN -> outcome (M * list RN * option (list RN))) (rho vol : list R) restart (ti tf dt : R) s out,
  Forall (fun r => r <> 0) rho -> length rho = length vol -> length (bs_gids (e_b s)) = length vol -> balanced vol evaluate -> complete s ->
  (restart = true -> total (masses rho vol) (e_a s) = vzero) ->
  execute_explicit (N:=RN) floorZ compiles run finite sets [] [] M evaluate rho restart ti tf dt s = Ok out ->
  forall k t sk, nth_error out k = Some (t, sk) ->
    total (masses rho vol) (v_of sk) = total (masses rho vol) (v_of s) /\
    total (masses rho vol) (u_of sk) = vadd (total (masses rho vol) (u_of s)) (vscale (N:=RN) (t - ti) (total (masses rho vol) (v_of s))).
Proof.
  intros floorZ compiles run finite sets M evaluate rho vol restart ti tf dt s out Hr Hl Hn Hb Cs Hi H k t sk Hk.
  assert (made : add_all (N:=RN) (fun _ => ""%string) [] = Ok (Build_conds (N:=RN) [] [] [])) by reflexivity.
  destruct (exec_ind floorZ compiles run finite sets (fun _ => ""%string) [] (Build_conds (N:=RN) [] [] []) evaluate rho made restart ti tf dt s out (fun i t sk =>
    total (masses rho vol) (e_a sk) = vzero /\ total (masses rho vol) (v_of sk) = total (masses rho vol) (v_of s) /\
    total (masses rho vol) (u_of sk) = vadd (total (masses rho vol) (u_of s)) (vscale (N:=RN) (t - ti) (total (masses rho vol) (v_of s)))) H Cs) with (i := k) (t1 := t) (s1 := sk) as (_ & _ & _ & _ & _ & A); [| |exact Hk|exact A].
  - intros s0 E0 C0 _ _ _. destruct restart.
    + subst s0. split; [now apply Hi|]. split; [reflexivity|]. apply grow0.
    + destruct (start_isolated compiles run finite sets evaluate rho vol Hr Hl ti s s0 E0) as (_ & Ey & Eu & Ev & Eg & f & c & f2 & Fe & Fc & L1 & L2 & Ta & _).
      destruct (len3 rho vol Hl s _ Cs Hn) as (Lu & Lv & _ & Ly). destruct (Hb _ _ _ _ _ _ _ Lu Ly Lv Fe) as (B1 & B2).
      split; [rewrite Ta; exact (bal_f2 vol f c f2 Fc L1 B1 B2)|]. rewrite Ev, Eu. split; [reflexivity|]. apply grow0.
  - intros i s1 s2 C1 G1 X1 St (P1 & P2 & P3). assert (Ln : length (bs_gids (e_b s1)) = length vol) by congruence.
    destruct (momentum_step compiles run finite sets evaluate rho vol Hr Hl dt _ _ s1 s2 Hb C1 Ln St P1) as (A1 & A2 & A3).
    split; [exact A1|]. split; [congruence|]. rewrite A3, P3, P2. rewrite S_INR. apply grow1.
Qed.
Print Assumptions C33_momentum_and_centre_of_mass.

(** The evaluation with the force of the linear peridynamic solid, any damage model and any
    dilatations, is balanced, so the momentum of a body of this material is kept. *)
Theorem C33_linear_peridynamic_solid : forall omega K MU h x vol m nbrs theta damage,
  length vol = length x -> length m = length nbrs -> (length nbrs <= length x)%nat -> Forall (Forall (fun j => (j < length x)%nat)) nbrs ->
  (forall y d, length (theta y d) = length nbrs) -> (forall d y, length (damage d y) = num_bonds nbrs) ->
  forall floorZ compiles run finite sets (rho : list R) (ti tf dt : R) s out,
  Forall (fun r => r <> 0) rho -> length rho = length vol -> length (bs_gids (e_b s)) = length vol -> complete s ->
  execute_explicit (N:=RN) floorZ compiles run finite sets [] [] _ (lps_evaluate omega K MU h x vol m nbrs theta damage) rho false ti tf dt s = Ok out ->
  forall k t sk, nth_error out k = Some (t, sk) ->
    total (masses rho vol) (v_of sk) = total (masses rho vol) (v_of s) /\
    total (masses rho vol) (u_of sk) = vadd (total (masses rho vol) (u_of s)) (vscale (N:=RN) (t - ti) (total (masses rho vol) (v_of s))).
Proof.
  intros omega K MU h x vol m nbrs theta damage H1 H2 H3 H4 H5 H6 floorZ compiles run finite sets rho ti tf dt s out Hr Hl Hn Cs H.
  apply (C33_momentum_and_centre_of_mass floorZ compiles run finite sets _ (lps_evaluate omega K MU h x vol m nbrs theta damage) rho vol false ti tf dt s out Hr Hl Hn (lps_balanced omega K MU h x vol m nbrs theta damage H1 H2 H3 H4 H5 H6) Cs); [discriminate|exact H].
Qed.
Print Assumptions C33_linear_peridynamic_solid.

(** ** C55 *)
(** Without conditions, when forces also have no total moment and the positions at the start
    are the model positions plus displacements: the total angular momentum about the origin
    is the initial one at every output. *)
Theorem C55_angular_momentum : forall floorZ compiles run finite sets (M : Type)
    (evaluate : M -> list RN -> list RN -> list RN -> outcome (M * list RN * option (list RN))) (rho vol : list R) restart (ti tf dt : R) s out,
  Forall (fun r => r <> 0) rho -> length rho = length vol -> length (bs_gids (e_b s)) = length vol -> balanced_moments vol evaluate -> complete s ->
  map2_ub (add (n:=RN)) (flat (bs_x (e_b s))) (u_of s) = Ok (e_y s) ->
  (restart = true -> spin (masses rho vol) (e_y s) (e_a s) = vzero) ->
  execute_explicit (N:=RN) floorZ compiles run finite sets [] [] M evaluate rho restart ti tf dt s = Ok out ->
  forall k t sk, nth_error out k = Some (t, sk) ->
    spin (masses rho vol) (e_y sk) (v_of sk) = spin (masses rho vol) (e_y s) (v_of s).
Proof.
  intros floorZ compiles run finite sets M evaluate rho vol restart ti tf dt s out Hr Hl Hn Hb Cs Hy Hi H k t sk Hk.
  assert (made : add_all (N:=RN) (fun _ => ""%string) [] = Ok (Build_conds (N:=RN) [] [] [])) by reflexivity.
  destruct (exec_ind floorZ compiles run finite sets (fun _ => ""%string) [] (Build_conds (N:=RN) [] [] []) evaluate rho made restart ti tf dt s out (fun i t sk =>
    map2_ub (add (n:=RN)) (flat (bs_x (e_b sk))) (u_of sk) = Ok (e_y sk) /\
    spin (masses rho vol) (e_y sk) (e_a sk) = vzero /\ spin (masses rho vol) (e_y sk) (v_of sk) = spin (masses rho vol) (e_y s) (v_of s)) H Cs) with (i := k) (t1 := t) (s1 := sk) as (_ & _ & _ & _ & _ & _ & A); [| |exact Hk|exact A].
  - intros s0 E0 C0 _ _ _. destruct restart.
    + subst s0. split; [exact Hy|]. split; [now apply Hi|]. reflexivity.
    + destruct (start_isolated compiles run finite sets evaluate rho vol Hr Hl ti s s0 E0) as (Ex & Ey & Eu & Ev & Eg & f & c & f2 & Fe & Fc & L1 & L2 & _ & Ta).
      destruct (len3 rho vol Hl s _ Cs Hn) as (Lu & Lv & _ & Ly). destruct (Hb _ _ _ _ _ _ _ Lu Ly Lv Fe) as (B1 & B2).
      rewrite Ev, Eu, Ex, Ey. split; [exact Hy|]. split; [|reflexivity]. rewrite (Ta _ Ly). exact (bal_m2 vol _ f c f2 Fc L1 Ly B1 B2).
  - intros i s1 s2 C1 G1 X1 St (P1 & P2 & P3). assert (Ln : length (bs_gids (e_b s1)) = length vol) by congruence.
    destruct (angular_step compiles run finite sets evaluate rho vol Hr Hl dt _ _ s1 s2 Hb C1 Ln St P1 P2) as (A1 & A2 & A3).
    split; [exact A1|]. split; [exact A2|]. congruence.
Qed.
Print Assumptions C55_angular_momentum.

Theorem C55_linear_peridynamic_solid : forall omega K MU h x vol m nbrs theta damage,
  length vol = length x -> length m = length nbrs -> (length nbrs <= length x)%nat -> Forall (Forall (fun j => (j < length x)%nat)) nbrs ->
  (forall y d, length (theta y d) = length nbrs) -> (forall d y, length (damage d y) = num_bonds nbrs) ->
  forall floorZ compiles run finite sets (rho : list R) (ti tf dt : R) s out,
  Forall (fun r => r <> 0) rho -> length rho = length vol -> length (bs_gids (e_b s)) = length vol -> complete s ->
  map2_ub (add (n:=RN)) (flat (bs_x (e_b s))) (u_of s) = Ok (e_y s) ->
  execute_explicit (N:=RN) floorZ compiles run finite sets [] [] _ (lps_evaluate omega K MU h x vol m nbrs theta damage) rho false ti tf dt s = Ok out ->
  forall k t sk, nth_error out k = Some (t, sk) ->
    spin (masses rho vol) (e_y sk) (v_of sk) = spin (masses rho vol) (e_y s) (v_of s).
Proof.
  intros omega K MU h x vol m nbrs theta damage H1 H2 H3 H4 H5 H6 floorZ compiles run finite sets rho ti tf dt s out Hr Hl Hn Cs Hy H.
  apply (C55_angular_momentum floorZ compiles run finite sets _ (lps_evaluate omega K MU h x vol m nbrs theta damage) rho vol false ti tf dt s out Hr Hl Hn (lps_moments omega K MU h x vol m nbrs theta damage H1 H2 H3 H4 H5 H6) Cs Hy); [discriminate|exact H].
Qed.
Print Assumptions C55_linear_peridynamic_solid.

(** *** A concrete case: two points of the linear peridynamic solid flying and stretching *)
Section Case33.
  Definition floorR (r : RN) : option Z := Some (up (r : R) - 1)%Z.
  Lemma floorR_ok : is_floor floorR.
  Proof. intros r. exists (up r - 1)%Z. split; [reflexivity|]. rewrite minus_IZR. destruct (archimed r). lra. Qed.
  Definition ex_x : list (V3 RN) := [v3 (N:=RN) 0 0 0; v3 (N:=RN) 1 0 0].
  Definition ex_es : estate RN (list RN) :=
    {| e_b := {| bs_gids := [3; 8]%nat; bs_x := ex_x;
                 bs_field := fun tg => match tg with TV => [1; 0; 0; 0; 2; 0] | tg => repeat 0 (2 * target_dim tg) end |};
       e_y := [0; 0; 0; 1; 0; 0]; e_a := [0; 0; 0; 0; 0; 0]; e_mat := [0; 0] |}.
  Definition ex_eval := lps_evaluate (fun _ _ => 1) 2 1 3 ex_x [1; 4] [4; 1] [[1]; [0]]%nat (fun _ _ => [0; 0]) (fun _ _ => [0; 0]).
  Lemma ex_complete : complete ex_es.
  Proof. split; [|split; reflexivity]. split; [reflexivity|]. intros []; reflexivity. Qed.
  (** A run of ten steps: it succeeds, its momentum and angular momentum stay. *)
  Example C33_case : exists out, execute_explicit (N:=RN) floorR yes ex_run yes ex_sets [] [] _ ex_eval [2; 3] false (0 : R) (1 : R) (1 / 10 : R) ex_es = Ok out /\
    length out = 11%nat /\
    forall k t sk, nth_error out k = Some (t, sk) ->
      total (masses [2; 3] [1; 4]) (v_of sk) = v3 (N:=RN) 2 24 0 /\ spin (masses [2; 3] [1; 4]) (e_y sk) (v_of sk) = v3 (N:=RN) 0 0 24.
  Proof.
    assert (Hev : always_evaluates yes (length [2; 3]) ex_eval).
    { change (always_evaluates yes (length ex_x) ex_eval). apply lps_evaluates; try reflexivity; auto. repeat constructor. }
    destruct (C32_run_succeeds floorR yes ex_run yes ex_sets ex_show [] (Build_conds (N:=RN) [] [] []) _ ex_eval [2; 3] false 0 1 (1/10) ex_es floorR_ok) as (out & E); try reflexivity; try lra.
    { exact ex_complete. } { discriminate. } { contradiction. } { exact Hev. }
    exists out. split; [exact E|]. split.
    - destruct (C32_run floorR yes ex_run yes ex_sets ex_show [] (Build_conds (N:=RN) [] [] []) _ ex_eval [2; 3] false 0 1 (1/10) ex_es out floorR_ok) as (n & L & B & _); try reflexivity; try lra; [exact ex_complete|exact E|].
      rewrite L. f_equal. rewrite S_INR in B. assert (A : INR n <= 10 /\ 10 < INR n + 1) by lra. rewrite INR_IZR_INZ in A.
      assert (Z.of_nat n <= 10)%Z by (apply le_IZR; lra). assert (10 < Z.of_nat n + 1)%Z by (apply lt_IZR; rewrite plus_IZR; lra). lia.
    - intros k t sk Hk.
      assert (R1 : Forall (fun r => r <> 0) [2; 3]) by (repeat constructor; lra).
      destruct (C33_linear_peridynamic_solid (fun _ _ => 1) 2 1 3 ex_x [1; 4] [4; 1] [[1]; [0]]%nat (fun _ _ => [0; 0]) (fun _ _ => [0; 0])) with (floorZ := floorR) (compiles := @yes string) (run := ex_run) (finite := @yes RN) (sets := ex_sets) (rho := [2; 3]) (ti := 0) (tf := 1) (dt := 1/10) (s := ex_es) (out := out) (k := k) (t := t) (sk := sk) as (A & _); try reflexivity; auto.
      { repeat constructor. } { exact ex_complete. }
      split; [rewrite A; apply vext; cbn; ring|].
      rewrite (C55_linear_peridynamic_solid (fun _ _ => 1) 2 1 3 ex_x [1; 4] [4; 1] [[1]; [0]]%nat (fun _ _ => [0; 0]) (fun _ _ => [0; 0])) with (floorZ := floorR) (compiles := @yes string) (run := ex_run) (finite := @yes RN) (sets := ex_sets) (rho := [2; 3]) (ti := 0) (tf := 1) (dt := 1/10) (s := ex_es) (out := out) (k := k) (t := t) (sk := sk); try reflexivity; auto.
      { apply vext; cbn; ring. } { repeat constructor. } { exact ex_complete. }
      { cbn. f_equal. repeat apply (f_equal2 cons); try reflexivity; to_R; ring. }
  Qed.
  (** With the conditions of the case of C38: node 7 follows its prescription. *)
  Definition ex_cs_state : estate RN unit := {| e_b := ex_state; e_y := repeat 0 9; e_a := repeat 0 9; e_mat := tt |}.
  Example C38_run_case : exists cs out, add_all ex_show ex_ps = Ok cs /\
    execute_explicit (N:=RN) floorR yes ex_run yes ex_sets (cs_boundary cs) (cs_force cs) _ (fun m u y v => Ok (m, u, Some v)) [1; 2; 3] false (0 : R) (1 : R) (1 / 10 : R) ex_cs_state = Ok out /\
    forall k t sk, nth_error out k = Some (t, sk) -> value_at (e_b sk) TU 7%nat 1%nat = Some (t : T RN) /\ value_at (e_b sk) TForce 5%nat 2%nat = Some (t : T RN).
  Proof.
    destruct ex_added as (cs & A). exists cs.
    assert (Cs : complete ex_cs_state) by (split; [exact ex_sized|split; reflexivity]).
    destruct (C32_run_succeeds floorR yes ex_run yes ex_sets ex_show ex_ps cs _ (fun (m : unit) u y v => Ok (m, u, Some v)) [1; 2; 3] false 0 1 (1/10) ex_cs_state floorR_ok) as (out & E); try reflexivity; try lra; auto.
    { discriminate. } { exact ex_sets_exist. }
    { intros m u y v H1 H2 H3. exists m, u, (Some v). split; [reflexivity|]. split; [exact H1|]. split; [now apply forallb_all|]. intros cf Q. injection Q as <-. split; [exact H3|now apply forallb_all]. }
    exists out. split; [exact A|]. split; [exact E|]. intros k t sk Hk. split.
    - apply (C38_explicit_run_follows_the_prescription floorR yes ex_run yes ex_sets ex_show ex_ps cs _ (fun (m : unit) u y v => Ok (m, u, Some v)) [1; 2; 3] false 0 1 (1/10) ex_cs_state out (hd (Build_bc_params (N:=RN) NO_SUCH_BOUNDARY_CONDITION_TYPE ""%string CX (VText ""%string)) ex_ps) 7%nat 1%nat vzero (fun t => t)) with (k := k); auto; try reflexivity; try lra.
      + exact ex_last.
      + intros t0 v. reflexivity.
    - destruct (C38_explicit_run_body_forces floorR yes ex_run yes ex_sets ex_show ex_ps cs _ (fun (m : unit) u y v => Ok (m, u, Some v)) [1; 2; 3] 0 1 (1/10) ex_cs_state out A Cs E k t sk Hk) as (_ & B).
      apply (B (nth 1 ex_ps (Build_bc_params (N:=RN) NO_SUCH_BOUNDARY_CONDITION_TYPE ""%string CX (VText ""%string))) 5%nat 2%nat vzero (fun t => t)); [|reflexivity|intros t0 v; reflexivity].
      exists (firstn 1 ex_ps), (skipn 2 ex_ps). split; [reflexivity|]. split.
      + split; [now left|]. split; [reflexivity|]. exists [2; 5; 7]%nat. cbn [bp_set nth ex_ps]. rewrite tidy_all. split; [reflexivity|right; now left].
      + intros p [<-|[]] (Q & _); cbn in Q; intuition discriminate.
  Qed.
End Case33.
