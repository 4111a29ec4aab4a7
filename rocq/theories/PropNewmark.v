(** * Properties of the implicit solver (C36) *)
From Coq Require Import String Reals Lra SpecFloat.
From Verif Require Import Base Num SpecGlobal ProofGlobal ModelScalar ModelInput ModelBC SpecBC ProofBC ProofBC2 PropBC ModelForce SpecForce ModelExplicit SpecExplicit ProofExplicit ProofExplicit2 ProofExplicit3 PropExplicit ModelNewmark SpecNewmark ProofNewmark.
Local Open Scope R_scope.

(** A run of the implicit solver: the times are evenly spaced and reach the final time within
    a step; consecutive outputs are related by Newmark's formulas and positions are model
    positions plus displacements, whatever the linear solver returned and however many
    corrections were made; the residual is that of the equation of motion at the output; a
    step ends when its norm is at most the tolerance or after one correction more than the
    maximum number. *)
Theorem C36_run : forall floorZ compiles (run : string -> V3 RN -> RN -> RN -> option RN) finite sets show (ps : list (bc_params RN)) cs (M : Type)
    (evaluate : M -> list RN -> list RN -> list RN -> outcome (M * list RN * option (list RN))) (rho : list R) solver (tolerance : R) max_iterations (dt beta gamma ti tf : R) s out,
  is_floor floorZ -> 0 < dt -> beta <> 0 -> ti <= tf -> (0 <= max_iterations)%Z -> add_all show ps = Ok cs -> complete s ->
  execute_implicit (N:=RN) floorZ compiles run finite sets (cs_boundary cs) (cs_force cs) M evaluate rho mechanics mechanics_dofs solver tolerance max_iterations dt beta gamma ti tf s = Ok out ->
  exists n, length out = S n /\ ti + INR n * dt <= tf < ti + INR (S n) * dt /\
    (forall i t si r k, nth_error out i = Some (t, si, r, k) ->
       t = ti + INR i * dt /\ complete si /\ bs_gids (e_b si) = bs_gids (e_b s) /\ bs_x (e_b si) = bs_x (e_b s)) /\
    (exists s0, nth_error out 0 = Some (ti, s0, [], 0%nat) /\ u_of s0 = u_of s /\ v_of s0 = v_of s /\ e_a s0 = e_a s) /\
    (forall i t1 s1 r1 k1 t2 s2 r2 k2, nth_error out i = Some (t1, s1, r1, k1) -> nth_error out (S i) = Some (t2, s2, r2, k2) ->
       newmark dt beta gamma s1 s2 /\ out_of_balance evaluate rho (prescribed_in sets ps) dt beta s2 r2 /\
       (k1 <= k2 <= k1 + Z.to_nat max_iterations + 1)%nat /\
       (euclidean r2 <= tolerance \/ k2 = (k1 + Z.to_nat max_iterations + 1)%nat)).
Proof.
  intros floorZ compiles run finite sets show ps cs M evaluate rho solver tolerance max_iterations dt beta gamma ti tf s out F D B L Hm made Cs H.
  assert (Dz : dt <> 0) by lra.
  destruct (exec_run compiles run finite sets show ps cs evaluate rho solver tolerance max_iterations dt beta gamma made B Dz floorZ ti tf s out Cs H) as (n & s0 & En & Ln & H0 & C0 & G0 & X0 & U0 & V0 & A0 & J).
  destruct (steps_spec floorZ ti tf dt n F D En) as (Bd & P). specialize (P L).
  exists (Z.to_nat n). split; [exact Ln|]. rewrite S_INR, INR_IZR_INZ, Z2Nat.id by exact P. split; [exact Bd|].
  split; [|split; [exists s0; auto|]].
  - induction i as [|i IH]; intros t si r k Hi.
    + rewrite H0 in Hi. injection Hi as <- <- <- <-. split; [cbn; ring|]. auto.
    + destruct (nth_error out i) as [[[[t1 s1] r1] k1]|] eqn:E1; [|apply nth_error_None in E1; assert (nth_error out (S i) <> None) by congruence; apply nth_error_Some in H1; lia].
      destruct (J i _ _ _ _ _ _ _ _ E1 Hi) as (_ & J2 & J3 & t0 & St). destruct (step_all _ _ _ _ _ _ _ _ _ _ _ _ _ _ _ made B Dz _ _ _ _ _ _ _ J3 St) as (C' & G' & X' & _).
      destruct (IH _ _ _ _ eq_refl) as (_ & _ & G1 & X1). split; [exact J2|]. split; [exact C'|]. split; congruence.
  - intros i t1 s1 r1 k1 t2 s2 r2 k2 H1 H2. destruct (J i _ _ _ _ _ _ _ _ H1 H2) as (_ & _ & J3 & t0 & St).
    destruct (step_all _ _ _ _ _ _ _ _ _ _ _ _ _ _ _ made B Dz _ _ _ _ _ _ _ J3 St) as (_ & _ & _ & Nm & Ob & _ & Kk & Cv & _).
    replace (Z.to_nat (max_iterations + 1)) with (Z.to_nat max_iterations + 1)%nat in * by lia. rewrite Nat.add_assoc in *. auto.
Qed.
Print Assumptions C36_run.

(** A run goes through when conditions and forces can be evaluated and the linear solver
    returns a vector of the right length - whether or not the corrections converge. *)
Theorem C36_run_succeeds : forall floorZ compiles (run : string -> V3 RN -> RN -> RN -> option RN) finite sets show (ps : list (bc_params RN)) cs (M : Type)
    (evaluate : M -> list RN -> list RN -> list RN -> outcome (M * list RN * option (list RN))) (rho : list R) solver (tolerance : R) max_iterations (dt beta gamma ti tf : R) s,
  is_floor floorZ -> 0 < dt -> beta <> 0 -> ti <= tf -> (tf - ti) / dt < 2147483648 -> add_all show ps = Ok cs -> complete s ->
  (forall t, compiles t = true) -> (forall t x tm v, run t x tm v <> None) -> (forall v, finite v = true) -> (forall p, In p ps -> sets (tidy (bp_set p)) <> None) ->
  length rho = length (bs_gids (e_b s)) -> always_evaluates finite (length rho) evaluate -> (forall k r, length r = (3 * length rho)%nat -> length (solver k r) = (3 * length rho)%nat) ->
  exists out, execute_implicit (N:=RN) floorZ compiles run finite sets (cs_boundary cs) (cs_force cs) M evaluate rho mechanics mechanics_dofs solver tolerance max_iterations dt beta gamma ti tf s = Ok out.
Proof.
  intros floorZ compiles run finite sets show ps cs M evaluate rho solver tolerance max_iterations dt beta gamma ti tf s F D Bt L B made Cs H1 H2 H3 H4 H5 H6 H7.
  destruct (C32_number_of_steps floorZ ti tf dt F D L B) as (n & En & _). assert (Dz : dt <> 0) by lra.
  exact (exec_ok compiles run finite sets show ps cs evaluate rho solver tolerance max_iterations dt beta gamma made Bt Dz floorZ (length rho) H1 H2 H3 H4 eq_refl H6 H7 ti tf s _ Cs (eq_sym H5) En).
Qed.
Print Assumptions C36_run_succeeds.

(** Prescribed displacements are not imposed: the values prescribed have no effect at all on
    the run. *)
Theorem C36_prescribed_displacements_refuted : forall floorZ compiles (run : string -> V3 RN -> RN -> RN -> option RN) finite sets show (ps1 ps2 : list (bc_params RN)) cs1 cs2 (M : Type)
    (evaluate : M -> list RN -> list RN -> list RN -> outcome (M * list RN * option (list RN))) (rho : list R) p d solver (tolerance : R) max_iterations (dt beta gamma ti tf : R) s,
  same_but_displacements ps1 ps2 -> add_all show ps1 = Ok cs1 -> add_all show ps2 = Ok cs2 ->
  execute_implicit (N:=RN) floorZ compiles run finite sets (cs_boundary cs1) (cs_force cs1) M evaluate rho p d solver tolerance max_iterations dt beta gamma ti tf s =
  execute_implicit (N:=RN) floorZ compiles run finite sets (cs_boundary cs2) (cs_force cs2) M evaluate rho p d solver tolerance max_iterations dt beta gamma ti tf s.
Proof.
  intros floorZ compiles run finite sets show ps1 ps2 cs1 cs2 M evaluate rho p d solver tolerance max_iterations dt beta gamma ti tf s S A1 A2.
  apply add_all_spec in A1, A2. destruct A1 as ((E1 & _) & _ & (F1 & _)), A2 as ((E2 & _) & _ & (F2 & _)).
  assert (Q : cs_force cs1 = cs_force cs2 /\ Forall2 alike (cs_boundary cs1) (cs_boundary cs2)).
  { rewrite E1, E2, F1, F2. clear - S. induction S as [|p1 p2 l1 l2 P S (IH1 & IH2)]; [split; [reflexivity|constructor]|]. cbn [map concat]. split.
    - rewrite IH1. f_equal. destruct P as [->|(T1 & T2 & _)]; [reflexivity|]. unfold ProofBC.made. rewrite T1, T2. reflexivity.
    - apply Forall2_app; [|exact IH2]. destruct P as [->|(T1 & T2 & T3 & T4)].
      + clear. induction (ProofBC.made show boundary_kinds p2) as [|c t IH]; constructor; [now left|exact IH].
      + unfold ProofBC.made. rewrite T1, T2. cbn [boundary_kinds map]. constructor; [|constructor; [|constructor]]; right; unfold mk, comp0; cbn; rewrite T1, T2, T3, T4; repeat split; eauto. }
  destruct Q as (Q1 & Q2). rewrite Q1. now apply exec_same.
Qed.
Print Assumptions C36_prescribed_displacements_refuted.

(** A component at rest for which a displacement is prescribed stays where it was, at every
    output, when the linear solver returns zero for the constrained row (as it must, C39). *)
Theorem C36_constrained_components_stay : forall floorZ compiles (run : string -> V3 RN -> RN -> RN -> option RN) finite sets show (ps : list (bc_params RN)) cs (M : Type)
    (evaluate : M -> list RN -> list RN -> list RN -> outcome (M * list RN * option (list RN))) (rho : list R) solver (tolerance : R) max_iterations (dt beta gamma ti tf : R) s out g comp u,
  dt <> 0 -> beta <> 0 -> add_all show ps = Ok cs -> complete s -> In g (bs_gids (e_b s)) -> (comp < 3)%nat -> prescribed_in sets ps g comp ->
  held s (u_of s) g comp = Some u -> held s (v_of s) g comp = Some 0 -> held s (e_a s) g comp = Some 0 ->
  (forall k r, held s r g comp = Some 0 -> held s (solver k r) g comp = Some 0) ->
  execute_implicit (N:=RN) floorZ compiles run finite sets (cs_boundary cs) (cs_force cs) M evaluate rho mechanics mechanics_dofs solver tolerance max_iterations dt beta gamma ti tf s = Ok out ->
  forall i t si r k, nth_error out i = Some (t, si, r, k) -> held si (u_of si) g comp = Some u.
Proof.
  intros floorZ compiles run finite sets show ps cs M evaluate rho solver tolerance max_iterations dt beta gamma ti tf s out g comp u Dz B made Cs I Hc Fx Hu Hv Ha Hs H.
  destruct (exec_run compiles run finite sets show ps cs evaluate rho solver tolerance max_iterations dt beta gamma made B Dz floorZ ti tf s out Cs H) as (n & s0 & En & Ln & H0 & C0 & G0 & X0 & U0 & V0 & A0 & J).
  assert (K : forall i t si r k, nth_error out i = Some (t, si, r, k) -> bs_gids (e_b si) = bs_gids (e_b s) /\ held si (u_of si) g comp = Some u /\ held si (v_of si) g comp = Some 0 /\ held si (e_a si) g comp = Some 0).
  { induction i as [|i IH]; intros t si r k Hi.
    - rewrite H0 in Hi. injection Hi as <- <- <- <-. unfold held in *. rewrite G0, U0, V0, A0. auto.
    - destruct (nth_error out i) as [[[[t1 s1] r1] k1]|] eqn:E1; [|apply nth_error_None in E1; assert (X : nth_error out (S i) <> None) by congruence; apply nth_error_Some in X; lia].
      destruct (IH _ _ _ _ eq_refl) as (G1 & K1 & K2 & K3).
      destruct (J i _ _ _ _ _ _ _ _ E1 Hi) as (_ & J2 & J3 & t0 & St). destruct (step_all _ _ _ _ _ _ _ _ _ _ _ _ _ _ _ made B Dz _ _ _ _ _ _ _ J3 St) as (C' & G' & X' & _ & _ & _ & _ & _ & Stay).
      split; [congruence|]. apply (Stay g comp u); auto; [now rewrite G1|]. intros k0 r0 i0 P0 N0. rewrite G1 in P0. specialize (Hs k0 r0). unfold held in Hs. rewrite P0 in Hs. exact (Hs N0). }
  intros i t si r k Hi. exact (proj1 (proj2 (K i t si r k Hi))).
Qed.
Print Assumptions C36_constrained_components_stay.

(** The body force in the equation of motion of the step from [t1] to [t2] is that of the
    beginning of the step: it is wrong whenever the force changes. *)
Theorem C36_body_forces_lag_refuted : forall floorZ compiles (run : string -> V3 RN -> RN -> RN -> option RN) finite sets show (ps : list (bc_params RN)) cs (M : Type)
    (evaluate : M -> list RN -> list RN -> list RN -> outcome (M * list RN * option (list RN))) (rho : list R) solver (tolerance : R) max_iterations (dt beta gamma ti tf : R) s out,
  dt <> 0 -> beta <> 0 -> add_all show ps = Ok cs -> complete s ->
  execute_implicit (N:=RN) floorZ compiles run finite sets (cs_boundary cs) (cs_force cs) M evaluate rho mechanics mechanics_dofs solver tolerance max_iterations dt beta gamma ti tf s = Ok out ->
  forall i t1 s1 r1 k1 t2 s2 r2 k2 p g comp x (f : R -> R), nth_error out i = Some (t1, s1, r1, k1) -> nth_error out (S i) = Some (t2, s2, r2, k2) ->
    last_concerning force_writes sets ps p TForce g comp -> position (e_b s1) g = Some x -> defines run (text_of show p) x f ->
    held s2 (ext_of s2) g comp = Some (f t1) /\ (f t2 <> f t1 -> held s2 (ext_of s2) g comp <> Some (f t2)).
Proof.
  intros floorZ compiles run finite sets show ps cs M evaluate rho solver tolerance max_iterations dt beta gamma ti tf s out Dz B made Cs H i t1 s1 r1 k1 t2 s2 r2 k2 p g comp x f H1 H2 Lc Px Df.
  destruct (exec_run compiles run finite sets show ps cs evaluate rho solver tolerance max_iterations dt beta gamma made B Dz floorZ ti tf s out Cs H) as (n & s0 & En & Ln & H0 & C0 & G0 & X0 & U0 & V0 & A0 & J).
  destruct (J i _ _ _ _ _ _ _ _ H1 H2) as (_ & J2 & J3 & t0 & St). destruct (step_all _ _ _ _ _ _ _ _ _ _ _ _ _ _ _ made B Dz _ _ _ _ _ _ _ J3 St) as (C' & G' & X' & _ & _ & (b0 & Sb & Gb & Xb & Fb) & _).
  destruct (C38_body_forces RN show compiles run finite ps cs sets t1 t0 b0 (e_b s2) made Fb Sb) as (_ & Q).
  assert (E : held s2 (ext_of s2) g comp = Some (f t1)).
  { refine (Q p g comp x f Lc _ Df). unfold position in *. rewrite Gb, Xb, G', X'. exact Px. }
  split; [exact E|]. rewrite E. intros Hn Hq. injection Hq as Hq. apply Hn. symmetry. exact Hq.
Qed.
Print Assumptions C36_body_forces_lag_refuted.

(** A step that does not converge is accepted like any other: with a linear solver that
    returns zeros, one point under a constant force 1 and no tolerance to speak of, the run
    ends normally with residual beta dt^2. *)
Definition stuck : outcome (list (spec_float * estate FN unit * list spec_float * nat)) :=
  execute_implicit (N:=FN) floor64 (fun _ => true) (fun _ _ _ _ => None) (fun _ => true) (fun _ => None) [] [] unit
    (fun m u y v => Ok (m, map (fun _ => fofZ 1) u, None)) [fofZ 1] mechanics mechanics_dofs (fun _ r => map (fun _ => fofZ 0) r)
    (lit (n:=FN) 1 1000000) 5 (fofZ 1) (lit (n:=FN) 1 4) (lit (n:=FN) 1 2) (fofZ 0) (fofZ 2)
    {| e_b := {| bs_gids := [0]%nat; bs_x := [v3 (N:=FN) (fofZ 1) (fofZ 2) (fofZ 3)]; bs_field := fun tg => repeat (S754_zero false) (target_dim tg) |};
       e_y := [fofZ 1; fofZ 2; fofZ 3]; e_a := [fofZ 0; fofZ 0; fofZ 0]; e_mat := tt |}.
Theorem C36_unconverged_steps_refuted :
  match stuck with
  | Ok [_; (_, _, r1, k1); (_, _, r2, k2)] => SFltb (lit (n:=FN) 4 10) (norm2 (N:=FN) r1) && SFltb (lit (n:=FN) 4 10) (norm2 (N:=FN) r2) && Nat.eqb k1 6 && Nat.eqb k2 12
  | _ => false
  end = true.
Proof. vm_compute. reflexivity. Qed.
Print Assumptions C36_unconverged_steps_refuted.

(** The residual of the fluid pressure before the first correction and after later ones are
    different functions of the same values. *)
Theorem C36_fluid_residual_refuted : forall dt pressure before flow density compressibility : R,
  flow <> 0 -> density * compressibility <> 0 -> density * compressibility <> 1 ->
  fluid_residual_first (N:=RN) dt pressure before flow density compressibility <> fluid_residual_later (N:=RN) dt pressure before flow.
Proof.
  intros dt p b flow rho c F Z O E. unfold fluid_residual_first, fluid_residual_later in E. to_R.
  change ((p - b) / dt - flow / (rho * c) = (p - b) / dt - flow) in E. apply O.
  assert (Q : flow / (rho * c) = flow) by lra. apply (f_equal (fun z => z * (rho * c))) in Q. unfold Rdiv in Q. rewrite Rmult_assoc, Rinv_l, Rmult_1_r in Q by exact Z.
  apply (Rmult_eq_reg_l flow); [|exact F]. lra.
Qed.
Print Assumptions C36_fluid_residual_refuted.

(** *** Concrete cases *)
(** One point on a spring, a displacement prescribed for its first component, a body force t
    on the second: five steps succeed for any solver of the right size. *)
Section Case36.
  Definition nm_ps : list (bc_params RN) :=
    [{| bp_type := PRESCRIBED_DISPLACEMENT; bp_set := "Set"; bp_coord := CX; bp_value := VText "5*t" |};
     {| bp_type := BODY_FORCE; bp_set := "Set"; bp_coord := CY; bp_value := VText "t" |}].
  Definition nm_run (text : string) (x : V3 RN) (t v : RN) : option RN := Some (if String.eqb text "value = t" then t else 5 * t).
  Definition nm_sets (n : string) : option (list nat) := if String.eqb n (tidy "Set") then Some [7]%nat else None.
  Definition nm_state : estate RN unit :=
    {| e_b := {| bs_gids := [7]%nat; bs_x := [vzero]; bs_field := fun tg => repeat (0 : T RN) (target_dim tg) |}; e_y := [0; 0; 0]; e_a := [0; 0; 0]; e_mat := tt |}.
  Definition nm_eval (m : unit) (u y v : list RN) : outcome (unit * list RN * option (list RN)) := Ok (m, map (fun e : R => - e : R) u, None).
  (** A solver that leaves the first component alone. *)
  Definition nm_solver (k : nat) (r : list RN) : list RN := match r with [a; b; c] => [a; 2 * b; c] | _ => repeat (0 : T RN) (length r) end.
  Lemma nm_complete : complete nm_state.
  Proof. split; [split; [reflexivity|intros []; reflexivity]|split; reflexivity]. Qed.
  Lemma nm_evaluates : always_evaluates (fun _ => true) 1 nm_eval.
  Proof. intros m u y v L _ _. exists m, (map (fun e : R => - e : R) u), None. split; [reflexivity|]. split; [rewrite map_length; exact L|]. split; [apply forallb_all; reflexivity|discriminate]. Qed.
  Definition nm_floor (x : RN) : option Z := Some (up x - 1)%Z.
  Lemma nm_is_floor : is_floor nm_floor.
  Proof. intros r. exists (up r - 1)%Z. split; [reflexivity|]. rewrite minus_IZR. destruct (archimed r). lra. Qed.
  Example C36_case : exists cs out, add_all (N:=RN) (fun _ => EmptyString) nm_ps = Ok cs /\
    execute_implicit (N:=RN) nm_floor (fun _ => true) nm_run (fun _ => true) nm_sets (cs_boundary cs) (cs_force cs) unit nm_eval [2] mechanics mechanics_dofs nm_solver (1/100) 3 (1/10) (1/4) (1/2) 0 (1/2) nm_state = Ok out /\
    length out = 6%nat /\
    (forall i t s r k, nth_error out i = Some (t, s, r, k) -> held s (u_of s) 7 0 = Some 0) /\
    (forall i t1 s1 r1 k1 t2 s2 r2 k2, nth_error out i = Some (t1, s1, r1, k1) -> nth_error out (S i) = Some (t2, s2, r2, k2) -> held s2 (ext_of s2) 7 1 = Some t1).
  Proof.
    eexists. 
    assert (A : add_all (N:=RN) (fun _ => EmptyString) nm_ps = Ok _) by (vm_compute; reflexivity).
    match type of A with _ = Ok ?c => set (cs := c) in * end.
    destruct (C36_run_succeeds nm_floor (fun _ => true) nm_run (fun _ => true) nm_sets (fun _ => EmptyString) nm_ps cs unit nm_eval [2] nm_solver (1/100) 3 (1/10) (1/4) (1/2) 0 (1/2) nm_state nm_is_floor) as (out & H); try lra; try exact A; try apply nm_complete; try reflexivity; try discriminate.
    { intros p [<-|[<-|[]]]; discriminate. } { apply nm_evaluates. }
    { intros k r L. destruct r as [|a [|b [|c [|? ?]]]]; try discriminate; reflexivity. }
    exists out. split; [reflexivity|]. split; [exact H|].
    destruct (C36_run nm_floor (fun _ => true) nm_run (fun _ => true) nm_sets (fun _ => EmptyString) nm_ps cs unit nm_eval [2] nm_solver (1/100) 3 (1/10) (1/4) (1/2) 0 (1/2) nm_state out nm_is_floor) as (n & Ln & Bn & _ & _); try lra; try lia; try exact A; try apply nm_complete; try exact H.
    split.
    { rewrite Ln. f_equal. rewrite S_INR in Bn. rewrite INR_IZR_INZ in Bn. assert (4 < Z.of_nat n)%Z by (apply lt_IZR; lra). assert (Z.of_nat n < 6)%Z by (apply lt_IZR; lra). lia. }
    split.
    - intros i t s r k Hi. eapply (C36_constrained_components_stay nm_floor (fun _ => true) nm_run (fun _ => true) nm_sets (fun _ => EmptyString) nm_ps cs unit nm_eval [2] nm_solver (1/100) 3 (1/10) (1/4) (1/2) 0 (1/2) nm_state out 7%nat 0%nat 0); try exact Hi; try exact H; try lra; try exact A; try apply nm_complete; try reflexivity; try lia; try (left; reflexivity).
      + exists (hd (Build_bc_params (N:=RN) NO_SUCH_BOUNDARY_CONDITION_TYPE "" CX (VText "")) nm_ps). split; [left; reflexivity|]. split; [right; left; reflexivity|]. split; [reflexivity|]. exists [7]%nat. split; [reflexivity|left; reflexivity].
      + intros k0 r0. unfold held. cbn. destruct r0 as [|a [|b [|c [|? ?]]]]; cbn; auto.
    - intros i t1 s1 r1 k1 t2 s2 r2 k2 H1 H2.
      destruct (C36_run nm_floor (fun _ => true) nm_run (fun _ => true) nm_sets (fun _ => EmptyString) nm_ps cs unit nm_eval [2] nm_solver (1/100) 3 (1/10) (1/4) (1/2) 0 (1/2) nm_state out nm_is_floor) as (_ & _ & _ & Q & _); try lra; try lia; try exact A; try apply nm_complete; try exact H.
      destruct (Q _ _ _ _ _ H1) as (_ & _ & G1 & X1).
      refine (proj1 (C36_body_forces_lag_refuted nm_floor (fun _ => true) nm_run (fun _ => true) nm_sets (fun _ => EmptyString) nm_ps cs unit nm_eval [2] nm_solver (1/100) 3 (1/10) (1/4) (1/2) 0 (1/2) nm_state out _ _ A nm_complete H i t1 s1 r1 k1 t2 s2 r2 k2
        {| bp_type := BODY_FORCE; bp_set := "Set"; bp_coord := CY; bp_value := VText "t" |} 7%nat 1%nat vzero (fun t => t) H1 H2 _ _ _)); try lra.
      + exists [hd (Build_bc_params (N:=RN) NO_SUCH_BOUNDARY_CONDITION_TYPE "" CX (VText "")) nm_ps], []. split; [reflexivity|]. split; [|intros ? []]. split; [left; reflexivity|]. split; [reflexivity|]. exists [7]%nat. split; [reflexivity|left; reflexivity].
      + unfold position. rewrite G1, X1. reflexivity.
      + intros t v. reflexivity.
  Qed.
End Case36.
