(** * Load stepping of the quasi-static solver

    Model of the loop over load steps in src/core/Peridigm.cpp:2576-3043
    (executeQuasiStatic).  The nonlinear iterations of a load step (2674-2877) are an oracle:
    for each attempt, the residual norm and the tolerance they end with. *)
From Verif Require Import Base Num ModelScalar.

Section Quasi.
  Context {N : Num}.
  Local Open Scope num_scope.

  (** cpp:2579-2587: initial time, final time and number of load steps given *)
  Definition uniform_steps (ti tf : N) (n : nat) : list N :=
    ti :: map (fun i => ti + ofZ (Z.of_nat (S i)) * (tf - ti) / ofZ (Z.of_nat n)) (seq 0 n).

  (** cpp:2609-2628: the list "Adaptive Load-Stepping" *)
  Record adaptive := { max_in_step : Z; max_total : Z; reduce_all : bool; switch_to_explicit : bool }.

  (** cpp:2882-2883: failure is a residual above the tolerance and not below 100 times it.
      [tol] is tolerance*toleranceMultiplier; the code multiplies by 100 first. *)
  Definition acceptable (residual tol : N) : bool := negb (tol <? residual) || (residual <? ofZ 100 * tol).

  (** cpp:2929-2933: [last] is timeSteps[step+i]; None when [fuel] runs out *)
  Fixpoint same_step_again (fuel : nat) (current increment final last : N) (i : nat) : option (list N) :=
    match fuel with
    | O => None
    | S f =>
        if last <? final then
          let t := current + ofZ (Z.of_nat (S i)) * increment in
          match same_step_again f current increment final t (S i) with Some l => Some (t :: l) | None => None end
        else Some []
    end.

  (** How the loop ends: past the last step; by break with a message (2897-2908); by break to
      go on with the explicit solver, from this time to the final time (3006-3036). *)
  Inductive ending := Finished | Aborted | Switched (from : N).
  (** An accepted load step: number of the attempt, its initial and final time. *)
  Record load_step := { ls_attempt : nat; ls_from : N; ls_to : N }.

  (** The variables of the loop.  [q_todo] is timeSteps[step], timeSteps[step+1], ...; entries
      before [step] are never read again. *)
  Record qstate := { q_todo : list N; q_prev : N; q_cur : N; q_failed : bool; q_here : Z; q_total : Z; q_conv : bool;
                     q_attempt : nat; q_done : list load_step }.

  Variable solve : nat -> N * N.
  Variable ad : option adaptive.
  Variable final : N.


  (** cpp:2655-2999, one attempt per unit of fuel; None when fuel runs out *)
  Fixpoint qs_loop (fuel : nat) (s : qstate) : option (ending * nat * list load_step) :=
    match fuel with
    | O => None
    | S f =>
        match q_todo s with
        | [] => Some (Finished, q_attempt s, q_done s)
        | t :: rest =>
            let prev := match ad with Some _ => if q_failed s then q_prev s else q_cur s | None => q_cur s end in
            let increment := t - prev in
            let (residual, tol) := solve (q_attempt s) in
            if acceptable residual tol then
              let next := match ad with
                          | Some a => if reduce_all a && q_conv s then same_step_again fuel t increment final t 0 else Some rest
                          | None => Some rest
                          end in
              match next with
              | None => None
              | Some todo =>
                  qs_loop f {| q_todo := todo; q_prev := prev; q_cur := t; q_failed := false; q_here := 0; q_total := q_total s; q_conv := false;
                               q_attempt := S (q_attempt s);
                               q_done := q_done s ++ [ {| ls_attempt := q_attempt s; ls_from := prev; ls_to := t |} ] |}
              end
            else
              match ad with
              | None => Some (Aborted, S (q_attempt s), q_done s)
              | Some a =>
                  let here := (q_here s + 1)%Z in
                  let total := (q_total s + 1)%Z in
                  if (max_total a <? total)%Z || (max_in_step a <? here)%Z then
                    Some (if switch_to_explicit a then Switched prev else Aborted, S (q_attempt s), q_done s)
                  else
                    qs_loop f {| q_todo := prev + increment / 2 :: t :: rest; q_prev := prev; q_cur := t; q_failed := true; q_here := here;
                                 q_total := total; q_conv := true; q_attempt := S (q_attempt s); q_done := q_done s |}
              end
        end
    end.
End Quasi.
Arguments load_step N : clear implicits.
Arguments ending N : clear implicits.
Arguments qstate N : clear implicits.

(** cpp:2576-3043.  No time steps: timeSteps[size-1] is out of range (2601). *)
Definition execute_quasi_static {N : Num} (solve : nat -> N * N) (ad : option adaptive) (steps : list N) (fuel : nat) :
    outcome (option (ending N * nat * list (load_step N))) :=
  match steps with
  | [] => UB
  | t0 :: todo =>
      if match ad with Some a => (max_total a <? max_in_step a)%Z | None => false end then Err else
      Ok (qs_loop solve ad (last todo t0) fuel
            {| q_todo := todo; q_prev := t0; q_cur := t0; q_failed := false; q_here := 0; q_total := 0; q_conv := false; q_attempt := 0; q_done := [] |})
  end.
