(** * Line search of the quasi-static solver (src/core/Peridigm.cpp:3364-3618) *)
From Coq Require Import Reals.
From Verif Require Import Base Num ModelScalar ModelExplicit.

Section Line.
  Context {N : Num}.
  Local Open Scope num_scope.
  (** std::isfinite *)
  Variable finite : N -> bool.
  (** computeQuasiStaticResidual (cpp:4176-4317), its norm and residual vector, as a function
      of the number of the evaluation within the search and of y and v; Err when it terminates.
      The number lets the material state depend on earlier evaluations. *)
  Variable evaluate : nat -> list N -> list N -> outcome (N * list N).
  (** [origin] is x + u for displacements and u for fluid pressure. *)
  Variables (origin lhs : list N) (dt : N).
  (** analysisHasMultiphysics *)
  Variable multi : bool.

  (** The increment (deltaU, or unknownsDeltaU with multiphysics), y and v.  With multiphysics
      the copies of the unknowns into the mechanical and pressure vectors (cpp:3424-3433) are
      not modelled separately. *)
  Record trial := { tr_delta : list N; tr_y : list N; tr_v : list N }.

  (** cpp:3411-3442, 3475-3508, 3558-3591: delta += alpha lhs, y = x + u + delta, v = delta/dt *)
  Definition moved (alpha : N) (delta : list N) : outcome trial :=
    let? d := map2_ub (fun d l => d + alpha * l) delta lhs in
    let? y := map2_ub add origin d in
    Ok {| tr_delta := d; tr_y := y; tr_v := map (fun d => d / dt) d |}.

  (** cpp:3405 *)
  Definition epsilon : N := lit 1 10000.
  (** 1.0e50 of cpp:3402, 3601, 3602 *)
  Definition huge : N := ofZ (10 ^ 50).

  (** cpp:3471-3520 and 3553-3595 for one candidate: residual norm with [step], the increment
      put back afterwards, so that only y and v differ in the state returned. *)
  Definition try_one (k : nat) (step : N) (delta : list N) : outcome (N * trial) :=
    let? t := moved step delta in
    let? r := evaluate k (tr_y t) (tr_v t) in
    Ok (fst r, {| tr_delta := delta; tr_y := tr_y t; tr_v := tr_v t |}).

  (** cpp:3471-3520: the first loop; with multiphysics every candidate is tried with epsilon
      (cpp:3477-3484).  [best] is (bestAlpha, bestResidual). *)
  Fixpoint first_loop (k : nat) (candidates : list N) (best : N * N) (s : trial) : outcome (N * N * trial) :=
    match candidates with
    | [] => Ok (best, s)
    | alpha :: rest =>
        let? r := try_one k (if multi then epsilon else alpha) (tr_delta s) in
        let best' := if finite (fst r) && (fst r <? snd best) then (alpha, fst r) else best in
        first_loop (S k) rest best' (snd r)
    end.

  (** cpp:3550-3595: the second loop; [data] is residualData, in reverse *)
  Fixpoint second_loop (k : nat) (n0 : N) (candidates : list N) (best : N * N) (data : list (N * N)) (s : trial)
    : outcome (N * N * list (N * N) * trial) :=
    match candidates with
    | [] => Ok (best, data, s)
    | alpha :: rest =>
        let? r := try_one k alpha (tr_delta s) in
        let norm := fst r in
        let better := finite norm && (norm <? snd best) in
        let worse := finite norm && negb (norm <? snd best) && (n0 <? norm) in
        second_loop (S k) n0 rest (if better then (alpha, norm) else best)
          (if worse then (alpha, (norm - n0) / n0) :: data else data) (snd r)
    end.

  (** fabs *)
  Definition magnitude (a : N) : N := if a <? 0 then - a else a.

  (** cpp:3600-3613: the recorded increase nearest to 10%; [best] is (bestAlpha, bestResult) *)
  Definition nearest_increase (data : list (N * N)) (best : N * N) : N * N :=
    fold_left (fun best p => let d := magnitude (snd p - lit 1 10) in if d <? snd best then (fst p, d) else best) data best.

  (** cpp:3462-3468 *)
  Definition first_candidates : list N := [lit 1 10; lit 2 10; lit 3 10; lit 5 10; lit 75 100; 1].
  (** cpp:3530-3541 *)
  Definition second_candidates : list N :=
    map (fun i => lit 2 1000 * ofZ (Z.of_nat (i + 1))) (seq 0 25) ++
    map (fun i => lit 1 100 * ofZ (Z.of_nat (i + 1)) + lit 5 100) (seq 0 15) ++
    map (fun i => lit 5 100 * ofZ (Z.of_nat (i + 1)) + lit 2 10) (seq 0 6) ++
    [lit 75 100; 1; lit 15 10; 2; ofZ 5; ofZ 10].

  (** Epetra_Vector::Dot on one process, sum in order *)
  Definition dot (a b : list N) : outcome N :=
    let? p := map2_ub mul a b in Ok (fold_left add p 0).

  (** cpp:3444-3453: the "systematic guess" *)
  Definition guess (sr spr : N) : list N :=
    let a := - (1) * epsilon * sr / (spr - sr) in
    if (- lit 1 10 <? a) && (a <? ofZ 10) then [a] else [].

  (** cpp:3397-3617.  The residual vector of the first evaluation is [snd r0]. *)
  Definition line_search (s : trial) : outcome (N * trial) :=
    let? r0 := evaluate 0 (tr_y s) (tr_v s) in
    let n0 := fst r0 in
    if negb (finite n0) then Err
    else if n0 =? 0 then Ok (0, s)
    else
      let? t := moved epsilon (tr_delta s) in
      let? r1 := evaluate 1 (tr_y t) (tr_v t) in
      let? sr := dot lhs (snd r0) in
      let? spr := dot lhs (snd r1) in
      let s1 := {| tr_delta := tr_delta s; tr_y := tr_y t; tr_v := tr_v t |} in
      let first := guess sr spr ++ first_candidates in
      let? f := first_loop 2 first (1, huge) s1 in
      let '(best, s2) := f in
      if lit 2 100 <? (n0 - snd best) / n0 then Ok (fst best, s2)
      else
        let? g := second_loop (2 + length first) n0 second_candidates best [] s2 in
        let '(best, data, s3) := g in
        if lit 1 10000 <? (n0 - snd best) / n0 then Ok (fst best, s3)
        else Ok (fst (nearest_increase (rev data) (fst best, huge)), s3).
End Line.
