(** * Influence functions, elastic constants, critical time step

    Model of src/core/Peridigm_InfluenceFunction.{hpp,cpp},
    src/materials/Peridigm_Material.cpp:335-433 (elastic constants),
    src/core/Peridigm_CriticalTimeStep.cpp:54-127 and the choice of the time step in
    src/core/Peridigm.cpp:1290-1316. *)
From Coq Require Import String.
From Verif Require Import Base Num.

(** ** Influence functions *)
Section Influence.
  Context {N : Num}.
  Local Open Scope num_scope.

  (** Peridigm_InfluenceFunction.hpp:69-71 *)
  Definition infl_one (zeta horizon : N) : N := 1.

  (** Peridigm_InfluenceFunction.hpp:73-80 *)
  Definition infl_parabolic (zeta horizon : N) : N :=
    if horizon <? zeta then 0
    else let s := zeta / horizon in
         if s <? lit 1 2 then 1 else (- ofZ 4) * s * s + ofZ 4 * s.

  (** Peridigm_InfluenceFunction.hpp:82-87; [expf] is the C library exp, and 0.4 is the
      literal of the source. *)
  Definition infl_gaussian (expf : N -> N) (zeta horizon : N) : N :=
    let h2 := horizon * horizon * lit 2 5 * lit 2 5 in
    let xi2 := zeta * zeta in
    expf (- xi2 / h2).

  (** A function pointer (Peridigm_InfluenceFunction.hpp:96): one of the three built-in
      functions or the function that runs the user's expression. *)
  Inductive fpointer := POne | PParabolic | PGaussian | PUser.

  (** The singleton: the selected pointer (hpp:174) and the body held by the one static
      run-time compiled function (hpp:171; None before any body was accepted). *)
  Record infl_state := { is_sel : option fpointer; is_body : option (N -> N -> N) }.

  Local Open Scope string_scope.

  (** hpp:102-118 *)
  Definition predefined (name : string) : outcome fpointer :=
    if String.eqb name "One" then Ok POne
    else if String.eqb name "Parabolic Decay" then Ok PParabolic
    else if String.eqb name "Gaussian" then Ok PGaussian
    else Err.

  (** std::string::find(t) != npos, used with "value" (hpp:135) *)
  Fixpoint contains (t s : string) : bool :=
    if String.prefix t s then true
    else match s with EmptyString => false | String _ r => contains t r end.

  (** hpp:121-147.  [compile] stands for the Trilinos run-time compiler (addBody followed
      by varValueFill): None is failure.  Simplification: a body that is rejected leaves
      the previous body in place (what Trilinos keeps in that case is not modelled). *)
  Definition set_influence (compile : string -> option (N -> N -> N)) (st : infl_state)
      (name : string) : outcome infl_state :=
    if String.eqb name "One" then Ok {| is_sel := Some POne; is_body := is_body st |}
    else if String.eqb name "Parabolic Decay" then
      Ok {| is_sel := Some PParabolic; is_body := is_body st |}
    else if String.eqb name "Gaussian" then
      Ok {| is_sel := Some PGaussian; is_body := is_body st |}
    else
      let text := if contains "value" name then name else "value = " ++ name in
      match compile text with
      | Some f => Ok {| is_sel := Some PUser; is_body := Some f |}
      | None => Err
      end.

  (** hpp:150-154 *)
  Definition get_influence (st : infl_state) : outcome fpointer :=
    match is_sel st with None => Err | Some p => Ok p end.

  (** Constructor, Peridigm_InfluenceFunction.cpp:58-67 *)
  Definition infl_init : infl_state := {| is_sel := Some POne; is_body := None |}.

  (** Calling a function pointer; the user's function is cpp:69-80, which returns 0 when
      the compiled function cannot be executed. *)
  Definition call_influence (expf : N -> N) (st : infl_state) (p : fpointer) (zeta horizon : N) : N :=
    match p with
    | POne => infl_one zeta horizon
    | PParabolic => infl_parabolic zeta horizon
    | PGaussian => infl_gaussian expf zeta horizon
    | PUser => match is_body st with Some f => f zeta horizon | None => ofZ 0 end
    end.

  (** A sequence of selections, each of which may be refused (the exception is taken to
      be caught by the caller, the state being what it was). *)
  Definition set_many compile (st : infl_state) (names : list string) : infl_state :=
    fold_left (fun s n => match set_influence compile s n with Ok s' => s' | _ => s end) names st.
End Influence.
Arguments infl_state N : clear implicits.

(** ** Elastic constants (Peridigm_Material.cpp:335-433) *)
Section Moduli.
  Context {N : Num}.
  Local Open Scope num_scope.

  (** The entries of the material's parameter list that are read. *)
  Record elastic_params := {
    p_bulk : option N; p_shear : option N; p_young : option N; p_poisson : option N;
    p_plane_strain : option bool; p_plane_stress : option bool }.

  Definition count_opt {A} (o : option A) : nat := match o with Some _ => 1 | None => 0 end.

  (** lines 364-369 and 414-419 *)
  Definition num_constants (p : elastic_params) : nat :=
    (count_opt (p_bulk p) + count_opt (p_shear p) + count_opt (p_young p) + count_opt (p_poisson p))%nat.

  Definition flag (o : option bool) : bool := match o with Some b => b | None => false end.

  (** lines 335-388 *)
  Definition bulk_modulus (p : elastic_params) : outcome N :=
    if negb (Nat.eqb (num_constants p) 2) then Err
    else match p_bulk p, p_shear p, p_young p, p_poisson p with
         | Some K, _, _, _ => Ok K
         | None, Some G, Some E, _ => Ok ((E * G) / (3 * (3 * G - E)))
         | None, _, Some E, Some nu =>
             if flag (p_plane_strain p) then Ok (E / (2 * (1 - nu - 2 * nu * nu)))
             else if flag (p_plane_stress p) then Ok (E / (2 * (1 - nu)))
             else Ok (E / (3 * (1 - 2 * nu)))
         | None, Some G, _, Some nu => Ok ((2 * G * (1 + nu)) / (3 * (1 - 2 * nu)))
         | _, _, _, _ => Err
         end.

  (** lines 391-433 *)
  Definition shear_modulus (p : elastic_params) : outcome N :=
    if negb (Nat.eqb (num_constants p) 2) then Err
    else match p_shear p, p_bulk p, p_young p, p_poisson p with
         | Some G, _, _, _ => Ok G
         | None, Some K, Some E, _ => Ok ((3 * K * E) / (ofZ 9 * K - E))
         | None, Some K, _, Some nu => Ok ((3 * K * (1 - 2 * nu)) / (2 * (1 + nu)))
         | None, _, Some E, Some nu => Ok (E / (2 * (1 + nu)))
         | _, _, _, _ => Err
         end.
End Moduli.
Arguments elastic_params N : clear implicits.

(** ** Critical time step *)
Section TimeStep.
  Context {N : Num}.
  Local Open Scope num_scope.

  (** What one processor holds of one block: volumes and reference positions of the
      overlap points, the local ids of the owned points, each with its neighbour ids
      (the flat list of NeighborhoodData already cut into rows; cf. ModelNeigh). *)
  Record block_data := {
    bd_volume : list N; bd_x : list (V3 N); bd_rows : list (nat * list nat) }.

  (** The horizon of a block: a constant or a function of position
      (Peridigm_HorizonManager blockHasConstantHorizon / evaluateHorizon). *)
  Inductive horizon_def := HConst (h : N) | HVar (f : V3 N -> N).

  (** Peridigm_CriticalTimeStep.cpp:80-82 and 95-98 *)
  Definition spring_constant (K h : N) : N := ofZ 18 * K / (pi * h * h * h * h).

  (** cpp:84, 121: the value 1.0e50 *)
  Definition huge : N := ofZ (10 ^ 50).

  (** cpp:100-119: the bonds of one point (the warning about coincident points only
      prints). *)
  Definition denominator (c : N) (d : block_data) (X : V3 N) (ns : list nat) : outcome N :=
    foldM (fun acc j =>
             let? vj := at_ub (bd_volume d) j in
             let? xj := at_ub (bd_x d) j in
             Ok (acc + vj * c / vlen (vsub X xj))) 0 ns.

  (** cpp:87-126: the loop over the owned points *)
  Definition rank_step (rho K : N) (h : horizon_def) (d : block_data) : outcome N :=
    foldM (fun best row =>
             let? X := at_ub (bd_x d) (fst row) in
             let c := spring_constant K (match h with HConst v => v | HVar f => f X end) in
             let? den := denominator c d X (snd row) in
             let dt := match snd row with [] => huge | _ => sqr_root (2 * rho / den) end in
             Ok (if dt <? best then dt else best)) huge (bd_rows d).

  (** Epetra_Comm::MinAll: the minimum over the processors (there is at least one). *)
  Definition min_all (l : list N) : outcome N :=
    match l with
    | [] => UB
    | a :: t => Ok (fold_left (fun m b => if b <? m then b else m) t a)
    end.

  Fixpoint mapO {A B} (f : A -> outcome B) (l : list A) : outcome (list B) :=
    match l with
    | [] => Ok []
    | a :: t => let? b := f a in let? r := mapO f t in Ok (b :: r)
    end.

  (** A block: density, bulk modulus, horizon, and the data of every processor. *)
  Record block := { bk_rho : N; bk_K : N; bk_h : horizon_def; bk_ranks : list block_data }.

  (** cpp:54-134 on all processors: ComputeCriticalTimeStep *)
  Definition critical_step (b : block) : outcome N :=
    let? l := mapO (rank_step (bk_rho b) (bk_K b) (bk_h b)) (bk_ranks b) in min_all l.

  (** Peridigm.cpp:1295-1316: [fixed] is "Fixed dt", [safety] is "Safety Factor".  Every
      processor computes the same minimum over the blocks; the second MinAll (line 1302)
      is taken over [nprocs] equal values. *)
  Definition explicit_step (nprocs : nat) (blocks : list block) (fixed safety : option N) : outcome N :=
    let? m := foldM (fun best b => let? s := critical_step b in
                                   Ok (if s <? best then s else best)) huge blocks in
    let? g := min_all (repeat m nprocs) in
    let dt := match fixed with Some f => f | None => g end in
    Ok (match safety with Some s => dt * s | None => dt end).
End TimeStep.
Arguments block_data N : clear implicits.
Arguments horizon_def N : clear implicits.
Arguments block N : clear implicits.
