(** * Boundary and initial conditions

    Model of src/core/Peridigm_BoundaryCondition.cpp and of
    src/core/Peridigm_BoundaryAndInitialConditionManager.cpp:70-183, 288-322, 372-506. *)
From Coq Require Import String Ascii.
From Verif Require Import Base Num ModelScalar ModelInput.

(** Epetra_BlockMap::LID on one processor: the position of a global id among the local ids
    (None for -1). *)
Fixpoint pos (m : list nat) (g : nat) : option nat :=
  match m with
  | [] => None
  | h :: t => if Nat.eqb h g then Some 0 else option_map S (pos t g)
  end.

(** A node set of one processor after the cull of off-processor nodes (cpp:275-285). *)
Definition cull (owned : list nat) (nodes : list nat) : list nat :=
  filter (fun g => match pos owned g with Some _ => true | None => false end) nodes.

(** The vectors a condition can write (manager cpp:95-174). *)
Inductive target := TU | TV | TDeltaU | TTemp | TDeltaTemp | TFluidU | TFluidDeltaU | TFluidV | TForce.
(** Element size of their maps: three for displacements, velocities and forces. *)
Definition target_dim (t : target) : nat :=
  match t with TU | TV | TDeltaU | TForce => 3 | _ => 1 end.
Definition target_eqb (a b : target) : bool :=
  match a, b with
  | TU, TU | TV, TV | TDeltaU, TDeltaU | TTemp, TTemp | TDeltaTemp, TDeltaTemp
  | TFluidU, TFluidU | TFluidDeltaU, TFluidDeltaU | TFluidV, TFluidV | TForce, TForce => true
  | _, _ => false
  end.

Section Conditions.
  Context {N : Num}.
  Local Open Scope num_scope.

  (** What one processor holds: the ids of its points, their reference coordinates, and the
      vectors (dim entries per point).  All vectors have maps with the same points in the
      same order (Peridigm.cpp initializeDiscretization); the lengths are hypotheses of the
      theorems. *)
  Record bstate := { bs_gids : list nat; bs_x : list (V3 N); bs_field : target -> list N }.

  Definition set_field (s : bstate) (t : target) (l : list N) : bstate :=
    {| bs_gids := bs_gids s; bs_x := bs_x s;
       bs_field := fun t' => if target_eqb t t' then l else bs_field s t' |}.

  (** DirichletBC, DirichletIncrementBC (coeff, deltaTCoeff,
      computeChangeRelativeToInitialValue), NeumannBC *)
  Inductive kind := Dirichlet | Increment (coeff dtcoeff : N) (rel : bool) | Neumann.

  Record cond := { cd_type : bc_type; cd_set : string; cd_coord : nat; cd_text : string;
                   cd_target : target; cd_kind : kind }.

  (** One sublist of the boundary conditions, its "Type", "Node Set", "Coordinate" (X when
      absent) and "Value" (number or text) already extracted. *)
  Inductive value_entry := VNumber (v : N) | VText (t : string).
  Record bc_params := { bp_type : bc_type; bp_set : string; bp_coord : coordinate; bp_value : value_entry }.

  (** BoundaryCondition.cpp:56-96.  [show] is the text of a double (precision 6, line 75).
      Index -1 (coordinate NO_SUCH_SPATIAL_COORDINATE) on a vector is an out-of-range
      subscript later on. *)
  Definition make_cond (show : N -> string) (p : bc_params) (tg : target) (k : kind) : outcome cond :=
    let text := match bp_value p with VNumber v => show v | VText t => t end in
    let mk c := {| cd_type := bp_type p; cd_set := tidy (bp_set p); cd_coord := c;
                   cd_text := text; cd_target := tg; cd_kind := k |} in
    if Nat.eqb (target_dim tg) 1
    then match bp_coord p with CX => Ok (mk 0%nat) | _ => Err end
    else match bp_coord p with CX => Ok (mk 0%nat) | CY => Ok (mk 1%nat) | CZ => Ok (mk 2%nat)
         | NO_SUCH_SPATIAL_COORDINATE => UB end.

  (** The three lists of the manager: initial conditions, boundary conditions, body forces. *)
  Record conds := { cs_initial : list cond; cs_boundary : list cond; cs_force : list cond }.
  Definition conds_empty : conds := {| cs_initial := []; cs_boundary := []; cs_force := [] |}.

  (** manager cpp:80-181.  The conditions for rank deficient nodes (cpp:185-203) are not
      modelled. *)
  Definition add_params (show : N -> string) (cs : conds) (p : bc_params) : outcome conds :=
    let init tg := let? c := make_cond show p tg Dirichlet in
      Ok {| cs_initial := cs_initial cs ++ [c]; cs_boundary := cs_boundary cs; cs_force := cs_force cs |} in
    let bnd (l : list (target * kind)) :=
      let? r := mapO (fun tk => make_cond show p (fst tk) (snd tk)) l in
      Ok {| cs_initial := cs_initial cs; cs_boundary := cs_boundary cs ++ r; cs_force := cs_force cs |} in
    match bp_type p with
    | INITIAL_DISPLACEMENT => init TU
    | INITIAL_VELOCITY => init TV
    | PRESCRIBED_DISPLACEMENT => bnd [(TDeltaU, Increment 1 0 false); (TV, Increment 0 1 false)]
    | PRESCRIBED_FLUID_PRESSURE_U => bnd [(TFluidDeltaU, Increment 1 0 false); (TFluidV, Increment 0 1 false)]
    | INITIAL_FLUID_PRESSURE_U => init TFluidU
    | INITIAL_TEMPERATURE => init TTemp
    | PRESCRIBED_TEMPERATURE => bnd [(TTemp, Dirichlet); (TDeltaTemp, Increment 1 0 true)]
    | THERMAL_FLUX => bnd [(TTemp, Neumann)]
    | BODY_FORCE =>
        let? c := make_cond show p TForce Dirichlet in
        Ok {| cs_initial := cs_initial cs; cs_boundary := cs_boundary cs; cs_force := cs_force cs ++ [c] |}
    | NO_SUCH_BOUNDARY_CONDITION_TYPE => Ok cs
    end.
  Definition add_all (show : N -> string) (ps : list bc_params) : outcome conds :=
    foldM (add_params show) conds_empty ps.

  (** The run-time compiled expression: [run text x t v] is the value of the variable
      "value" after executing [text] with the coordinates [x], the time [t] and the variable
      "value" holding [v]; None when execution fails.  [compiles] is addBody.
      (Simplified: the expression is taken not to change x, y, z and t.) *)
  Variable compiles : string -> bool.
  Variable run : string -> V3 N -> N -> N -> option N.
  (** std::isfinite *)
  Variable finite : N -> bool.

  (** cpp:164-166, 216-218 *)
  Definition body (c : cond) : string :=
    if contains "value" (cd_text c) then cd_text c else ("value = " ++ cd_text c)%string.

  (** cpp:98-148: the values at the current and at the previous time.  "value" is set to
      zero before the first execution only. *)
  Definition evaluate (s : bstate) (c : cond) (i : nat) (tc tp : N) : outcome (N * N) :=
    let? x := at_ub (bs_x s) i in
    match run (body c) x tp 0 with
    | None => Err
    | Some prev =>
        match run (body c) x tc prev with
        | None => Err
        | Some cur =>
            if (match cd_type c with PRESCRIBED_DISPLACEMENT => true | _ => false end) && (cur - prev =? 0)
            then let? u := at_ub (bs_field s TU) (i * 3 + cd_coord c) in Ok (cur, u)
            else Ok (cur, prev)
        end
    end.

  (** The value written for a local point: cpp:180-184 (Dirichlet, previous time 0),
      cpp:232-238 (increment), cpp:309 with nodalValues, which nothing ever changes from
      its initial zero (cpp:261-262) (Neumann). *)
  Definition new_value (s : bstate) (c : cond) (i : nat) (tc tp : N) : outcome N :=
    match cd_kind c with
    | Dirichlet =>
        let? (cur, _) := evaluate s c i tc 0 in
        if finite cur then Ok cur else Err
    | Increment a b rel =>
        let tp' := if rel then 0 else tp in
        let? (cur, prev) := evaluate s c i tc tp' in
        let v := a * (cur - prev) + b * (cur - prev) * (1 / (tc - tp')) in
        if finite v then Ok v else Err
    | Neumann => Ok 0
    end.

  Definition set_node (c : cond) (tc tp : N) (s : bstate) (g : nat) : outcome bstate :=
    match pos (bs_gids s) g with
    | None => Ok s
    | Some i =>
        let? v := new_value s c i tc tp in
        let? l := upd_ub (bs_field s (cd_target c)) (i * target_dim (cd_target c) + cd_coord c) v in
        Ok (set_field s (cd_target c) l)
    end.

  (** cpp:157-187, 202-241, 297-313 *)
  Definition apply_cond (sets : string -> option (list nat)) (tc tp : N) (s : bstate) (c : cond) : outcome bstate :=
    let go := match sets (cd_set c) with
              | None => Err
              | Some nodes => foldM (set_node c tc tp) s nodes
              end in
    match cd_kind c with
    | Dirichlet => if compiles (body c) then go else Err
    | Increment _ _ _ => if tc =? tp then Ok s else if compiles (body c) then go else Err
    | Neumann => go
    end.

  (** manager cpp:298-302 *)
  Definition apply_conds (sets : string -> option (list nat)) (tc tp : N) (s : bstate) (l : list cond) : outcome bstate :=
    foldM (apply_cond sets tc tp) s l.
  (** manager cpp:288-296, without the update of y (times default to 0) *)
  Definition apply_initial (sets : string -> option (list nat)) (s : bstate) (l : list cond) : outcome bstate :=
    foldM (apply_cond sets 0 0) s l.
  (** manager cpp:304-314 *)
  Definition apply_forces (sets : string -> option (list nat)) (tc tp : N) (s : bstate) (l : list cond) : outcome bstate :=
    foldM (apply_cond sets tc tp) (set_field s TForce (map (fun _ => 0) (bs_field s TForce))) l.
End Conditions.
Arguments bstate N : clear implicits.
Arguments cond N : clear implicits.
Arguments kind N : clear implicits.
Arguments conds N : clear implicits.
Arguments bc_params N : clear implicits.
Arguments value_entry N : clear implicits.

(** ** Constrained rows *)
Section Rows.
  Context {N : Num}.
  Local Open Scope num_scope.

  (** manager cpp:386-404 and 438-456: does a condition constrain unknowns, and the offset
      of their rows *)
  Definition row_offset (p : physics) (d : dofs) (t : bc_type) : option nat :=
    match t with
    | PRESCRIBED_DISPLACEMENT => if ph_disp p then Some (off_disp d) else None
    | PRESCRIBED_FLUID_PRESSURE_U => if ph_pres p then Some (off_pres d) else None
    | PRESCRIBED_TEMPERATURE | THERMAL_FLUX => if ph_temp p then Some (off_temp d) else None
    | _ => None
    end.

  (** The scalar map of unknowns: total rows per node, nodes in the order of the owned map
      (Peridigm.cpp:4018-4060). *)
  Definition dof_map (d : dofs) (gids : list nat) : list nat :=
    concat (map (fun g => map (fun k => n_total d * g + k)%nat (seq 0 (n_total d))) gids).

  (** manager cpp:372-416 *)
  Definition insert_zeros (p : physics) (d : dofs) (rows : list nat) (sets : string -> option (list nat))
                          (bcs : list (cond N)) (v : list N) : outcome (list N) :=
    foldM (fun v c =>
      match row_offset p d (cd_type c) with
      | None => Ok v
      | Some off =>
          match sets (cd_set c) with
          | None => Err
          | Some nodes =>
              foldM (fun v g =>
                match pos rows (n_total d * g) with
                | None => Ok v
                | Some l => upd_ub v (l + off + cd_coord c) 0
                end) v nodes
          end
      end) v bcs.

  (** The rows of a sparse matrix held by one processor: global ids of its rows and
      columns, and per row the entries (local column, value). *)
  Record rows_of := { mt_rows : list nat; mt_cols : list nat; mt_vals : list (list (nat * N)) }.

  Definition abs (x : N) : N := if x <? 0 then - x else x.

  (** ExtractDiagonalCopy: 0 where the diagonal is not stored *)
  Definition diag_of (m : rows_of) (r : nat) (row : list (nat * N)) : N :=
    match pos (mt_cols m) r with
    | None => 0
    | Some c => match find (fun e => Nat.eqb (fst e) c) row with Some e => snd e | None => 0 end
    end.
  Definition diagonal (m : rows_of) : list N :=
    map (fun rr => diag_of m (fst rr) (snd rr)) (combine (mt_rows m) (mt_vals m)).

  (** manager cpp:422-428; Norm1 and GlobalLength are over all processors *)
  Definition diagonal_entry (w : list rows_of) : N :=
    (- (1)) * fold_left add (map abs (concat (map diagonal w))) 0
      / ofZ (Z.of_nat (length (concat (map diagonal w)))).

  (** ReplaceMyValues: only entries already stored change *)
  Definition zero_columns (cols : list nat) (row : list (nat * N)) : list (nat * N) :=
    map (fun e => if existsb (Nat.eqb (fst e)) cols then (fst e, 0) else e) row.
  Definition set_row (c : option nat) (d : N) (row : list (nat * N)) : list (nat * N) :=
    map (fun e => (fst e, if (match c with Some k => Nat.eqb (fst e) k | None => false end) then d else 0)) row.

  (** manager cpp:470-501: the part of one condition.  jacobianColIndices has NumMyCols
    elements (cpp:469), one more is an out-of-range write. *)
  Definition constrain (ids : list nat) (de : N) (m : rows_of) : outcome rows_of :=
    let cols := concat (map (fun g => match pos (mt_cols m) g with Some c => [c] | None => [] end) ids) in
    let vals := map (zero_columns cols) (mt_vals m) in
    if Nat.ltb (length (mt_cols m)) (length cols) then UB else
    let? vals := foldM (fun vals g =>
      match pos (mt_rows m) g with
      | None => Ok vals
      | Some r => let? row := at_ub vals r in upd_ub vals r (set_row (pos (mt_cols m) g) de row)
      end) vals ids in
    Ok {| mt_rows := mt_rows m; mt_cols := mt_cols m; mt_vals := vals |}.

  (** manager cpp:434-505 on one processor *)
  Definition constrain_all (p : physics) (d : dofs) (sets : string -> option (list nat))
                           (bcs : list (cond N)) (de : N) (m : rows_of) : outcome rows_of :=
    foldM (fun m c =>
      match row_offset p d (cd_type c) with
      | None => Ok m
      | Some off =>
          match sets (cd_set c) with
          | None => Err
          | Some nodes => constrain (map (fun g => n_total d * g + off + cd_coord c)%nat nodes) de m
          end
      end) m bcs.

  (** manager cpp:418-506 on all processors, each with its own node sets *)
  Definition insert_zeros_and_set_diagonal (p : physics) (d : dofs) (bcs : list (cond N))
      (w : list (rows_of * (string -> option (list nat)))) : outcome (list rows_of) :=
    let de := diagonal_entry (map fst w) in
    mapO (fun ms => constrain_all p d (snd ms) bcs de (fst ms)) w.
End Rows.
Arguments rows_of N : clear implicits.
