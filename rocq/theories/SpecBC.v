(** * Specifications for boundary conditions *)
From Coq Require Import String Reals.
From Verif Require Import Base Num SpecGlobal ModelScalar ModelInput ModelBC.

Section Spec.
  Context {N : Num}.

  (** The value a vector holds for component [comp] of node [g] on this processor. *)
  Definition value_at (s : bstate N) (tg : target) (g comp : nat) : option N :=
    match pos (bs_gids s) g with
    | Some i => nth_error (bs_field s tg) (i * target_dim tg + comp)
    | None => None
    end.
  (** The reference position of node [g]. *)
  Definition position (s : bstate N) (g : nat) : option (V3 N) :=
    match pos (bs_gids s) g with Some i => nth_error (bs_x s) i | None => None end.

  (** Every vector has one entry per component of every point. *)
  Definition sized (s : bstate N) : Prop :=
    length (bs_x s) = length (bs_gids s) /\
    forall tg, length (bs_field s tg) = length (bs_gids s) * target_dim tg.

  (** Which vectors the conditions of the input file are about, when they are applied in
      every step, at the start, and as body forces. *)
  Definition boundary_writes (t : bc_type) : list target :=
    match t with
    | PRESCRIBED_DISPLACEMENT => [TDeltaU; TV]
    | PRESCRIBED_FLUID_PRESSURE_U => [TFluidDeltaU; TFluidV]
    | PRESCRIBED_TEMPERATURE => [TTemp; TDeltaTemp]
    | THERMAL_FLUX => [TTemp]
    | _ => []
    end.
  Definition initial_writes (t : bc_type) : list target :=
    match t with
    | INITIAL_DISPLACEMENT => [TU] | INITIAL_VELOCITY => [TV]
    | INITIAL_FLUID_PRESSURE_U => [TFluidU] | INITIAL_TEMPERATURE => [TTemp]
    | _ => []
    end.
  Definition force_writes (t : bc_type) : list target := match t with BODY_FORCE => [TForce] | _ => [] end.
  Definition component_of (c : coordinate) : option nat :=
    match c with CX => Some 0 | CY => Some 1 | CZ => Some 2 | NO_SUCH_SPATIAL_COORDINATE => None end.

  (** The input condition [p] is about component [comp] of node [g] in vector [tg]. *)
  Definition concerns (writes : bc_type -> list target) (sets : string -> option (list nat))
                      (p : bc_params N) (tg : target) (g comp : nat) : Prop :=
    In tg (writes (bp_type p)) /\ component_of (bp_coord p) = Some comp /\
    exists nodes, sets (tidy (bp_set p)) = Some nodes /\ In g nodes.
  (** [p] is the last of the input conditions about this entry. *)
  Definition last_concerning writes sets (ps : list (bc_params N)) p tg g comp : Prop :=
    exists p1 p2, ps = p1 ++ p :: p2 /\ concerns writes sets p tg g comp /\
                  forall p', In p' p2 -> ~ concerns writes sets p' tg g comp.

  (** The statement executed for a given text. *)
  Definition statement_of (text : string) : string :=
    if contains "value" text then text else ("value = " ++ text)%string.
  Definition text_of (show : N -> string) (p : bc_params N) : string :=
    match bp_value p with VNumber v => show v | VText t => t end.
  (** [f] is the function of time the text defines at position [x] (whatever "value" held
      before). *)
  Definition defines (run : string -> V3 N -> N -> N -> option N) (text : string) (x : V3 N) (f : N -> N) : Prop :=
    forall t v, run (statement_of text) x t v = Some (f t).
End Spec.

(** ** Histories of load steps (real numbers) *)
Section Histories.
  Variables (compiles : string -> bool) (run : string -> V3 RN -> RN -> RN -> option RN) (finite : RN -> bool).
  Variable sets : string -> option (list nat).
  Variable ps : list (bc_params RN).
  Variable bcs : list (cond RN).

  (** A quasi-static load step from time [tp] to [tc]: the conditions are applied, the
      solver changes whatever it likes except the displacement increments prescribed, and
      the displacement becomes the old one plus the increment. *)
  Definition load_step (s : bstate RN) (tp tc : R) (s' : bstate RN) : Prop :=
    exists s1, apply_conds compiles run finite sets tc tp s bcs = Ok s1 /\
      sized s' /\ bs_gids s' = bs_gids s /\ bs_x s' = bs_x s /\
      forall p g comp, In p ps -> concerns boundary_writes sets p TDeltaU g comp ->
        forall u du, value_at s TU g comp = Some u -> value_at s1 TDeltaU g comp = Some du ->
          value_at s' TU g comp = Some (u + du : T RN)%R.
  (** An explicit step: the displacement becomes the old one plus the time step times the
      (mid-step) velocity. *)
  Definition explicit_step (s : bstate RN) (tp tc : R) (s' : bstate RN) : Prop :=
    exists s1, apply_conds compiles run finite sets tc tp s bcs = Ok s1 /\
      sized s' /\ bs_gids s' = bs_gids s /\ bs_x s' = bs_x s /\
      forall p g comp, In p ps -> concerns boundary_writes sets p TV g comp ->
        forall u v, value_at s TU g comp = Some u -> value_at s1 TV g comp = Some v ->
          value_at s' TU g comp = Some (u + (tc - tp) * v : T RN)%R.
End Histories.
(** Steps at the times listed. *)
Inductive history (step : bstate RN -> R -> R -> bstate RN -> Prop) : list R -> bstate RN -> bstate RN -> Prop :=
| H_start t s : history step [t] s s
| H_step t t' ts s s1 s' : t' <> t -> step s t t' s1 -> history step (t' :: ts) s1 s' -> history step (t :: t' :: ts) s s'.
Definition final_time (ts : list R) : R := last ts 0%R.
Definition first_time (ts : list R) : R := hd 0%R ts.
(** The prescribed value changes in every step. *)
Definition changes_every_step (f : R -> R) (ts : list R) : Prop :=
  forall i a b, nth_error ts i = Some a -> nth_error ts (S i) = Some b -> f b <> f a.

(** ** Constrained rows *)
(** The unknown a kind of condition fixes. *)
Definition fixes (t : bc_type) : option unknown :=
  match t with
  | PRESCRIBED_DISPLACEMENT => Some UDisp
  | PRESCRIBED_FLUID_PRESSURE_U => Some UPres
  | PRESCRIBED_TEMPERATURE | THERMAL_FLUX => Some UTemp
  | _ => None
  end.
Definition solved_for (p : physics) (u : unknown) : bool :=
  match u with UDisp => ph_disp p | UTemp => ph_temp p | UConc => ph_conc p | UPres => ph_pres p end.

Section Matrix.
  Context {N : Num}.
  (** Row [r] is constrained: it is the row of a component of a node of the node set of a
      condition for an unknown that is solved for. *)
  Definition constrained (p : physics) (d : dofs) (sets : string -> option (list nat)) (bcs : list (cond N)) (r : nat) : Prop :=
    exists c u nodes g, In c bcs /\ fixes (cd_type c) = Some u /\ solved_for p u = true /\
      sets (cd_set c) = Some nodes /\ In g nodes /\ r = dof_row d g u (cd_coord c).
  (** The component of every condition exists. *)
  Definition proper (c : cond N) : Prop := forall u, fixes (cd_type c) = Some u -> cd_coord c < match u with UDisp => 3 | _ => 1 end.

  (** Entry of a vector for the row with global id [r]. *)
  Definition vec_entry (rows : list nat) (v : list N) (r : nat) : option N :=
    match pos rows r with Some i => nth_error v i | None => None end.

  (** The entry in row [r] and column [c] (global ids), zero where nothing is stored. *)
  Definition entry (m : rows_of N) (r c : nat) : N :=
    match pos (mt_rows m) r, pos (mt_cols m) c with
    | Some i, Some j =>
        match nth_error (mt_vals m) i with
        | Some row => match find (fun e => Nat.eqb (fst e) j) row with Some e => snd e | None => ofZ 0 end
        | None => ofZ 0
        end
    | _, _ => ofZ 0
    end.
  (** A place is stored for row [r] and column [c]. *)
  Definition stored (m : rows_of N) (r c : nat) : Prop :=
    exists i j row v, pos (mt_rows m) r = Some i /\ pos (mt_cols m) c = Some j /\
      nth_error (mt_vals m) i = Some row /\ In (j, v) row.
  Definition same_pattern (m m' : rows_of N) : Prop :=
    mt_rows m' = mt_rows m /\ mt_cols m' = mt_cols m /\ forall r c, stored m' r c <-> stored m r c.
End Matrix.

(** [x] solves the rows of one processor for the right-hand side [b]. *)
Definition solves (m : rows_of RN) (x b : nat -> R) : Prop :=
  forall r, In r (mt_rows m) -> Rsum (map (fun c => (entry m r c * x c)%R) (mt_cols m)) = b r.

(** How the rows are distributed: every processor holds the rows of its own nodes, and the
    node sets reduced to its own nodes. *)
Definition part_of {N : Num} (d : dofs) (global : string -> option (list nat)) (ms : rows_of N * (string -> option (list nat))) : Prop :=
  length (mt_vals (fst ms)) = length (mt_rows (fst ms)) /\ NoDup (mt_cols (fst ms)) /\
  exists owned, mt_rows (fst ms) = dof_map d owned /\ forall n, snd ms n = option_map (cull owned) (global n).
