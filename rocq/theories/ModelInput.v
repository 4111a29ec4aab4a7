(** * Input handling: horizons, unknowns, block names, keywords, output schedule

    Model of src/core/Peridigm_HorizonManager.cpp, src/core/Peridigm_DegreesOfFreedomManager.cpp,
    src/io/discretization/Peridigm_Discretization.cpp:209-237, src/core/Peridigm_Enums.cpp and
    src/io/Peridigm_OutputManager_ExodusII.cpp:210-228. *)
From Coq Require Import String Ascii.
From Verif Require Import Base Num ModelScalar.
Local Open Scope string_scope.

(** ** Text *)

(** isspace in the C locale: what operator>> and istream_iterator skip. *)
Definition is_space (c : ascii) : bool :=
  let n := nat_of_ascii c in Nat.eqb n 32 || (Nat.leb 9 n && Nat.leb n 13).

(** istream_iterator<string>: the maximal runs of non-space characters (used at
    Peridigm_HorizonManager.cpp:94-98).  [cur] is the word being read. *)
Fixpoint words_from (cur : string) (s : string) : list string :=
  match s with
  | EmptyString => match cur with EmptyString => [] | _ => [cur] end
  | String c r =>
      if is_space c then match cur with EmptyString => words_from "" r | _ => cur :: words_from "" r end
      else words_from (cur ++ String c "") r
  end.
Definition words (s : string) : list string := words_from "" s.

(** ** Horizons (Peridigm_HorizonManager.cpp) *)
Section Horizon.
  Context {N : Num}.

  (** One sublist of the "Blocks" section: the "Horizon" entry (a double, a string, or
      something else / absent) and the "Block Names" entry (absent: the get throws). *)
  Inductive horizon_entry := HNumber (h : N) | HText (t : string) | HNone.
  Record block_params := { bp_horizon : horizon_entry; bp_names : option string }.

  (** std::map<string,X>: an association list searched from the most recent entry. *)
  Definition smap (X : Type) := list (string * X).
  Fixpoint sfind {X} (m : smap X) (k : string) : option X :=
    match m with
    | [] => None
    | (k', v) :: t => if String.eqb k' k then Some v else sfind t k
    end.

  Record horizons := { hz_constant : smap bool; hz_text : smap string }.
  Definition hz_empty : horizons := {| hz_constant := []; hz_text := [] |}.

  Definition is_default (n : string) : bool :=
    String.eqb n "Default" || String.eqb n "default" || String.eqb n "DEFAULT".

  (** lines 100-109 *)
  Definition record_name (const : bool) (text : string) (h : horizons) (n : string) : horizons :=
    let key := if is_default n then "default" else n in
    {| hz_constant := (key, const) :: hz_constant h; hz_text := (key, text) :: hz_text h |}.

  (** lines 72-111; [show] is the text a double is printed as with precision(16)
      (lines 81-87). *)
  Definition load_one (show : N -> string) (h : horizons) (b : block_params) : outcome horizons :=
    match bp_horizon b with
    | HNone => Err
    | HNumber v => match bp_names b with
                   | None => Err
                   | Some ns => Ok (fold_left (record_name true (show v)) (words ns) h)
                   end
    | HText t => match bp_names b with
                 | None => Err
                 | Some ns => Ok (fold_left (record_name false t) (words ns) h)
                 end
    end.
  Definition load_horizons (show : N -> string) (h : horizons) (bs : list block_params) : outcome horizons :=
    foldM (load_one show) h bs.

  (** lines 113-124 *)
  Definition has_constant (h : horizons) (blk : string) : outcome bool :=
    match sfind (hz_constant h) blk with
    | Some b => Ok b
    | None => match sfind (hz_constant h) "default" with Some b => Ok b | None => Err end
    end.

  (** lines 141-177.  [run] is the run-time compiler: it compiles a text and executes it
      at a position; None is a failure of either. *)
  Definition evaluate_horizon (run : string -> V3 N -> option N) (h : horizons) (blk : string) (x : V3 N) : outcome N :=
    let? name := match sfind (hz_text h) blk with
                 | Some _ => Ok blk
                 | None => match sfind (hz_text h) "default" with Some _ => Ok "default" | None => Err end
                 end in
    let text := match sfind (hz_text h) name with Some t => t | None => "" end in
    let body := if contains "value" text then text else "value = " ++ text in
    match run body x with Some v => Ok v | None => Err end.

  (** lines 126-139: evaluates at the origin, under the name found *)
  Definition constant_value (run : string -> V3 N -> option N) (h : horizons) (blk : string) : outcome N :=
    let? name := match sfind (hz_text h) blk with
                 | Some _ => Ok blk
                 | None => match sfind (hz_text h) "default" with Some _ => Ok "default" | None => Err end
                 end in
    evaluate_horizon run h name vzero.
End Horizon.
Arguments horizon_entry N : clear implicits.
Arguments block_params N : clear implicits.

(** ** Degrees of freedom (Peridigm_DegreesOfFreedomManager.cpp) *)
(** hpp:117-130, without the flags, which only repeat the parameters of the last call, and
    [verbose_] *)
Record dofs := {
  n_disp : nat; n_temp : nat; n_conc : nat; n_pres : nat; n_total : nat;
  off_disp : nat; off_conc : nat; off_temp : nat; off_pres : nat }.

(** The "Solve For ..." parameters (defaults applied, cpp:17-20). *)
Record physics := { ph_disp : bool; ph_temp : bool; ph_conc : bool; ph_pres : bool }.

(** hpp:99-107 *)
Definition dofs_init : dofs := Build_dofs 0 0 0 0 0 0 0 0 0.

(** cpp:11-42 *)
Definition dofs_initialize (d : dofs) (p : physics) : dofs :=
  let d := if ph_disp p then
      {| n_disp := 3; n_temp := n_temp d; n_conc := n_conc d; n_pres := n_pres d; n_total := n_total d + 3;
         off_disp := n_total d; off_conc := off_conc d; off_temp := off_temp d; off_pres := off_pres d |} else d in
  let d := if ph_temp p then
      {| n_disp := n_disp d; n_temp := 1; n_conc := n_conc d; n_pres := n_pres d; n_total := n_total d + 1;
         off_disp := off_disp d; off_conc := off_conc d; off_temp := n_total d; off_pres := off_pres d |} else d in
  let d := if ph_conc p then
      {| n_disp := n_disp d; n_temp := n_temp d; n_conc := 1; n_pres := n_pres d; n_total := n_total d + 1;
         off_disp := off_disp d; off_conc := n_total d; off_temp := off_temp d; off_pres := off_pres d |} else d in
  if ph_pres p then
      {| n_disp := n_disp d; n_temp := n_temp d; n_conc := n_conc d; n_pres := 1; n_total := n_total d + 1;
         off_disp := off_disp d; off_conc := off_conc d; off_temp := off_temp d; off_pres := n_total d |} else d.

(** The row of component [c] of an unknown of [node]: numDof*node + offset + c
    (Peridigm_BoundaryAndInitialConditionManager.cpp:345-365, Peridigm.cpp:4200-4310). *)
Inductive unknown := UDisp | UTemp | UConc | UPres.
Definition dof_count (d : dofs) (u : unknown) : nat :=
  match u with UDisp => n_disp d | UTemp => n_temp d | UConc => n_conc d | UPres => n_pres d end.
Definition dof_offset (d : dofs) (u : unknown) : nat :=
  match u with UDisp => off_disp d | UTemp => off_temp d | UConc => off_conc d | UPres => off_pres d end.
Definition dof_row (d : dofs) (node : nat) (u : unknown) (c : nat) : nat :=
  n_total d * node + dof_offset d u + c.

(** ** Block names (Peridigm_Discretization.cpp:209-237) *)

(** find_first_of / find_last_of: position of the first / last character belonging to a
    set of characters. *)
Fixpoint mem_char (c : ascii) (set : string) : bool :=
  match set with EmptyString => false | String d r => Ascii.eqb d c || mem_char c r end.
Fixpoint find_first_of (set s : string) : option nat :=
  match s with
  | EmptyString => None
  | String c r => if mem_char c set then Some 0 else option_map S (find_first_of set r)
  end.
Fixpoint find_last_of (set s : string) : option nat :=
  match s with
  | EmptyString => None
  | String c r => match find_last_of set r with
                  | Some i => Some (S i)
                  | None => if mem_char c set then Some 0 else None
                  end
  end.

(** string::substr(pos, n): throws when pos > size; n is a size_t *)
Definition substr (pos : nat) (n : Z) (s : string) : outcome string :=
  if (String.length s <? pos)%nat then Err
  else Ok (substring pos (if (Z.of_nat (String.length s) <=? n)%Z then String.length s else Z.to_nat n) s).

Definition size_t (z : Z) : Z := (z mod 2 ^ 64)%Z.
Definition int_max : Z := (2 ^ 31 - 1)%Z.
Definition int_min : Z := (- 2 ^ 31)%Z.

Definition digit (c : ascii) : option Z :=
  let n := nat_of_ascii c in
  if Nat.leb 48 n && Nat.leb n 57 then Some (Z.of_nat (n - 48)) else None.

(** The longest prefix of digits, as a number; None when there is no digit. *)
Fixpoint digits_from (acc : Z) (s : string) : Z :=
  match s with
  | EmptyString => acc
  | String c r => match digit c with Some d => digits_from (10 * acc + d) r | None => acc end
  end.
Definition read_digits (s : string) : option Z :=
  match s with
  | String c r => match digit c with Some d => Some (digits_from d r) | None => None end
  | EmptyString => None
  end.

Fixpoint skip_space (s : string) : string :=
  match s with String c r => if is_space c then skip_space r else s | EmptyString => "" end.

Definition clamp (z : Z) : Z :=
  if (z <? int_min)%Z then int_min else if (int_max <? z)%Z then int_max else z.

(** operator>>(int&) on a stream over [s] (C++11): nothing left leaves the variable
    unchanged, no number stores 0, an out-of-range number stores the nearest limit. *)
Definition extract_int (old : Z) (s : string) : Z :=
  match skip_space s with
  | EmptyString => old
  | String c r =>
      if Ascii.eqb c "-" then match read_digits r with Some z => clamp (- z) | None => 0%Z end
      else if Ascii.eqb c "+" then match read_digits r with Some z => clamp z | None => 0%Z end
      else match read_digits (String c r) with Some z => clamp z | None => 0%Z end
  end.

(** lines 209-237 *)
Definition block_id (name : string) : outcome Z :=
  match find_first_of "GRAIN" name, find_last_of "_SET" name with
  | Some prefix_loc, Some suffix_loc =>
      let len := size_t (Z.of_nat suffix_loc - 4 - Z.of_nat prefix_loc - 5 + 1) in
      let? t := substr (prefix_loc + 5) len name in
      Ok (extract_int (-1) t)
  | _, _ =>
      match find_last_of "_" name with
      | Some u => let? t := substr (u + 1) (Z.of_nat (String.length name)) name in Ok (extract_int (-1) t)
      | None => Err
      end
  end.

(** ** Keywords (Peridigm_Enums.cpp) *)

Definition upper_char (c : ascii) : ascii :=
  let n := nat_of_ascii c in if Nat.leb 97 n && Nat.leb n 122 then ascii_of_nat (n - 32) else c.
(** cpp:307-311 *)
Fixpoint to_upper (s : string) : string :=
  match s with EmptyString => "" | String c r => String (upper_char c) (to_upper r) end.
Fixpoint drop_blanks (s : string) : string :=
  match s with String c r => if Ascii.eqb c " " then drop_blanks r else s | EmptyString => "" end.
Fixpoint all_blank (s : string) : bool :=
  match s with EmptyString => true | String c r => Ascii.eqb c " " && all_blank r end.
Fixpoint drop_trailing (s : string) : string :=
  match s with EmptyString => "" | String c r => if all_blank s then "" else String c (drop_trailing r) end.
(** cpp:298-305: all blanks (or empty): returned unchanged; otherwise from the first to
    the last non-blank *)
Definition trim (s : string) : string := if all_blank s then s else drop_trailing (drop_blanks s).
Fixpoint blanks_to_underscores (s : string) : string :=
  match s with EmptyString => "" | String c r => String (if Ascii.eqb c " " then "_" else c)%char (blanks_to_underscores r) end.
(** cpp:313-321 *)
Definition tidy (s : string) : string := blanks_to_underscores (trim (to_upper s)).

Inductive tensor_order := SCALAR | VECTOR | TENSOR | NO_SUCH_TENSOR_ORDER.
Inductive coordinate := CX | CY | CZ | NO_SUCH_SPATIAL_COORDINATE.
Inductive bc_type := PRESCRIBED_DISPLACEMENT | PRESCRIBED_FLUID_PRESSURE_U | PRESCRIBED_TEMPERATURE
  | INITIAL_TEMPERATURE | THERMAL_FLUX | INITIAL_DISPLACEMENT | INITIAL_VELOCITY
  | INITIAL_FLUID_PRESSURE_U | BODY_FORCE | NO_SUCH_BOUNDARY_CONDITION_TYPE.

(** cpp:70-89: the tables from setting to text *)
Definition tensor_table : list (tensor_order * string) :=
  [(SCALAR, "SCALAR"); (VECTOR, "VECTOR"); (TENSOR, "TENSOR"); (NO_SUCH_TENSOR_ORDER, "NO_SUCH_TENSOR_ORDER")].
Definition coordinate_table : list (coordinate * string) :=
  [(CX, "X"); (CY, "Y"); (CZ, "Z"); (NO_SUCH_SPATIAL_COORDINATE, "NO_SUCH_SPATIAL_COORDINATE")].
Definition bc_table : list (bc_type * string) :=
  [(PRESCRIBED_DISPLACEMENT, "PRESCRIBED_DISPLACEMENT");
   (PRESCRIBED_FLUID_PRESSURE_U, "PRESCRIBED_FLUID_PRESSURE_U");
   (PRESCRIBED_TEMPERATURE, "PRESCRIBED_TEMPERATURE"); (INITIAL_TEMPERATURE, "INITIAL_TEMPERATURE");
   (THERMAL_FLUX, "THERMAL_FLUX"); (INITIAL_DISPLACEMENT, "INITIAL_DISPLACEMENT");
   (INITIAL_VELOCITY, "INITIAL_VELOCITY"); (INITIAL_FLUID_PRESSURE_U, "INITIAL_FLUID_PRESSURE_U");
   (BODY_FORCE, "BODY_FORCE"); (NO_SUCH_BOUNDARY_CONDITION_TYPE, "NO_SUCH_BOUNDARY_CONDITION_TYPE")].

Definition tensor_eqb (a b : tensor_order) : bool :=
  match a, b with SCALAR, SCALAR | VECTOR, VECTOR | TENSOR, TENSOR
  | NO_SUCH_TENSOR_ORDER, NO_SUCH_TENSOR_ORDER => true | _, _ => false end.
Definition coordinate_eqb (a b : coordinate) : bool :=
  match a, b with CX, CX | CY, CY | CZ, CZ
  | NO_SUCH_SPATIAL_COORDINATE, NO_SUCH_SPATIAL_COORDINATE => true | _, _ => false end.
Definition bc_eqb (a b : bc_type) : bool :=
  match a, b with
  | PRESCRIBED_DISPLACEMENT, PRESCRIBED_DISPLACEMENT
  | PRESCRIBED_FLUID_PRESSURE_U, PRESCRIBED_FLUID_PRESSURE_U
  | PRESCRIBED_TEMPERATURE, PRESCRIBED_TEMPERATURE | INITIAL_TEMPERATURE, INITIAL_TEMPERATURE
  | THERMAL_FLUX, THERMAL_FLUX | INITIAL_DISPLACEMENT, INITIAL_DISPLACEMENT
  | INITIAL_VELOCITY, INITIAL_VELOCITY | INITIAL_FLUID_PRESSURE_U, INITIAL_FLUID_PRESSURE_U
  | BODY_FORCE, BODY_FORCE | NO_SUCH_BOUNDARY_CONDITION_TYPE, NO_SUCH_BOUNDARY_CONDITION_TYPE => true
  | _, _ => false end.

(** cpp:140-151, 196-207, 258-269 *)
Definition enum_text {A} (eqb : A -> A -> bool) (table : list (A * string)) (a : A) : outcome string :=
  match find (fun p => eqb (fst p) a) table with Some p => Ok (snd p) | None => Err end.
(** cpp:153-173, 215-235, 276-296; the reverse maps (cpp:92-103) are filled in table
    order, a later entry overwriting an earlier one with the same text *)
Definition enum_of {A} (table : list (A * string)) (s : string) : outcome A :=
  match find (fun p => String.eqb (snd p) (tidy s)) (rev table) with Some p => Ok (fst p) | None => Err end.

Definition tensor_text := enum_text tensor_eqb tensor_table.
Definition coordinate_text := enum_text coordinate_eqb coordinate_table.
Definition bc_text := enum_text bc_eqb bc_table.
Definition to_tensor_order := enum_of tensor_table.
Definition to_coordinate := enum_of coordinate_table.
Definition to_bc_type := enum_of bc_table.

(** cpp:323-327 *)
Definition is_initial (b : bc_type) : outcome bool :=
  let? s := bc_text b in Ok (contains "INITIAL" s).

(** ** Output schedule (Peridigm_OutputManager_ExodusII.cpp:210-228) *)
Record writer := { w_count : Z; w_exodus : Z }.
Definition writer_init : writer := {| w_count := 0; w_exodus := 0 |}.

Definition int_ok (z : Z) : bool := (int_min <=? z)%Z && (z <=? int_max)%Z.
Definition int_op (z : Z) : outcome Z := if int_ok z then Ok z else UB.

(** The settings: "Output Frequency", "Initial Output Step", "Final Output Step"
    (cpp:111,125,126). *)
Record schedule := { sc_freq : Z; sc_first : Z; sc_last : Z }.

(** One call of write(); the result says under which Exodus index, if any, output is
    written.  Signed overflow is undefined.  The disjunctions are evaluated left to right
    with short cuts, as in cpp:225; C++ [%] is [Z.rem]. *)
Definition write (sc : schedule) (w : writer) : outcome (writer * option Z) :=
  let? count := int_op (w_count w + 1) in
  let w' := {| w_count := count; w_exodus := w_exodus w |} in
  if (count <? sc_first sc)%Z then Ok (w', None)
  else
    let? last := int_op (sc_last sc + 1) in
    if (last <? count)%Z then Ok (w', None)
    else if (sc_freq sc <=? 0)%Z then Ok (w', None)
    else if negb (Z.rem (count - 1) (sc_freq sc) =? 0)%Z then Ok (w', None)
    else
      let? e := int_op (w_exodus w + 1) in
      Ok ({| w_count := count; w_exodus := e |}, Some e).

(** A run: the initial configuration (step 0) and every completed step call write() once
    (executeExplicit, executeQuasiStatic, ...). *)
Fixpoint write_run (sc : schedule) (w : writer) (n : nat) : outcome (writer * list (option Z)) :=
  match n with
  | O => Ok (w, [])
  | S k => let? (w1, o) := write sc w in
           let? (w2, r) := write_run sc w1 k in
           Ok (w2, o :: r)
  end.
