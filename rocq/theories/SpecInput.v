(** * Specifications for input handling and the output schedule *)
From Coq Require Import String Ascii.
From Verif Require Import Base Num ModelScalar ModelInput.
Local Open Scope string_scope.

(** ** Words of a text *)
(** [spelled s ws]: the words of [s], separated by white space, are [ws]. *)
Definition white (s : string) : Prop := forall c, In c (list_ascii_of_string s) -> is_space c = true.
Definition solid (s : string) : Prop :=
  s <> "" /\ forall c, In c (list_ascii_of_string s) -> is_space c = false.
Inductive spelled : string -> list string -> Prop :=
| Sp_none s : white s -> spelled s []
| Sp_last s w : white s -> solid w -> spelled (s ++ w) [w]
| Sp_word s w c t ws : white s -> solid w -> is_space c = true -> spelled t ws ->
    spelled (s ++ w ++ String c t) (w :: ws).

(** ** Horizons *)
Section Horizon.
  Context {N : Num}.

  (** A definition: which name, constant or not, under which text. *)
  Definition hdef := (string * (bool * string))%type.
  Definition default_spelling (n : string) : Prop := n = "Default" \/ n = "default" \/ n = "DEFAULT".

  (** The definitions a list of block sublists makes, in order; None if one is malformed. *)
  Fixpoint definitions (show : N -> string) (bs : list (block_params N)) : option (list hdef) :=
    match bs with
    | [] => Some []
    | b :: t =>
        match definitions show t, bp_names b, bp_horizon b with
        | Some r, Some ns, HNumber v => Some (map (fun n => (n, (true, show v))) (words ns) ++ r)%list
        | Some r, Some ns, HText x => Some (map (fun n => (n, (false, x))) (words ns) ++ r)%list
        | _, _, _ => None
        end
    end.

  (** [in_force ds blk d]: [d] is the last definition given for [blk] (a definition under
      one of the three spellings of "default" is a definition for the name "default"); if
      there is none, the last definition given for "default". *)
  Definition names (n blk : string) : Prop := (default_spelling n /\ blk = "default") \/ (~ default_spelling n /\ n = blk).
  Definition last_for (ds : list hdef) (blk : string) (d : bool * string) : Prop :=
    exists before n after, ds = (before ++ (n, d) :: after)%list /\ names n blk /\
      forall n' d', In (n', d') after -> ~ names n' blk.
  Definition none_for (ds : list hdef) (blk : string) : Prop :=
    forall n d, In (n, d) ds -> ~ names n blk.
  Definition in_force (ds : list hdef) (blk : string) (d : bool * string) : Prop :=
    last_for ds blk d \/ (none_for ds blk /\ last_for ds "default" d).
End Horizon.

(** ** Degrees of freedom *)
Definition active (p : physics) (u : unknown) : bool :=
  match u with UDisp => ph_disp p | UTemp => ph_temp p | UConc => ph_conc p | UPres => ph_pres p end.
Definition components (u : unknown) : nat := match u with UDisp => 3 | _ => 1 end.
Definition valid_dof (p : physics) (u : unknown) (c : nat) : Prop := active p u = true /\ c < components u.

(** The layout [d] numbers the unknowns of [p] one-to-one onto the rows, for any number of
    nodes. *)
Definition layout_bijective (d : dofs) (p : physics) : Prop :=
  forall nnodes,
    (forall node u c, node < nnodes -> valid_dof p u c -> dof_row d node u c < n_total d * nnodes) /\
    (forall node u c node' u' c', valid_dof p u c -> valid_dof p u' c' ->
       dof_row d node u c = dof_row d node' u' c' -> node = node' /\ u = u' /\ c = c') /\
    (forall r, r < n_total d * nnodes ->
       exists node u c, node < nnodes /\ valid_dof p u c /\ dof_row d node u c = r).

(** Unknowns per node of the physics [p]. *)
Definition physics_size (p : physics) : nat :=
  (if ph_disp p then 3 else 0) + (if ph_temp p then 1 else 0) + (if ph_conc p then 1 else 0) + (if ph_pres p then 1 else 0).

(** ** Block names *)
(** A numeral: a non-empty text of decimal digits, and its value. *)
Definition numeral (s : string) : Prop := s <> "" /\ forall c, In c (list_ascii_of_string s) -> digit c <> None.
Definition digit_value (c : ascii) : Z := match digit c with Some d => d | None => 0 end.
Definition value_of (s : string) : Z :=
  fold_left (fun acc c => (10 * acc + digit_value c)%Z) (list_ascii_of_string s) 0%Z.
Definition lacks (chars s : string) : Prop :=
  forall c, In c (list_ascii_of_string s) -> ~ In c (list_ascii_of_string chars).

(** ** Keywords *)
(** [spells s name]: [s] is [name] up to case, blanks in place of underscores, and
    surrounding blanks. *)
Definition blanks (s : string) : Prop := forall c, In c (list_ascii_of_string s) -> c = " "%char.
Definition same_letter (a b : ascii) : Prop := upper_char a = b \/ (a = " "%char /\ b = "_"%char).
Definition spells (s name : string) : Prop :=
  exists l core r, s = l ++ core ++ r /\ blanks l /\ blanks r /\
    Forall2 same_letter (list_ascii_of_string core) (list_ascii_of_string name).

(** ** Output schedule *)
(** Output is due after step [s]: [s] lies between the first and the last step and is a
    multiple of the frequency. *)
Definition due (first last freq s : Z) : Prop :=
  (first <= s <= last /\ 0 < freq /\ (freq | s))%Z.
