(** * Node sets

    Model of src/core/Peridigm_BoundaryAndInitialConditionManager.cpp:205-286
    (initializeNodeSets) and 508-533 (nodeSetStringToFileName). *)
From Coq Require Import String Ascii.
From Verif Require Import Base Num ModelScalar ModelInput ModelBC.
Local Open Scope string_scope.

(** One use of operator>>(int&) (C++11) on a stream holding the text [s]: nothing but white
    space left (variable unchanged), no number (0 stored, failure), a number that does not
    fit (nearest limit stored, failure), or a number and the text that follows. *)
Inductive extraction := XNone | XBad | XBig (limit : Z) | XInt (z : Z) (rest : string).

Fixpoint after_digits (s : string) : string :=
  match s with String c r => match digit c with Some _ => after_digits r | None => s end | EmptyString => "" end.

Definition extract (s : string) : extraction :=
  let number (neg : bool) t :=
    match read_digits t with
    | None => XBad
    | Some z => let z := if neg then (- z)%Z else z in
                if (z <? int_min)%Z then XBig int_min else if (int_max <? z)%Z then XBig int_max
                else XInt z (after_digits t)
    end in
  match skip_space s with
  | EmptyString => XNone
  | String c r =>
      if Ascii.eqb c "-" then number true r
      else if Ascii.eqb c "+" then number false r
      else number false (String c r)
  end.

(** cpp:224-232.  [old] is the value of nodeID, None while uninitialised.  The stream stops
    being good() after a failure or when reading reached the end of the text.  Every
    successful extraction shortens the text, so [fuel] greater than its length is enough. *)
Fixpoint read_list (fuel : nat) (old : option Z) (s : string) : outcome (list nat) :=
  match fuel with
  | O => UB
  | S f =>
      let store (z : Z) (k : outcome (list nat)) :=
        if (z <? 1)%Z then Err else let? r := k in Ok (Z.to_nat (z - 1) :: r) in
      match extract s with
      | XNone => match old with None => UB | Some z => store z (Ok []) end
      | XBad => store 0%Z (Ok [])
      | XBig z => store z (Ok [])
      | XInt z rest => store z (if String.eqb rest "" then Ok [] else read_list f (Some z) rest)
      end
  end.

(** strtol with base 0.  (The clamp to the range of long is left out: only the question
    whether the result is zero is asked.) *)
Definition digit_in (base : Z) (c : ascii) : option Z :=
  let n := nat_of_ascii c in
  let v := if Nat.leb 48 n && Nat.leb n 57 then Some (Z.of_nat (n - 48))
           else if Nat.leb 97 n && Nat.leb n 102 then Some (Z.of_nat (n - 87))
           else if Nat.leb 65 n && Nat.leb n 70 then Some (Z.of_nat (n - 55)) else None in
  match v with Some d => if (d <? base)%Z then Some d else None | None => None end.
Fixpoint number_in (base acc : Z) (s : string) : Z :=
  match s with
  | EmptyString => acc
  | String c r => match digit_in base c with Some d => number_in base (base * acc + d)%Z r | None => acc end
  end.
Definition strtol0 (s : string) : Z :=
  let unsigned t :=
    match t with
    | String "0" (String x r) =>
        if Ascii.eqb x "x" || Ascii.eqb x "X" then number_in 16 0 r else number_in 8 0 (String x r)
    | _ => number_in 10 0 t
    end in
  match skip_space s with
  | String c r => if Ascii.eqb c "-" then (- unsigned r)%Z else if Ascii.eqb c "+" then unsigned r else unsigned (String c r)
  | EmptyString => 0%Z
  end.

(** cpp:508-533 *)
Definition file_name (s : string) : string :=
  let str := trim s in
  match find_first_of (String " " (String "009" "")) str with
  | Some _ => ""
  | None =>
      if negb (strtol0 str =? 0)%Z || String.eqb str "0" || String.eqb str "+0" || String.eqb str "-0"
      then "" else str
  end.

(** istream_iterator<int> to the end (cpp:246-248): stops at the first failure *)
Fixpoint read_ints (fuel : nat) (s : string) : list Z :=
  match fuel with
  | O => []
  | S f => match extract s with XInt z rest => z :: read_ints f rest | _ => [] end
  end.

(** getline until the file is exhausted (cpp:238-240): the texts between the newlines *)
Fixpoint lines_from (cur : string) (s : string) : list string :=
  match s with
  | EmptyString => [cur]
  | String c r => if Ascii.eqb c "010" then cur :: lines_from "" r else lines_from (cur ++ String c "") r
  end.
Definition lines (s : string) : list string := lines_from "" s.

(** cpp:241-256: one line *)
Definition read_line (str : string) : outcome (list nat) :=
  let str := trim str in
  match str with
  | EmptyString => Ok []
  | String c _ =>
      if Ascii.eqb c "#" || Ascii.eqb c "/" || Ascii.eqb c "*" then Ok []
      else mapO (fun z => if (z <? 1)%Z then Err else Ok (Z.to_nat (z - 1))) (read_ints (S (String.length str)) str)
  end.
Definition read_file (content : string) : outcome (list nat) :=
  let? l := mapO read_line (lines content) in Ok (concat l).

(** cpp:218-260.  [files] is the file system: the content of a file, None when it cannot be
    opened. *)
Definition read_text (files : string -> option string) (s : string) : outcome (list nat) :=
  if String.eqb (file_name s) "" then read_list (S (String.length s)) None s
  else match files (file_name s) with None => Err | Some c => read_file c end.

(** An entry of the parameter list: a text or something else (for which getValue<string>
    throws). *)
Inductive param_value := PText (t : string) | POther.
Definition node_sets := list (string * list nat).
Definition find_set (m : node_sets) (n : string) : option (list nat) :=
  option_map snd (find (fun e => String.eqb (fst e) n) m).

(** cpp:209-262 *)
Definition add_entry (files : string -> option string) (m : node_sets) (e : string * param_value) : outcome node_sets :=
  let name := tidy (fst e) in
  if contains "NODE_SET" name
  then match find_set m name with
       | Some _ => Err
       | None => match snd e with POther => Err | PText t => let? l := read_text files t in Ok (m ++ [(name, l)])%list end
       end
  else Ok m.
(** cpp:264-272 *)
Definition add_mesh (m : node_sets) (e : string * list nat) : outcome node_sets :=
  let name := tidy (fst e) in
  match find_set m name with Some _ => Err | None => Ok (m ++ [(name, snd e)])%list end.
(** cpp:205-286; the (initially empty) set of rank deficient nodes overwrites a set of that
    name; the last step keeps only the nodes owned by this processor *)
Definition initialize_node_sets (files : string -> option string) (rank_deficient : bool) (params : list (string * param_value))
    (mesh : node_sets) (owned : list nat) : outcome node_sets :=
  let? m := foldM (add_entry files) [] params in
  let? m := foldM add_mesh m mesh in
  let m := if rank_deficient
           then (filter (fun e => negb (String.eqb (fst e) "RANK_DEFICIENT_NODES")) m ++ [("RANK_DEFICIENT_NODES", [])])%list else m in
  Ok (map (fun e => (fst e, cull owned (snd e))) m).
