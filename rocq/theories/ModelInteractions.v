(** * The list of contact interactions

    src/core/Peridigm_ContactManager.cpp:153-216, and the choice of contact models
    (235-254).  The parameter list is given by what the code reads from it: the "Contact
    Model" of the sublists "General Contact" and "Self Contact" if they are there, and the
    "First Block", "Second Block" and "Contact Model" of the other sublists of
    "Interactions" in the order of the list.  Missing parameters make Teuchos throw and are
    not modelled. *)
From Coq Require Import ZArith String.
From Verif Require Import Base ModelInput.

Record interactions := {
  general_contact : option string;
  self_contact : option string;
  named_contacts : list (string * string * string) }.

(** std::tuple<int,int,string> and its order; strings compare by unsigned characters *)
Definition interaction : Type := Z * Z * string.
Definition cmp_interaction (s t : interaction) : comparison :=
  let '(a, b, m) := s in
  let '(a', b', m') := t in
  match Z.compare a a' with
  | Eq => match Z.compare b b' with Eq => String.compare m m' | r => r end
  | r => r
  end.
(** std::set::insert; the set is the list of its elements in order *)
Fixpoint set_insert (t : interaction) (l : list interaction) : list interaction :=
  match l with
  | [] => [t]
  | u :: r => match cmp_interaction t u with Lt => t :: l | Eq => l | Gt => u :: set_insert t r end
  end.

(** 171-185, the body of the loops over the pairs of block names *)
Definition pair_contact (inp : interactions) (names : list string) (i j : nat) (s : list interaction)
  : outcome (list interaction) :=
  let? ni := at_ub names i in
  let? nj := at_ub names j in
  let? b1 := block_id ni in
  let? b2 := block_id nj in
  let (b1, b2) := if Z.ltb b2 b1 then (b2, b1) else (b1, b2) in
  let s := match self_contact inp with
           | Some m => if Nat.eqb i j then set_insert (b1, b2, m) s else s
           | None => s end in
  let s := match general_contact inp with
           | Some m => if negb (Nat.eqb i j) then set_insert (b1, b2, m) s else s
           | None => s end in
  Ok s.

(** 159-188 *)
Definition general_contacts (inp : interactions) (names : list string) : outcome (list interaction) :=
  match general_contact inp, self_contact inp with
  | None, None => Ok []
  | _, _ =>
    foldM (fun s i => foldM (fun s j => pair_contact inp names i j s) s (seq 0 (length names))) [] (seq 0 (length names))
  end.

(** 191-201 *)
Definition add_named (s : list interaction) (c : string * string * string) : outcome (list interaction) :=
  let '(first, second, m) := c in
  let? b1 := block_id first in
  let? b2 := block_id second in
  Ok (set_insert (b1, b2, m) s).

(** 207-216: [it] is pushed unless the next element is for the same pair *)
Fixpoint last_of_pair (l : list interaction) : list interaction :=
  match l with
  | [] => []
  | it :: rest =>
    match rest with
    | nextIt :: _ =>
      if Z.eqb (fst (fst it)) (fst (fst nextIt)) && Z.eqb (snd (fst it)) (snd (fst nextIt)) then last_of_pair rest
      else it :: last_of_pair rest
    | [] => it :: last_of_pair rest
    end
  end.

(** 153-216; with an empty set [nextIt++] (206) increments the end iterator *)
Definition createContactInteractionsList (inp : interactions) (names : list string) : outcome (list interaction) :=
  let? s := general_contacts inp names in
  let? s := foldM add_named s (named_contacts inp) in
  match s with [] => UB | _ => Ok (last_of_pair s) end.

(** 235-254: the model of every contact block is the first sublist of "Models"
    ([contactModelParams.begin()->first]); a begin() of an empty list is dereferenced *)
Definition contact_model_of_block {M : Type} (inp : interactions) (models : list (string * M)) (block : string) : outcome M :=
  match models with [] => UB | (_, m) :: _ => Ok m end.
