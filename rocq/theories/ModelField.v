(** * Model of the field registry (src/core/Peridigm_Field.{hpp,cpp}) *)
From Coq Require Import String Ascii.
From Verif Require Import Base.

(** Peridigm_Field.hpp:62-68 *)
Inductive relation := UNDEFINED_RELATION | NODE | ELEMENT | BOND | GLOBAL.
(** Peridigm_Field.hpp:73-88 *)
Inductive flength :=
| UNDEFINED_LENGTH | LENGTH_1 | LENGTH_2 | LENGTH_3 | LENGTH_4 | LENGTH_5
| LENGTH_6 | LENGTH_7 | LENGTH_8 | LENGTH_9
| SCALAR | VECTOR | SYMMETRIC_TENSOR | FULL_TENSOR.
(** Peridigm_Field.hpp:90-94 *)
Inductive temporal := UNDEFINED_TEMPORAL | CONSTANT | TWO_STEP.

Definition relation_eq_dec (a b : relation) : {a = b} + {a <> b}.
Proof. decide equality. Defined.
Definition flength_eq_dec (a b : flength) : {a = b} + {a <> b}.
Proof. decide equality. Defined.
Definition temporal_eq_dec (a b : temporal) : {a = b} + {a <> b}.
Proof. decide equality. Defined.

(** The arguments of getFieldId(relation, length, temporal, label), Peridigm_Field.hpp:155-158. *)
Record request := Req { rq_rel : relation; rq_len : flength; rq_tmp : temporal; rq_label : string }.

Definition request_eq_dec (a b : request) : {a = b} + {a <> b}.
Proof.
  decide equality; [apply string_dec | apply temporal_eq_dec
                   | apply flength_eq_dec | apply relation_eq_dec].
Defined.

(** FieldSpec, Peridigm_Field.hpp:108-146: the four components of a request and
    the id.  Simplification: ids are [nat]; the C++ [int id = fieldSpecs.size()]
    overflows only after 2^31 registrations. *)
Record fspec := Spec { fs_req : request; fs_id : nat }.

(** ::tolower on one character in the "C" locale (used at Peridigm_Field.cpp:112,114). *)
Definition lower_char (c : ascii) : ascii :=
  let n := nat_of_ascii c in
  if andb (Nat.leb 65 n) (Nat.leb n 90) then ascii_of_nat (n + 32) else c.

(** std::transform(..., ::tolower), Peridigm_Field.cpp:111-114. *)
Fixpoint lower (s : string) : string :=
  match s with
  | EmptyString => EmptyString
  | String c t => String (lower_char c) (lower t)
  end.

(** The data members fieldSpecs, labelToIdMap, specIsGlobal, Peridigm_Field.hpp:221-225.
    The std::map is an association list whose first matching entry counts. *)
Record registry := Reg {
  specs : list fspec;
  label_map : list (string * nat);
  is_global : list bool
}.

Definition empty_registry : registry := Reg [] [] [].

(** Peridigm_Field.cpp:99-105: exact-match loop. *)
Fixpoint find_exact (l : list fspec) (r : request) : option nat :=
  match l with
  | [] => None
  | s :: t => if request_eq_dec r (fs_req s) then Some (fs_id s) else find_exact t r
  end.

(** Peridigm_Field.cpp:107-130: is there a label equal up to case? *)
Fixpoint similar_label (l : list fspec) (lab : string) : bool :=
  match l with
  | [] => false
  | s :: t => if string_dec (lower lab) (lower (rq_label (fs_req s))) then true else similar_label t lab
  end.

Definition is_global_rel (r : relation) : bool :=
  match r with GLOBAL => true | _ => false end.

(** FieldManager::getFieldId(relation,length,temporal,label), Peridigm_Field.cpp:94-142. *)
Definition getFieldId (g : registry) (r : request) : registry * outcome nat :=
  match find_exact (specs g) r with
  | Some i => (g, Ok i)
  | None =>
    if similar_label (specs g) (rq_label r) then (g, Err)
    else
      let id := length (specs g) in
      (Reg (specs g ++ [Spec r id])
           ((rq_label r, id) :: label_map g)
           (is_global g ++ [is_global_rel (rq_rel r)]),
       Ok id)
  end.

Fixpoint map_find (m : list (string * nat)) (k : string) : option nat :=
  match m with
  | [] => None
  | (k', v) :: t => if string_dec k k' then Some v else map_find t k
  end.

(** FieldManager::hasField, Peridigm_Field.cpp:144-149. *)
Definition hasField (g : registry) (lab : string) : bool :=
  match map_find (label_map g) lab with Some _ => true | None => false end.

(** FieldManager::getFieldId(label), Peridigm_Field.cpp:151-159. *)
Definition getFieldIdByLabel (g : registry) (lab : string) : outcome nat :=
  match map_find (label_map g) lab with Some i => Ok i | None => Err end.

(** FieldManager::getFieldSpec(int), Peridigm_Field.cpp:161-166.  The id is a C++
    [int]; a negative id becomes a huge unsigned and is rejected. *)
Definition getFieldSpec (g : registry) (id : Z) : outcome fspec :=
  if (id <? 0)%Z then Err
  else match nth_error (specs g) (Z.to_nat id) with Some s => Ok s | None => Err end.

(** FieldManager::getFieldSpec(label), Peridigm_Field.cpp:168-171. *)
Definition getFieldSpecByLabel (g : registry) (lab : string) : outcome fspec :=
  let? i := getFieldIdByLabel g lab in getFieldSpec g (Z.of_nat i).

(** FieldManager::isGlobalSpec, Peridigm_Field.hpp:170 (unchecked subscript). *)
Definition isGlobalSpec (g : registry) (id : nat) : outcome bool := at_ub (is_global g) id.

(** Peridigm_Field.cpp:54-87. *)
Definition variableDimension (l : flength) : outcome nat :=
  match l with
  | LENGTH_1 => Ok 1 | LENGTH_2 => Ok 2 | LENGTH_3 => Ok 3 | LENGTH_4 => Ok 4 | LENGTH_5 => Ok 5
  | LENGTH_6 => Ok 6 | LENGTH_7 => Ok 7 | LENGTH_8 => Ok 8 | LENGTH_9 => Ok 9
  | SCALAR => Ok 1 | VECTOR => Ok 3 | SYMMETRIC_TENSOR => Ok 6 | FULL_TENSOR => Ok 9
  | UNDEFINED_LENGTH => Err
  end.

(** A program's history of registrations, and the answer each of them got. *)
Fixpoint run (g : registry) (h : list request) : registry * list (outcome nat) :=
  match h with
  | [] => (g, [])
  | r :: t => let (g1, o) := getFieldId g r in
              let (g2, os) := run g1 t in (g2, o :: os)
  end.

Definition after (h : list request) : registry := fst (run empty_registry h).
Definition answers (h : list request) : list (outcome nat) := snd (run empty_registry h).
