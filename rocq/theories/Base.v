(** * Shared vocabulary of the model

    [outcome] distinguishes the three ways a C++ call can end in the model:
    a normal result, a thrown exception (TEUCHOS_TEST_FOR_EXCEPTION,
    TEUCHOS_TEST_FOR_TERMINATION, TEUCHOS_TEST_FOR_EXCEPT_MSG all throw), and
    undefined behaviour (null dereference, out-of-range subscript,
    uninitialised read, ...).  The message texts are not modelled. *)
From Coq Require Export List Arith ZArith Lia Bool.
Export ListNotations.

Inductive outcome (A : Type) : Type :=
| Ok (a : A)
| Err
| UB.
Arguments Ok {A} a.
Arguments Err {A}.
Arguments UB {A}.

Definition bind {A B} (x : outcome A) (f : A -> outcome B) : outcome B :=
  match x with Ok a => f a | Err => Err | UB => UB end.

Notation "'let?' x ':=' e 'in' k" := (bind e (fun x => k))
  (at level 200, x pattern, e at level 200, k at level 200, right associativity).

(** Unchecked C++ subscript [v[i]] of a vector: undefined behaviour out of range. *)
Definition at_ub {A} (l : list A) (i : nat) : outcome A :=
  match nth_error l i with Some a => Ok a | None => UB end.

(** Write [v[i] = a] into an array; [None] when out of range. *)
Fixpoint upd {A} (l : list A) (i : nat) (a : A) : option (list A) :=
  match l, i with
  | [], _ => None
  | _ :: t, O => Some (a :: t)
  | h :: t, S j => match upd t j a with Some t' => Some (h :: t') | None => None end
  end.

Definition upd_ub {A} (l : list A) (i : nat) (a : A) : outcome (list A) :=
  match upd l i a with Some l' => Ok l' | None => UB end.

(** Fold a fallible loop body over a list (a C++ [for] loop over a container). *)
Fixpoint foldM {A S} (f : S -> A -> outcome S) (s : S) (l : list A) : outcome S :=
  match l with
  | [] => Ok s
  | a :: t => let? s' := f s a in foldM f s' t
  end.
