(** * Which contact models the input defines for which blocks *)
From Coq Require Import ZArith String.
From Verif Require Import Base ModelInput ModelInteractions.

(** The input defines model [m] for the blocks [a] and [b]: as self contact, as general
    contact between two different blocks, or by an entry of its own. *)
Inductive defines (inp : interactions) (names : list string) : Z -> Z -> string -> Prop :=
| self_defines m n a : self_contact inp = Some m -> In n names -> block_id n = Ok a -> defines inp names a a m
| general_defines m i j ni nj a b : general_contact inp = Some m -> i <> j ->
    nth_error names i = Some ni -> nth_error names j = Some nj -> block_id ni = Ok a -> block_id nj = Ok b ->
    defines inp names (Z.min a b) (Z.max a b) m
| named_defines first second m a b : In (first, second, m) (named_contacts inp) ->
    block_id first = Ok a -> block_id second = Ok b -> defines inp names a b m.

(** All block names in the input are well formed. *)
Definition names_ok (inp : interactions) (names : list string) : Prop :=
  (forall n, In n names -> exists a, block_id n = Ok a) /\
  (forall f s m, In (f, s, m) (named_contacts inp) -> (exists a, block_id f = Ok a) /\ exists b, block_id s = Ok b).

(** The order of strings in std::set. *)
Definition precedes (m m' : string) : Prop := String.compare m m' = Lt.
