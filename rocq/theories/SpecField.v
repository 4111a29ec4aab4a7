(** * Vocabulary for C01: what a caller can observe of the field registry *)
From Coq Require Import String.
From Verif Require Import Base ModelField.

(** In history [h], some request equal to [r] was answered with id [i]. *)
Definition accepted (h : list request) (r : request) (i : nat) : Prop :=
  exists k, nth_error h k = Some r /\ nth_error (answers h) k = Some (Ok i).

(** Two labels that differ at most by upper/lower case. *)
Definition same_label_ignoring_case (a b : string) : Prop := lower a = lower b.
