(** * What is asked for and what is built (C82) *)
From Coq Require Import String Ascii List.
From Verif Require Import Base ModelCompute.
Import ListNotations.
Local Open Scope string_scope.

(** [b] is how the class is named that a user writes as [a]: every space is an underscore *)
Inductive spelled : string -> string -> Prop :=
| spelled_end : spelled "" ""
| spelled_space a b : spelled a b -> spelled (String " " a) (String "_" b)
| spelled_char c a b : c <> " "%char -> spelled a b -> spelled (String c a) (String c b).

(** A list is an output list if "Output" occurs in its name. *)
Definition output_list (name : string) : Prop := exists before after, name = before ++ "Output" ++ after.
(** the input asks for the variable [v] *)
Definition asked (top : list (string * option (list string))) (v : string) : Prop :=
  exists name vs, In (name, Some vs) top /\ output_list name /\ In v vs.
(** the input has parameters [d] for the class [n] *)
Definition parametrised {D} (params : option (list (entry D))) (n : string) (d : D) : Prop :=
  exists l c, params = Some l /\ In (Params (Some c) d) l /\ spelled c n.
(** every entry of the parameters names a class *)
Definition named {D} (params : option (list (entry D))) : Prop :=
  forall l e, params = Some l -> In e l -> exists c d, e = Params (Some c) d.

(** the object that stands for itself: class and parameters *)
Definition itself {D} (n : string) (d : option D) : outcome (string * option D) := Ok (n, d).

(** every object is run once, in order: what one leaves is what the next finds *)
Inductive one_by_one {O B} (step : O -> B -> outcome B) : list O -> B -> B -> Prop :=
| run_none b : one_by_one step [] b b
| run_next o l b b1 b2 : step o b = Ok b1 -> one_by_one step l b1 b2 -> one_by_one step (o :: l) b b2.
