(** * Specifications for node sets *)
From Coq Require Import String Ascii.
From Verif Require Import Base Num ModelScalar ModelInput SpecInput ModelBC ModelNodeSet.
Local Open Scope string_scope.

(** The text lists the node numbers [ns] (counted from one): its words, separated by any
    white space, are numerals with these values, each a valid int. *)
Definition node_word (w : string) (n : Z) : Prop := numeral w /\ value_of w = n /\ (1 <= n <= int_max)%Z.
Definition lists (s : string) (ns : list Z) : Prop := exists ws, spelled s ws /\ Forall2 node_word ws ns.
(** Nodes are numbered from zero inside. *)
Definition node (n : Z) : nat := Z.to_nat (n - 1).
(** The first word does not start with a zero, or the text has a blank or a tab between
    words, so it is taken for a list and not for a file name. *)
Definition no_leading_zero (s : string) : Prop := forall ws w, spelled s ws -> hd_error ws = Some w -> ~ exists r, w = String "0" r.

(** A file made of lines. *)
Definition newline : string := String "010" "".
Fixpoint file_of (ls : list string) : string :=
  match ls with
  | [] => ""
  | [l] => l
  | l :: r => l ++ newline ++ file_of r
  end.
Definition one_line (l : string) : Prop := ~ In "010"%char (list_ascii_of_string l).
(** A comment: the first character that is not a blank is '#', '/' or '*'. *)
Definition comment (l : string) : Prop :=
  exists b c r, l = b ++ String c r /\ blanks b /\ (c = "#" \/ c = "/" \/ c = "*")%char.
(** A line contributes the numbers [ns]. *)
Definition line_lists (l : string) (ns : list Z) : Prop := (comment l /\ ns = []) \/ lists l ns.
(** The text ends in white space. *)
Fixpoint last_char (s : string) : option ascii :=
  match s with EmptyString => None | String c r => match last_char r with Some d => Some d | None => Some c end end.
Definition ends_white (s : string) : Prop := exists c, last_char s = Some c /\ is_space c = true.
(** A blank or tab with something other than blanks before and after it. *)
Definition inner_blank (s : string) : Prop :=
  exists x c y, s = x ++ String c y /\ (c = " " \/ c = "009")%char /\ ~ blanks x /\ ~ blanks y.
