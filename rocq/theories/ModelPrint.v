(** * Decimal text of a double, and the restart time

    Model of the stream output used at src/core/Peridigm.cpp:4468 (default precision, 6)
    and src/core/Peridigm_HorizonManager.cpp:83-86 (precision 16), and of the time check of
    a restart, src/core/Peridigm.cpp:4449-4470 and 4530-4557. *)
From Coq Require Import SpecFloat.
From Verif Require Import Base Num.
Local Open Scope Z_scope.

(** The text of a floating point number, up to layout: the sign, the decimal digits and the
    decimal exponent.  "TDec neg M X" with p digits is (+/-) M * 10^(X-p+1).  Trailing
    zeros and the choice between fixed and scientific notation do not matter for what a
    reader gets, and are left out. *)
Inductive text := TZero (neg : bool) | TDec (neg : bool) (M X : Z) | TInf (neg : bool) | TNan.

(** num/den < 10^e *)
Definition below_pow10 (num den e : Z) : bool :=
  if 0 <=? e then num <? den * 10 ^ e else num * 10 ^ (- e) <? den.

(** The decimal exponent: the X with 10^X <= num/den < 10^(X+1), searched upwards. *)
Fixpoint find_exp (fuel : nat) (num den e : Z) : Z :=
  match fuel with
  | O => e
  | S k => if below_pow10 num den (e + 1) then e else find_exp k num den (e + 1)
  end.

(** printf %.{p}g conversion (C11 7.21.6.1, glibc rounds the exact value, ties to even):
    p significant digits. *)
Definition round_dec (p num den X : Z) : Z :=
  let s := X - (p - 1) in
  let n := if 0 <=? s then num else num * 10 ^ (- s) in
  let d := if 0 <=? s then den * 10 ^ s else den in
  let q := n / d in
  let r := n mod d in
  if 2 * r <? d then q else if d <? 2 * r then q + 1 else if Z.even q then q else q + 1.

(** Rounding up to 10^p gives one digit more. *)
Definition finish (p M X : Z) : Z * Z := if M =? 10 ^ p then (10 ^ (p - 1), X + 1) else (M, X).

Definition print_pos (p num den : Z) : Z * Z :=
  finish p (round_dec p num den (find_exp 700 num den (- 330))) (find_exp 700 num den (- 330)).

Definition numerator (m : positive) (e : Z) : Z := if 0 <=? e then Zpos m * 2 ^ e else Zpos m.
Definition denominator (e : Z) : Z := if 0 <=? e then 1 else 2 ^ (- e).

Definition print (p : Z) (x : spec_float) : text :=
  match x with
  | S754_zero s => TZero s
  | S754_infinity s => TInf s
  | S754_nan => TNan
  | S754_finite s m e => let '(M, X) := print_pos p (numerator m e) (denominator e) in TDec s M X
  end.

(** Peridigm.cpp:4464-4468: the time written, from the current time (the initial time of a
    fresh run, line 1005) and the "Initial Time" and "Final Time" of the solver. *)
Definition written_time (current initial final : FN) : FN := (current + (final - initial))%num.
Definition written_text (current initial final : FN) : text := print 6 (written_time current initial final).

(** Peridigm.cpp:4545-4557: [parse] is atof; the run is refused unless the time read equals
    the "Initial Time" of the new run. *)
Definition read_restart (parse : text -> FN) (t : text) (initial : FN) : outcome FN :=
  if (parse t =? initial)%num then Ok (parse t) else Err.
