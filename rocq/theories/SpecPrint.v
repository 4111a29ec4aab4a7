(** * Specification of decimal texts *)
From Coq Require Import SpecFloat Reals.
From Verif Require Import Base Num ModelPrint.

Definition pow10 (e : Z) : R := powerRZ 10 e.
(** The value of a positive double m * 2^e. *)
Definition double_value (m : positive) (e : Z) : R := (IZR (Zpos m) * powerRZ 2 e)%R.
Definition is_double (m : positive) (e : Z) : Prop := (Zpos m < 2 ^ 53 /\ -1074 <= e <= 971)%Z.
(** The value of p decimal digits M with decimal exponent X. *)
Definition decimal_value (p M X : Z) : R := (IZR M * pow10 (X - (p - 1)))%R.
Definition digits (p M : Z) : Prop := (10 ^ (p - 1) <= M < 10 ^ p)%Z.
Definition is_nan (x : spec_float) : Prop := x = S754_nan.
