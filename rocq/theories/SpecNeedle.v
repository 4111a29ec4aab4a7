(** * What the properties of the viscoplastic update talk about *)
From Coq Require Import Reals List.
From Verif Require Import Base Num SpecCorr SpecJ2.
Local Open Scope R_scope.

(** pow of the C library for a base and an exponent that are not negative *)
Definition cpow (x y : R) : R := if Rlt_dec 0 x then Rpower x y else if Req_EM_T y 0 then 1 else 0.

(** Needleman's flow stress at a plastic strain and a plastic strain rate:
    Y (1 + strain/e0)^n / (1 + (strain/e1)^2) (rate/rate0)^m *)
Definition flow_stress (Y n m rate0 e0 e1 strain rate : R) : R :=
  Y * cpow (1 + strain / e0) n / (1 + (strain / e1) ^ 2) * cpow (rate / rate0) m.

(** admissible constants of the material *)
Definition admissible (G Y n m rate0 e0 e1 dt eN : R) : Prop :=
  0 < G /\ 0 < Y /\ 0 <= n /\ 0 < m /\ 0 < rate0 /\ 0 < e0 /\ 0 < e1 /\ 0 < dt /\ 0 <= eN.

(** the part of the deviatoric strain increment in the direction of the elastic stress *)
Definition projected (K G dt : R) (d s : mat) : R :=
  ddot (dev_of (elastic_step K G dt d s)) (scaled dt (dev_of d)) / norm3 (dev_of (elastic_step K G dt d s)).

(** by how much the deviator, grown elastically by the projected increment less the plastic multiplier [x], exceeds
    the radius of the flow surface at the strain [strain x] *)
Definition excess (Y n m rate0 e0 e1 K G dt eN : R) (strain : R -> R) (d s : mat) (x : R) : R :=
  norm3 (dev_of s) + 2 * G * (projected K G dt d s - x) - sqrt (2/3) * flow_stress Y n m rate0 e0 e1 (strain x) (sqrt (2/3) * x / dt).
