(** * What the properties of the stress updates talk about

    Stresses, rates and strains are matrices as in SpecCorr.v. *)
From Coq Require Import Reals List.
From Verif Require Import Base Num SpecCorr.
Import ListNotations.
Local Open Scope R_scope.

(** deviatoric part *)
Definition dev_of (s : mat) : mat := fun i j => s i j - tr3 s / 3 * kron i j.
(** Frobenius norm *)
Definition norm3 (a : mat) : R := sqrt (ddot a a).
(** von Mises stress: the square root of 3/2 of the deviator contracted with itself *)
Definition mises (s : mat) : R := sqrt (3 / 2 * ddot (dev_of s) (dev_of s)).
Definition scaled (k : R) (a : mat) : mat := fun i j => k * a i j.
(** Hooke's law for a strain increment: bulk modulus times the volume change on the diagonal, twice the shear modulus times the deviator *)
Definition hooke_of (K G : R) (e : mat) : mat := fun i j => K * tr3 e * kron i j + 2 * G * dev_of e i j.
(** the stress [s] after an elastic step with rate of deformation [d] over the time [dt] *)
Definition elastic_step (K G dt : R) (d s : mat) : mat := fun i j => s i j + hooke_of K G (scaled dt d) i j.
(** the deviatoric strain increment less what the change of the stress explains elastically *)
Definition plastic_inc (G dt : R) (d s s' : mat) : mat := fun i j => dt * dev_of d i j - (dev_of s' i j - dev_of s i j) / (2 * G).
(** the equivalent plastic strain increment of J2 plasticity: the square root of 2/3 times the norm of the plastic strain increment *)
Definition eqps_inc (G dt : R) (d s s' : mat) : R := sqrt (2 / 3) * norm3 (plastic_inc G dt d s s').

(** deviator of the stress and of the rate point the same way *)
Definition proportional (dt : R) (d s : mat) : Prop :=
  exists u b c, 0 <= b /\ 0 <= c /\ eq3 (dev_of s) (scaled b u) /\ eq3 (scaled dt (dev_of d)) (scaled c u).
(** 1.0e-20, the least magnitude the code divides by *)
Definition smallest : R := 1 / 10 ^ 20.

(** a hardening law lies below its tangents with the slopes [slope], the yield stress does not become negative, and the slopes are not negative *)
Definition concave_law (law slope : R -> R) : Prop :=
  forall e, 0 <= e -> 0 <= law e /\ 0 <= slope e /\ forall e', e <= e' -> law e' <= law e + slope e * (e' - e).

(** every two consecutive entries are in the relation *)
Fixpoint chain {A} (rel : A -> A -> Prop) (a : A) (l : list A) : Prop :=
  match l with [] => True | b :: l => rel a b /\ chain rel b l end.
