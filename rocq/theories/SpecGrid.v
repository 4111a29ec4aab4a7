(** * What a tensor product mesh is *)
From Coq Require Import Reals.
From Verif Require Import Base Num ModelGrid SpecGeom.
Local Open Scope R_scope.

(** A box divided into nx times ny times nz equal cells: per axis the number of cells, the start and the length. *)
Definition axis := spec1 RN.
Definition spacing (a : axis) : R := x_length a / INR (cells a).

(** The middle of the i-th cell of an axis *)
Definition middle (a : axis) (i : nat) : R := x_start a + (INR i + / 2) * spacing a.

(** Cells are numbered along x first, then y, then z; the centre of cell number n. *)
Definition cell_centre (ax ay az : axis) (n : nat) : point :=
  v3 (N:=RN) (middle ax (n mod cells ax)) (middle ay ((n / cells ax) mod cells ay)) (middle az (n / (cells ax * cells ay))).

Definition num_cells (ax ay az : axis) : nat := (cells ax * cells ay * cells az)%nat.

(** The conversion of a non-negative real number to an integer of 64 bits, dropping its fraction *)
Definition whole_part (x : R) : option nat :=
  if Rlt_dec (-1) x then if Rlt_dec x (2 ^ 64) then Some (Z.to_nat (Int_part x)) else None else None.
