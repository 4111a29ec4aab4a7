(** * What the damage properties talk about *)
From Coq Require Import Reals.
From Verif Require Import Base Num ModelNeigh ModelDamage.

(** The computed relative extension of a bond exceeds the critical stretch. *)
Definition exceeds {N : Num} (crit : N) (m : mesh N) (c : config N) (b : nat * nat) : Prop :=
  exists e, relativeExtension (m_x m) c (fst b) (snd b) = Ok e /\ ltb crit e = true.

(** Comparisons between the two damage values behave as expected. *)
Definition sane01 (N : Num) : Prop :=
  ltb (n:=N) (ofZ 0) (ofZ 1) = true /\ ltb (n:=N) (ofZ 0) (ofZ 0) = false /\
  ltb (n:=N) (ofZ 1) (ofZ 1) = false /\ ltb (n:=N) (ofZ 1) (ofZ 0) = false.

Definition num_bonds (nbrs : list (list nat)) : nat := fold_right Nat.add 0 (map (@length nat) nbrs).

(** Euclidean distance, and a bond being longer than (1+crit) times its original
    length. *)
Definition dist (a b : V3 RN) : R :=
  sqrt (Rsqr (vx b - vx a) + Rsqr (vy b - vy a) + Rsqr (vz b - vz a)).
Definition overstretched (crit : R) (x y : list (V3 RN)) (b : nat * nat) : Prop :=
  exists x0 x1 y0 y1,
    nth_error x (fst b) = Some x0 /\ nth_error x (snd b) = Some x1 /\
    nth_error y (fst b) = Some y0 /\ nth_error y (snd b) = Some y1 /\
    (dist y0 y1 > (1 + crit) * dist x0 x1)%R.

(** Every second element, starting with the first. *)
Fixpoint every_second {A} (l : list A) : list A :=
  match l with
  | a :: _ :: t => a :: every_second t
  | [a] => [a]
  | [] => []
  end.

(** A bond damage of 0 or 1. *)
Definition is01 (v : R) : Prop := v = 0%R \/ v = 1%R.

(** The number of the first bond of the p-th owned point. *)
Definition offset (nbrs : list (list nat)) (p : nat) : nat := num_bonds (firstn p nbrs).

(** Bond [k] is broken (1) when [P] holds and intact (0) when it does not. *)
Definition bond_is {N : Num} (P : Prop) (l : list N) (k : nat) : Prop :=
  (P /\ nth_error l k = Some (ofZ 1)) \/ (~ P /\ nth_error l k = Some (ofZ 0)).

Definition count_true (l : list bool) : nat := length (filter (fun b => b) l).

(** The mesh and the fields fit together: every owned id and every neighbour is a point
    with coordinates, and there is one bond value per neighbour. *)
Definition mesh_ok {N : Num} (m : mesh N) (npoints : nat) : Prop :=
  length (m_x m) = npoints /\ length (m_owned m) = length (m_nbrs m) /\ NoDup (m_owned m) /\ Forall (fun i => i < npoints) (m_owned m) /\ Forall (Forall (fun j => j < npoints)) (m_nbrs m).
Definition config_ok {N : Num} (c : config N) (npoints : nat) : Prop :=
  length (c_y c) = npoints /\ match c_thermal c with None => True | Some (_, dT) => length dT = npoints end.

(** No bond has zero reference length. *)
Definition distinct_bonds (m : mesh RN) : Prop :=
  forall b x0 x1, In b (bonds_of (m_owned m) (m_nbrs m)) ->
    nth_error (m_x m) (fst b) = Some x0 -> nth_error (m_x m) (snd b) = Some x1 -> (0 < dist x0 x1)%R.

Definition dstate_ok {N : Num} (s : dstate N) (nb np : nat) : Prop :=
  length (bdN s) = nb /\ length (bdNP1 s) = nb /\ length (dmgN s) = np /\ length (dmgNP1 s) = np.

(** The bond damage that belongs to a Johnson-Cook damage parameter. *)
Definition jc_bond_of (thr d : R) : R := if Rltb thr d then ((d - thr) / (1 - thr))%R else 0%R.

(** The state of the Johnson-Cook model before the first step. *)
Definition jc_fresh (n : nat) : jcstate RN :=
  JC (N:=RN) (repeat 0%R n) (repeat 0%R n) (repeat 0%R n) (repeat 0%R n).
