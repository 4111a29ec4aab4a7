(** * What the properties of the correspondence materials talk about

    Matrices are functions of row and column 0, 1, 2; nothing here uses the tensor
    operations of the model. *)
From Coq Require Import Reals.
From Verif Require Import Base Num ModelNeigh ModelForce SpecForce ModelCorr.
Local Open Scope R_scope.

Definition mat := nat -> nat -> R.
(** the nine stored numbers, row by row *)
Definition ent (a : M3 RN) : mat := fun i j =>
  match i, j with
  | 0%nat, 0%nat => m0 a | 0%nat, 1%nat => m1 a | 0%nat, 2%nat => m2 a
  | 1%nat, 0%nat => m3_ a | 1%nat, 1%nat => m4 a | 1%nat, 2%nat => m5 a
  | 2%nat, 0%nat => m6 a | 2%nat, 1%nat => m7 a | 2%nat, 2%nat => m8 a
  | _, _ => 0
  end.
Definition comp (a : V3 RN) (i : nat) : R :=
  match i with 0%nat => vx a | 1%nat => vy a | 2%nat => vz a | _ => 0 end.
Definition sum3 (f : nat -> R) : R := f 0%nat + f 1%nat + f 2%nat.
Definition kron (i j : nat) : R := if Nat.eqb i j then 1 else 0.

Definition eq3 (a b : mat) : Prop := forall i j, (i < 3)%nat -> (j < 3)%nat -> a i j = b i j.
Definition prod (a b : mat) : mat := fun i j => sum3 (fun k => a i k * b k j).
Definition transp (a : mat) : mat := fun i j => a j i.
Definition det3 (a : mat) : R :=
  a 0%nat 0%nat * (a 1%nat 1%nat * a 2%nat 2%nat - a 1%nat 2%nat * a 2%nat 1%nat)
  - a 0%nat 1%nat * (a 1%nat 0%nat * a 2%nat 2%nat - a 1%nat 2%nat * a 2%nat 0%nat)
  + a 0%nat 2%nat * (a 1%nat 0%nat * a 2%nat 1%nat - a 1%nat 1%nat * a 2%nat 0%nat).
Definition tr3 (a : mat) : R := sum3 (fun i => a i i).
(** double contraction *)
Definition ddot (a b : mat) : R := sum3 (fun i => sum3 (fun j => a i j * b i j)).
Definition inverse_of (a b : mat) : Prop := eq3 (prod a b) kron /\ eq3 (prod b a) kron.
Definition symmetric (a : mat) : Prop := eq3 a (transp a).
Definition orthogonal3 (a : mat) : Prop := eq3 (prod (transp a) a) kron.
(** matrix times vector *)
Definition image (a : mat) (u : V3 RN) (i : nat) : R := sum3 (fun k => a i k * comp u k).

(** ** Neighbourhoods *)

(** [y] is the image of [x] under the affine map, for the points listed *)
Definition affine_at (A : mat) (b : V3 RN) (x y : list (V3 RN)) (pts : list nat) : Prop :=
  forall p X Y, In p pts -> nth_error x p = Some X -> nth_error y p = Some Y ->
  forall i, (i < 3)%nat -> comp Y i = image A X i + comp b i.

(** weight of a bond: influence function times the neighbour's volume *)
Definition weight (omega : R -> R -> R) (h : R) (X : V3 RN) (nb : V3 RN * R) : R :=
  omega (vlen (vsub (fst nb) X)) h * snd nb.
Definition sum_over {A} (f : A -> R) (l : list A) : R := fold_right (fun a s => f a + s) 0 l.
(** shape tensor of a point with these neighbours (positions and volumes) *)
Definition shape (omega : R -> R -> R) (h : R) (X : V3 RN) (nbs : list (V3 RN * R)) : mat := fun i j =>
  sum_over (fun nb => weight omega h X nb * comp (vsub (fst nb) X) i * comp (vsub (fst nb) X) j) nbs.

(** position, horizon and neighbours of an owned point *)
Definition neighbourhood (x : list (V3 RN)) (v hs : list R) (nbrs : list (list nat)) (p : nat) (X : V3 RN) (h : R) (nbs : list (V3 RN * R)) : Prop :=
  exists js, nth_error nbrs p = Some js /\ nth_error x p = Some X /\ nth_error hs p = Some h /\ looks_up x v js nbs.

(** all bonds of the point lie in one plane *)
Definition coplanar (X : V3 RN) (nbs : list (V3 RN * R)) : Prop :=
  exists a, a <> vzero /\ forall nb, In nb nbs -> vdot a (vsub (fst nb) X) = 0.

(** arrays that fit *)
Definition corr_inputs {N : Num} (n : nat) (nbrs : list (list nat)) (x y : list (V3 N)) (v hs : list N) : Prop :=
  cloud_ok n nbrs x y v /\ per_point nbrs hs.

(** ** Stress *)

(** first Piola-Kirchhoff stress of the Cauchy stress [s]: P F^T = det F s *)
Definition piola_of (F s P : mat) : Prop := forall i j, (i < 3)%nat -> (j < 3)%nat ->
  sum3 (fun k => P i k * F j k) = det3 F * s i j.

(** ** Rotation *)

(** rate of deformation and spin of the velocity gradient [L] *)
Definition sym_part (L : mat) : mat := fun i j => (L i j + L j i) / 2.
(** velocities [vel] are those of a body at [y] spinning about the origin with angular
    velocity [w], moved by [u] *)
Definition spinning (w u : V3 RN) (y vel : list (V3 RN)) : Prop :=
  Forall2 (fun Y U => U = vadd (vcross w Y) u) y vel.
(** the whole body is the image of [x] *)
Definition affine_body (A : mat) (b : V3 RN) (x y : list (V3 RN)) : Prop :=
  Forall2 (fun X Y => forall i, (i < 3)%nat -> comp Y i = image A X i + comp b i) x y.
(** coefficient [n_i n_j] of the direction of [w] *)
Definition dir2 (w : V3 RN) (i j : nat) : R := comp w i * comp w j / vdot w w.
(** the antisymmetric matrix of [w]: times a vector it is the cross product with [w] *)
Definition cross_of (w : V3 RN) : mat := fun i j =>
  match i, j with
  | 0%nat, 1%nat => - vz w | 0%nat, 2%nat => vy w
  | 1%nat, 0%nat => vz w | 1%nat, 2%nat => - vx w
  | 2%nat, 0%nat => - vy w | 2%nat, 1%nat => vx w
  | _, _ => 0
  end.
(** rate of the left stretch [V] in a frame turning with [w], for velocity gradient [L] *)
Definition stretch_rate (L V : mat) (w : V3 RN) : mat := fun i j => prod L V i j - prod V (cross_of w) i j.
(** trace V times the identity, minus V *)
Definition spherical_minus (V : mat) : mat := fun i j => tr3 V * kron i j - V i j.
(** what one step adds to the lengths across the axis: 0 for a rotation *)
Definition excess (dt : R) (w : V3 RN) : R :=
  if Rle_dec (vdot w w) (1 / 10 ^ 30) then 0 else 4 * (1 - cos (dt * vlen w)).
