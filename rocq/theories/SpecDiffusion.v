(** * What the diffusion properties talk about, for C51 *)
From Coq Require Import Reals Permutation.
From Verif Require Import Base Num ModelNeigh ModelForce ModelDiffusion SpecForce SpecGlobal.
Local Open Scope R_scope.

(** sum of volume times value *)
Definition total (v f : list R) : R := Rsum (map (fun i => nth i v 0 * nth i f 0) (seq 0 (length f))).

(** Arrays of the fluid flow that fit the neighbour list; n points, the owned ones first *)
Definition flow_inputs {N : Num} (n : nat) (nbrs : list (list nat)) (y : list (V3 N)) (pr v dmg : list N) (deltaT : option (list N)) : Prop :=
  cloud_ok n nbrs y y v /\ length pr = n /\ per_bond nbrs dmg /\ opt_ok (per_point nbrs) deltaT.

(** Arrays of the force of the solid coupled with the fluid *)
Definition coupled_inputs {N : Num} (n : nat) (nbrs : list (list nat)) (x y : list (V3 N)) (pr v m theta dsf dmg : list N) (deltaT : option (list N)) : Prop :=
  cloud_ok n nbrs x y v /\ length pr = n /\ per_point nbrs m /\ per_point nbrs theta /\ per_point nbrs dsf /\ per_bond nbrs dmg /\ opt_ok (per_point nbrs) deltaT.

(** One processor of a body whose points have the global ids 0, 1, ...: the ids of its local points, the owned ones
    first, and the neighbour lists of the owned ones, by local index. *)
Record share := Share { ids : list nat; lists : list (list nat) }.
Definition share_ok (s : share) : Prop :=
  (length (lists s) <= length (ids s))%nat /\ Forall (Forall (fun j => (j < length (ids s))%nat)) (lists s).
(** A field of the body on the processor *)
Definition local {A} (g : nat -> A) (s : share) : list A := map g (ids s).
(** The bonds (point, neighbour) stored on the processor, by global id *)
Definition bonds (s : share) : list (nat * nat) :=
  concat (map (fun il => map (fun j => (nth (fst il) (ids s) O, nth j (ids s) O)) (snd il)) (combine (seq 0 (length (lists s))) (lists s))).
Definition all_bonds (ss : list share) : list (nat * nat) := concat (map bonds ss).
(** j is a neighbour of i exactly as often as i is one of j, wherever they are owned *)
Definition mutual (ss : list share) : Prop :=
  Permutation (all_bonds ss) (map (fun b => (snd b, fst b)) (all_bonds ss)).
(** the sum of volume times value over all owned points *)
Definition body_total (V : nat -> R) (ss : list share) (fs : list (list R)) : R :=
  Rsum (map (fun sf => Rsum (map (fun xf => V (fst xf) * snd xf) (combine (ids (fst sf)) (snd sf)))) (combine ss fs)).
