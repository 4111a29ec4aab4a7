(** * Specifications of the output fields *)
From Coq Require Import String Reals.
From Verif Require Import Base Num ModelOutput SpecForce SpecCorr SpecGlobal.
Local Open Scope R_scope.

(** ** Node_Set_Data *)
(** The owned points of one processor: global id and value. *)
Definition owned_points (r : nrank RN) : list (Z * R) :=
  concat (map (fun b => combine (nb_gids b) (nb_data b)) (nr_blocks r)).
(** The values of the points of node set [G] on all processors. *)
Definition set_values (G : list Z) (w : list (nrank RN)) : list R :=
  map snd (filter (fun gv => existsb (Z.eqb (fst gv)) G) (concat (map owned_points w))).
(** The blocks have different names and a value for every owned point. *)
Definition proper (r : nrank RN) : Prop :=
  NoDup (map nb_name (nr_blocks r)) /\
  Forall (fun b => (length (nb_gids b) <= length (nb_data b))%nat) (nr_blocks r).
(** Every processor lists those of its points that are in [G]; order, repetitions and ids of
    other processors do not matter. *)
Definition lists_part (G : list Z) (r : nrank RN) : Prop :=
  forall gv, In gv (owned_points r) -> (In (fst gv) (nr_set r) <-> In (fst gv) G).
(** The same processor at two times: only the values may differ. *)
Definition same_layout (r r' : nrank RN) : Prop :=
  nr_set r = nr_set r' /\ map nb_name (nr_blocks r) = map nb_name (nr_blocks r') /\
  map nb_gids (nr_blocks r) = map nb_gids (nr_blocks r').

(** ** Fields *)
(** [values omega]: the volumes of the listed points. *)
Definition picks (vol : list R) (js : list nat) (vs : list R) : Prop :=
  Forall2 (fun j v => nth_error vol j = Some v) js vs.
(** [bond_slice part k n vs]: the entries k, k+1, ..., k+n-1. *)
Definition bond_slice (part : list R) (k n : nat) (vs : list R) : Prop :=
  length vs = n /\ forall i v, nth_error vs i = Some v -> nth_error part (k + i) = Some v.
(** Index of the first bond of a point. *)
Definition first_bond (nbrs : list (list nat)) (p : nat) : nat :=
  fold_right Nat.add 0%nat (map (@length nat) (firstn p nbrs)).

(** The arrays of a block fit. *)
Definition whole (b : gblock RN) : Prop := exists n, corr_inputs n (gb_nbrs b) (gb_x b) (gb_y b) (gb_v b) (gb_h b).
(** [F] holds, for every point whose neighbourhood moves by an affine map, the matrix of
    that map. *)
Definition gradient_of (b : gblock RN) (F : list (ModelCorr.M3 RN)) : Prop :=
  length F = length (gb_nbrs b) /\
  forall p js A t, nth_error (gb_nbrs b) p = Some js -> affine_at A t (gb_x b) (gb_y b) (p :: js) ->
  exists M, nth_error F p = Some M /\ eq3 (ent M) A.
(** No point has a singular shape tensor. *)
Definition regular (omega : R -> R -> R) (b : gblock RN) : Prop :=
  forall p X h nbs, neighbourhood (gb_x b) (gb_v b) (gb_h b) (gb_nbrs b) p X h nbs -> det3 (shape omega h X nbs) <> 0.
