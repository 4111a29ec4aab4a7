(** * Specifications for influence functions, elastic constants and the time step *)
From Coq Require Import Reals String List.
From Verif Require Import Base Num ModelScalar SpecDamage.
Open Scope R_scope.

(** An isotropic linear elastic material is given by its bulk and shear moduli; Young's
    modulus and Poisson's ratio follow. *)
Record isotropic := { iso_K : R; iso_G : R; iso_K_pos : 0 < iso_K; iso_G_pos : 0 < iso_G }.
Definition young (m : isotropic) : R := 9 * iso_K m * iso_G m / (3 * iso_K m + iso_G m).
Definition poisson (m : isotropic) : R :=
  (3 * iso_K m - 2 * iso_G m) / (2 * (3 * iso_K m + iso_G m)).

(** An input deck describes the material [m] when every constant it gives is the one of
    [m]. *)
Definition describes (p : elastic_params RN) (m : isotropic) : Prop :=
  (forall v, p_bulk p = Some v -> v = iso_K m) /\
  (forall v, p_shear p = Some v -> v = iso_G m) /\
  (forall v, p_young p = Some v -> v = young m) /\
  (forall v, p_poisson p = Some v -> v = poisson m).

Definition no_plane (p : elastic_params RN) : Prop :=
  p_plane_strain p <> Some true /\ p_plane_stress p <> Some true.

(** The horizon in force at a position. *)
Definition horizon_at (h : horizon_def RN) (X : V3 RN) : R :=
  match h with HConst v => v | HVar f => f X end.

(** The stable step of one point: sqrt(2 rho / sum over bonds of V_j C / |xi|) with
    C = 18 K / (pi delta^4). *)
Fixpoint sum_bonds (C : R) (X : V3 RN) (bonds : list (R * V3 RN)) : R :=
  match bonds with
  | nil => 0
  | (V, Y) :: t => V * C / dist X Y + sum_bonds C X t
  end.
Definition stable_step (rho K delta : R) (X : V3 RN) (bonds : list (R * V3 RN)) : R :=
  sqrt (2 * rho / sum_bonds (18 * K / (PI * delta ^ 4)) X bonds).

(** [is_point d X bonds]: [d] owns a point at [X] with these bonds (volume and position
    of each neighbour). *)
Definition is_point (d : block_data RN) (X : V3 RN) (bonds : list (R * V3 RN)) : Prop :=
  exists i ns, In (i, ns) (bd_rows d) /\ nth_error (bd_x d) i = Some X /\
    Forall2 (fun j b => nth_error (bd_volume d) j = Some (fst b) /\
                        nth_error (bd_x d) j = Some (snd b)) ns bonds.

(** A well formed block: every referenced point exists, volumes are positive, bonds do
    not have length zero, horizons are positive. *)
Definition rank_ok (h : horizon_def RN) (d : block_data RN) : Prop :=
  Forall (fun V : R => 0 < V) (bd_volume d) /\ length (bd_volume d) = length (bd_x d) /\
  (forall i ns, In (i, ns) (bd_rows d) ->
     exists X, nth_error (bd_x d) i = Some X /\ 0 < horizon_at h X /\
       Forall (fun j => exists Y, nth_error (bd_x d) j = Some Y /\ 0 < dist X Y) ns).
Definition block_ok (b : block RN) : Prop :=
  0 < bk_rho b /\ 0 < bk_K b /\ bk_ranks b <> nil /\ Forall (rank_ok (bk_h b)) (bk_ranks b).

(** The same block with another density. *)
Definition with_density (b : block RN) (rho : R) : block RN :=
  {| bk_rho := rho : RN; bk_K := bk_K b; bk_h := bk_h b; bk_ranks := bk_ranks b |}.

(** The stable steps of the points (those that have bonds) of one processor's share, and
    of a whole block. *)
Definition rank_point_step (rho K : R) (h : horizon_def RN) (d : block_data RN) (s : R) : Prop :=
  exists X bonds, is_point d X bonds /\ bonds <> nil /\ s = stable_step rho K (horizon_at h X) X bonds.
Definition block_point_step (b : block RN) (s : R) : Prop :=
  exists d, In d (bk_ranks b) /\ rank_point_step (bk_rho b) (bk_K b) (bk_h b) d s.

(** The cap the code starts its minima from. *)
Definition cap : R := IZR (10 ^ 50).

(** [r] is the least element of [P], or the cap if every element is at least the cap. *)
Definition capped_min (P : R -> Prop) (r : R) : Prop :=
  r <= cap /\ (forall s, P s -> r <= s) /\ (r = cap \/ P r).
