(** * Specifications of the global output quantities and of data files *)
From Coq Require Import Reals.
From Verif Require Import Base Num ModelGlobal.

(** ** The points of a body *)
(** One material point with the values the output quantities are made of. *)
Record point := { p_rho : R; p_vol : R; p_v : V3 RN; p_y : V3 RN; p_x : V3 RN; p_id : Z; p_val : R }.

(** [block_points b ps]: [ps] are the owned points of block [b] on one processor. *)
Definition block_points (b : rblock RN) (ps : list point) : Prop :=
  Forall2 (fun i p => p_rho p = rb_rho b /\ nth_error (rb_vol b) i = Some (p_vol p) /\
                      nth_error (rb_vel b) i = Some (p_v p) /\ nth_error (rb_y b) i = Some (p_y p) /\
                      nth_error (rb_x b) i = Some (p_x p) /\ nth_error (rb_gid b) i = Some (p_id p) /\
                      nth_error (rb_data b) i = Some (p_val p)) (rb_owned b) ps.
(** The points of a world, per processor and block. *)
Definition world_points (w : list (rank RN)) (psss : list (list (list point))) : Prop :=
  Forall2 (Forall2 block_points) w psss.
(** Every processor has the [n] blocks, and there is at least one processor. *)
Definition same_blocks (n : nat) (w : list (rank RN)) : Prop :=
  w <> [] /\ Forall (fun r => length r = n) w.
(** The owned points come first (C04). *)
Definition owned_first (w : list (rank RN)) : Prop :=
  forall r b, In r w -> In b r -> rb_owned b = seq 0 (length (rb_owned b)).
Definition all_points (psss : list (list (list point))) : list point := concat (map (@concat point) psss).
(** The points of the blocks with a given id. *)
Definition points_of (bid : Z) (w : list (rank RN)) (psss : list (list (list point))) : list point :=
  concat (map (fun rp => concat (map (fun bp => if Z.eqb (rb_id (fst bp)) bid then snd bp else [])
                                     (combine (fst rp) (snd rp)))) (combine w psss)).

(** The points of the [k]-th block, over all processors. *)
Definition block_column (k : nat) (psss : list (list (list point))) : list point :=
  concat (map (fun pss => nth k pss []) psss).

Definition Rsum (l : list R) : R := fold_right Rplus 0%R l.
Definition Vsum (l : list (V3 RN)) : V3 RN :=
  v3 (N:=RN) (Rsum (map (@vx RN) l)) (Rsum (map (@vy RN) l)) (Rsum (map (@vz RN) l)).
Definition mass (p : point) : R := (p_rho p * p_vol p)%R.
Definition kinetic (p : point) : R := (1 / 2 * mass p * vdot (p_v p) (p_v p))%R.
Definition momentum (p : point) : V3 RN := vscale (N:=RN) (mass p) (p_v p).
Definition ang_momentum (p : point) : V3 RN := vscale (N:=RN) (mass p) (vcross (p_y p) (p_v p)).

Definition is_least (l : list R) (m : R) : Prop := In m l /\ forall x, In x l -> (m <= x)%R.
Definition is_greatest (l : list R) (m : R) : Prop := In m l /\ forall x, In x l -> (x <= m)%R.

Definition distance (a b : V3 RN) : R := vlen (vsub a b).
(** Among the points at the least distance from [q], [i] is the lowest id. *)
Definition nearest_id (ps : list point) (q : V3 RN) (i : Z) : Prop :=
  exists p, In p ps /\ p_id p = i /\
    forall p', In p' ps -> (distance (p_x p) q < distance (p_x p') q)%R \/
                           (distance (p_x p) q = distance (p_x p') q /\ (p_id p <= p_id p')%Z).

(** ** Data files *)
Definition increasing (f : datafile RN) : Prop :=
  forall i a b, nth_error f i = Some a -> nth_error f (S i) = Some b -> (fst a < fst b)%R.
Definition rectangular (n : nat) (f : datafile RN) : Prop := forall a, In a f -> length (snd a) = n.
Definition within (f : datafile RN) (t : R) : Prop :=
  exists a b, In a f /\ In b f /\ (fst a < fst b)%R /\ (fst a <= t <= fst b)%R.
(** [v] lies on the straight line through (t1,v1) and (t2,v2) at time [t]. *)
Definition on_line (t1 v1 t2 v2 t v : R) : Prop := ((t2 - t1) * (v - v1) = (t - t1) * (v2 - v1))%R.
(** [out] is the linear interpolation in time of the file at time [t], for every node. *)
Definition interpolates (f : datafile RN) (t : R) (out : list R) : Prop :=
  exists i a b, nth_error f i = Some a /\ nth_error f (S i) = Some b /\ (fst a <= t <= fst b)%R /\
    length out = length (snd a) /\
    forall k v, nth_error out k = Some v ->
      exists v1 v2, nth_error (snd a) k = Some v1 /\ nth_error (snd b) k = Some v2 /\
        on_line (fst a) v1 (fst b) v2 t v.
