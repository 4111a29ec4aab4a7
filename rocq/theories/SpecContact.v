(** * Contact between two points, and over a body *)
From Coq Require Import Reals ZArith.
From Verif Require Import Base Num ModelContact SpecDamage SpecGlobal.
Local Open Scope R_scope.

(** ** Two points *)
(** A point in motion: where it is, its velocity, its volume. *)
Record body_point := { at_ : V3 RN; moving : V3 RN; volume : R }.

(** Nothing is negative and the horizon is not zero. *)
Definition sensible (c : contact_model RN) : Prop := 0 <= c_radius c /\ 0 <= c_spring c /\ 0 < c_horizon c.

(** The unit vector from [q] to [p]. *)
Definition unit_from (q p : body_point) : V3 RN := vscale (N:=RN) (/ dist (at_ p) (at_ q)) (vsub (at_ p) (at_ q)).
(** Magnitude of the contact force density on a point: proportional to the interpenetration
    and to the volume of the other point, none from the contact radius on. *)
Definition contact_modulus (c : contact_model RN) : R := 9 * c_spring c / (PI * c_horizon c ^ 5).
Definition magnitude (c : contact_model RN) (p q : body_point) : R :=
  contact_modulus c * Rmax 0 (c_radius c - dist (at_ p) (at_ q)) * volume q.
(** Velocity of [p] relative to [q], and the part of it across the line of centres. *)
Definition relative (p q : body_point) : V3 RN := vsub (moving p) (moving q).
Definition slip (p q : body_point) : V3 RN :=
  vsub (relative p q) (vscale (N:=RN) (vdot (relative p q) (unit_from q p)) (unit_from q p)).
(** The normal part pushes [p] away from [q]. *)
Definition normal_part (c : contact_model RN) (p q : body_point) : V3 RN := vscale (N:=RN) (magnitude c p q) (unit_from q p).
(** The friction part has the magnitude mu times the normal part, against the slip; no slip, no friction. *)
Definition friction_part (c : contact_model RN) (p q : body_point) (t : V3 RN) : Prop :=
  (slip p q = vzero -> t = vzero) /\
  (slip p q <> vzero -> exists s, t = vscale (N:=RN) (- s) (slip p q) /\ s * vlen (slip p q) = c_friction c * magnitude c p q).
(** The contact force density of [q] on [p]. *)
Definition contact_of (c : contact_model RN) (p q : body_point) (g : V3 RN) : Prop :=
  exists t, friction_part c p q t /\ g = vadd (normal_part c p q) t.

(** ** A body *)
Definition point_at (y vel : list (V3 RN)) (vols : list R) (i : nat) : body_point :=
  {| at_ := nth i y vzero; moving := nth i vel vzero; volume := nth i vols 0 |}.
(** The flat list of the contact neighbours of the owned points. *)
Definition contact_list (nbrs : list (list nat)) : list Z :=
  flat_map (fun js => Z.of_nat (length js) :: map Z.of_nat js) nbrs.
(** The arrays have one entry per point, the lists mention points only. *)
Definition contact_inputs (n : nat) (y vel : list (V3 RN)) (vols : list R) (f : list (V3 RN)) (owned : list nat) (nbrs : list (list nat)) : Prop :=
  length y = n /\ length vel = n /\ length vols = n /\ length f = n /\ length owned = length nbrs /\
  Forall (fun p => (p < n)%nat) owned /\ Forall (Forall (fun j => (j < n)%nat)) nbrs.
(** No two points of an entry are in the same place. *)
Definition nowhere_coincident (y : list (V3 RN)) (entries : list (nat * nat)) : Prop :=
  forall p j, In (p, j) entries -> nth p y vzero <> nth j y vzero.
(** [f] lists, for every point, the sum over all entries (p, j) of what the entry exerts on the
    point: the force of j on p if the point is p, that of p on j if it is j. *)
Definition total_contact (law : body_point -> body_point -> V3 RN -> Prop) (pts : nat -> body_point)
  (entries : list (nat * nat)) (f : list (V3 RN)) : Prop :=
  exists gs : list (V3 RN * V3 RN),
    Forall2 (fun e g => law (pts (fst e)) (pts (snd e)) (fst g) /\ law (pts (snd e)) (pts (fst e)) (snd g)) entries gs /\
    forall i, (i < length f)%nat ->
      nth i f vzero = Vsum (map (fun eg => vadd (if Nat.eqb (fst (fst eg)) i then fst (snd eg) else vzero)
                                                (if Nat.eqb (snd (fst eg)) i then snd (snd eg) else vzero)) (combine entries gs)).
(** Rate of work of force densities on the moving points. *)
Definition power (vols : list R) (vel f : list (V3 RN)) : R :=
  Rsum (map (fun i => nth i vols 0 * vdot (nth i f vzero) (nth i vel vzero)) (seq 0 (length f))).
(** Rate of work of one contact: of the push against the approach, and of friction against the slip. *)
Definition contact_power (c : contact_model RN) (p q : body_point) : R :=
  volume p * (magnitude c p q * vdot (relative p q) (unit_from q p) - c_friction c * magnitude c p q * vlen (slip p q)).
Definition without_friction (c : contact_model RN) : contact_model RN :=
  {| c_radius := c_radius c; c_spring := c_spring c; c_friction := 0; c_horizon := c_horizon c |}.

(** ** Binary64 *)
Definition finite_number (x : SpecFloat.spec_float) : bool :=
  match x with SpecFloat.S754_zero _ => true | SpecFloat.S754_finite _ _ _ => true | _ => false end.
Definition finite_vector (a : V3 FN) : Prop :=
  finite_number (vx a) = true /\ finite_number (vy a) = true /\ finite_number (vz a) = true.
Definition nan_vector : V3 FN := v3 (N:=FN) SpecFloat.S754_nan SpecFloat.S754_nan SpecFloat.S754_nan.
