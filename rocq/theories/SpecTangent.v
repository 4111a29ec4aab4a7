(** * What a tangent matrix is, independently of how it is computed *)
From Coq Require Import Reals.
From Verif Require Import Base Num ModelForce ModelTangent SpecDamage SpecCorr.
Local Open Scope R_scope.

(** [i] and [j] are members of the neighbourhood of one point of the processors [parts] (the point itself included) *)
Definition together (parts : list part) (i j : nat) : Prop :=
  exists P p js gs, In P parts /\ nth_error (p_nbrs P) p = Some js /\ Forall2 (fun l g => nth_error (p_gids P) l = Some g) (p :: js) gs /\
    In i gs /\ In j gs.
(** every local id of a processor is one of its overlap points *)
Definition ids_ok (P : part) : Prop :=
  (length (p_nbrs P) <= length (p_gids P))%nat /\ Forall (Forall (fun j => j < length (p_gids P))%nat) (p_nbrs P).

(** A field with [nd] components given by global id; its values at points, component by component *)
Definition field := nat -> nat -> R.
Definition at_points (nd : nat) (Y : field) (gids : list nat) : list R := flat_map (fun g => map (Y g) (seq 0 nd)) gids.
(** component [b] at point [j] changed by [e] *)
Definition nudge (Y : field) (j b : nat) (e : R) : field := fun i a => if (Nat.eqb i j && Nat.eqb a b)%bool then Y i a + e else Y i a.

(** The forces (or fluxes) a neighbourhood exerts on its members, as a function of their positions and velocities *)
Record nbhd := Nbhd { n_gids : list nat; n_force : list R -> list R -> list R }.
(** component [a] of the force on point [i] from all neighbourhoods *)
Definition on_point (nd : nat) (gids : list nat) (f : list R) (i a : nat) : R :=
  sum_over (fun mg => if Nat.eqb (snd mg) i then nth (nd * fst mg + a) f 0 else 0) (numbered gids).
Definition body_force (nd : nat) (ns : list nbhd) (Y V : field) (i a : nat) : R :=
  sum_over (fun n => on_point nd (n_gids n) (n_force n (at_points nd Y (n_gids n)) (at_points nd V (n_gids n))) i a) ns.

(** the central difference of the force on (i,a) with respect to (j,b), the velocity changing at the rate 1/dt *)
Definition central (nd : nat) (ns : list nbhd) (Y V : field) (eps dt : R) (i a j b : nat) : R :=
  (body_force nd ns (nudge Y j b eps) (nudge V j b (eps / dt)) i a - body_force nd ns (nudge Y j b (- eps)) (nudge V j b (- (eps / dt))) i a) / (2 * eps).

(** What the temporary data manager [U] holds for the neighbourhood [n]: positions, velocities, volumes, and a force
    evaluation that succeeds.  Displacements only; and temperatures only *)
Definition holds (Y V : field) (W : nat -> R) (w : list nat * local RN) (n : nbhd) : Prop :=
  fst w = n_gids n /\ NoDup (n_gids n) /\ (2 <= length (n_gids n))%nat /\
  l_y (snd w) = at_points 3 Y (n_gids n) /\ l_v (snd w) = at_points 3 V (n_gids n) /\ l_vol (snd w) = map W (n_gids n) /\
  forall y v, length y = (3 * length (n_gids n))%nat -> length v = (3 * length (n_gids n))%nat ->
    force_of (snd w) y v = Ok (n_force n y v) /\ length (n_force n y v) = (3 * length (n_gids n))%nat.
Definition holds_temperature (Y : field) (W : nat -> R) (w : list nat * local RN) (n : nbhd) : Prop :=
  fst w = n_gids n /\ NoDup (n_gids n) /\ (2 <= length (n_gids n))%nat /\
  l_T (snd w) = at_points 1 Y (n_gids n) /\ l_vol (snd w) = map W (n_gids n) /\
  forall y v, length y = length (n_gids n) -> flux_of (snd w) y = Ok (n_force n y v) /\ length (n_force n y v) = length (n_gids n).

(** the matrix has room for everything the neighbourhoods couple *)
Definition room (nd : nat) (es : list (nat * nat)) (ns : list nbhd) : Prop :=
  forall n i a j b, In n ns -> In i (n_gids n) -> In j (n_gids n) -> (a < nd)%nat -> (b < nd)%nat -> In (nd * i + a, nd * j + b)%nat es.

(** ** A body of the elastic material, spread over processors *)
(** What a processor has: global ids of its overlap points, neighbours of the owned ones, reference coordinates and
    weighted volumes of the points, damage of the bonds.  Positions and volumes are those of the global points. *)
Record elastic_part := Elastic_part { e_gids : list nat; e_nbrs : list (list nat); e_x : list (V3 RN); e_m : list R; e_dmg : list R }.
Definition spot (Y : field) (g : nat) : V3 RN := @v3 RN (Y g 0%nat) (Y g 1%nat) (Y g 2%nat).
Definition e_block (Y V : field) (W : nat -> R) (P : elastic_part) : block RN :=
  Block (e_x P) (map (spot Y) (e_gids P)) (map (spot V) (e_gids P)) (map W (e_gids P)) (e_m P) (e_dmg P).
(** array lengths fit, global ids are distinct, every owned point has neighbours, all different and not the point itself *)
Definition elastic_ok (P : elastic_part) : Prop :=
  NoDup (e_gids P) /\ length (e_x P) = length (e_gids P) /\ length (e_m P) = length (e_gids P) /\ length (e_dmg P) = num_bonds (e_nbrs P) /\
  (length (e_nbrs P) <= length (e_gids P))%nat /\
  forall p js, nth_error (e_nbrs P) p = Some js -> js <> [] /\ NoDup (p :: js) /\ Forall (fun j => j < length (e_gids P))%nat js.
(** weighted volumes of the owned points do not vanish and neither does the length of a deformed bond *)
Definition separated (Y : field) (P : elastic_part) : Prop :=
  forall p js, nth_error (e_nbrs P) p = Some js -> nth_error (e_m P) p <> Some 0 /\
    forall j g g', In j js -> nth_error (e_gids P) p = Some g -> nth_error (e_gids P) j = Some g' -> spot Y g <> spot Y g'.
Section Body.
  Context (omega : R -> R -> R) (K MU h alpha : R).
  (** the internal force density of a processor's part: the whole neighbour list at once *)
  Definition part_force (Y : field) (W : nat -> R) (P : elastic_part) : outcome (list (V3 RN)) :=
    elastic_force (N:=RN) omega K MU h alpha (e_x P) (map (spot Y) (e_gids P)) (map W (e_gids P)) (e_m P) (e_dmg P) (e_nbrs P).
  (** component [a] of the force density on point [i], assembled from the processors *)
  Definition assembled (Ps : list elastic_part) (Y : field) (W : nat -> R) (i a : nat) : R :=
    sum_over (fun P => match part_force Y W P with Ok f => on_point 3 (e_gids P) (flat f) i a | _ => 0 end) Ps.
End Body.
Definition e_part (P : elastic_part) : part := Part (e_gids P) (e_nbrs P).
(** [works]: on each processor, with the scratch matrix left over from earlier use, the temporary data managers of the points *)
Definition blocks_of (W : nat -> R) (Y V : field) (Ps : list elastic_part) (works : list (scratch RN * list (list nat * block RN))) : Prop :=
  Forall2 (fun P w => neighbourhoods (e_gids P) (e_block Y V W P) 0 0 (e_nbrs P) = Ok (snd w)) Ps works.
