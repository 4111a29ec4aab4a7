(** * Specifications for the explicit solver *)
From Coq Require Import String Reals.
From Verif Require Import Base Num SpecGlobal ModelScalar ModelInput ModelBC SpecBC ModelForce SpecForce ModelExplicit.
Local Open Scope R_scope.

(** A boundary condition of the input prescribes the velocity of this component. *)
Definition prescribed_in (sets : string -> option (list nat)) (ps : list (bc_params RN)) (g comp : nat) : Prop :=
  exists p, In p ps /\ concerns boundary_writes sets p TV g comp.

(** [floorZ] computes the greatest integer not above a number. *)
Definition is_floor (floorZ : RN -> option Z) : Prop :=
  forall r : R, exists z, floorZ (r : T RN) = Some z /\ IZR z <= r < IZR z + 1.

Section Step.
  Context {M : Type}.
  (** What a vector of the solver holds for component [comp] of node [g]. *)
  Definition held (s : estate RN M) (l : list R) (g comp : nat) : option R :=
    match pos (bs_gids (e_b s)) g with Some i => nth_error l (i * 3 + comp) | None => None end.
  Definition u_of (s : estate RN M) : list R := bs_field (e_b s) TU.
  Definition v_of (s : estate RN M) : list R := bs_field (e_b s) TV.
  Definition ext_of (s : estate RN M) : list R := bs_field (e_b s) TForce.
  Definition coord_of (X : V3 RN) (comp : nat) : R := match comp with O => vx X | 1%nat => vy X | _ => vz X end.

  (** The state has all its entries. *)

  Definition complete (s : estate RN M) : Prop :=
    sized (e_b s) /\ length (e_y s) = (length (bs_gids (e_b s)) * 3)%nat /\ length (e_a s) = (length (bs_gids (e_b s)) * 3)%nat.

  Variable evaluate : M -> list RN -> list RN -> list RN -> outcome (M * list RN * option (list RN)).
  Variable rho : list R.
  Variable prescribed : nat -> nat -> Prop.

  (** One velocity-Verlet step from [s] to [s']: a mid-step velocity [w], which is the old
      velocity plus half a step of the old acceleration except where it is prescribed;
      displacements move a whole step with it; positions are the model positions plus the
      displacements; the new acceleration is force (and contact force and external force) of
      the new positions over density; the velocity takes the second half step. *)
  Definition verlet (dt : R) (s s' : estate RN M) : Prop :=
    exists w f c, evaluate (e_mat s) (u_of s') (e_y s') w = Ok (e_mat s', f, c) /\
      forall g comp, In g (bs_gids (e_b s)) -> (comp < 3)%nat ->
        exists X u v a wi fi ei r a' : R,
          option_map (fun X => coord_of X comp) (position (e_b s) g) = Some X /\ held s (u_of s) g comp = Some u /\ held s (v_of s) g comp = Some v /\
          held s (e_a s) g comp = Some a /\ held s w g comp = Some wi /\ held s f g comp = Some fi /\ held s (ext_of s') g comp = Some ei /\
          held s (concat (map (fun r => [r; r; r]) rho)) g comp = Some r /\
          (~ prescribed g comp -> wi = v + dt / 2 * a) /\
          held s' (u_of s') g comp = Some (u + dt * wi) /\
          held s' (e_y s') g comp = Some (X + (u + dt * wi)) /\
          (match c with None => a' = (fi + ei) / r
                      | Some c => exists ci, held s c g comp = Some ci /\ a' = (fi + ci + ei) / r end) /\
          held s' (e_a s') g comp = Some a' /\ held s' (v_of s') g comp = Some (wi + dt / 2 * a').
End Step.

(** ** Totals *)
Fixpoint total (w l : list R) : V3 RN :=
  match w, l with
  | m :: w', a :: b :: c :: l' => vadd (vscale (N:=RN) m (v3 (N:=RN) a b c)) (total w' l')
  | _, _ => vzero
  end.
(** Sum of m (y x v). *)
Fixpoint spin (w y l : list R) : V3 RN :=
  match w, y, l with
  | m :: w', p :: q :: r :: y', a :: b :: c :: l' => vadd (vscale (N:=RN) m (vcross (v3 (N:=RN) p q r) (v3 (N:=RN) a b c))) (spin w' y' l')
  | _, _, _ => vzero
  end.
(** Mass of each point: density times volume. *)
Fixpoint masses (rho vol : list R) : list R :=
  match rho, vol with r :: rho', v :: vol' => r * v :: masses rho' vol' | _, _ => [] end.

(** The forces of an evaluation at vectors of the right length add up to zero; their moments
    about the origin, at the positions of the evaluation, do. *)
Definition balanced {M} (vol : list R) (evaluate : M -> list RN -> list RN -> list RN -> outcome (M * list RN * option (list RN))) : Prop :=
  forall m u y v m' f c, length u = (3 * length vol)%nat -> length y = (3 * length vol)%nat -> length v = (3 * length vol)%nat ->
    evaluate m u y v = Ok (m', f, c) ->
    total vol f = vzero /\ (forall cf, c = Some cf -> total vol cf = vzero).
Definition balanced_moments {M} (vol : list R) (evaluate : M -> list RN -> list RN -> list RN -> outcome (M * list RN * option (list RN))) : Prop :=
  forall m u y v m' f c, length u = (3 * length vol)%nat -> length y = (3 * length vol)%nat -> length v = (3 * length vol)%nat ->
    evaluate m u y v = Ok (m', f, c) ->
    spin vol y f = vzero /\ (forall cf, c = Some cf -> spin vol y cf = vzero).

(** ** An evaluation with the force kernel of the linear peridynamic solid *)
Fixpoint triples {N : Num} (l : list N) : list (V3 N) :=
  match l with a :: b :: c :: l' => v3 a b c :: triples l' | _ => [] end.
(** One block on one processor, no contact; the state is the bond damage, changed by any
    damage model; dilatations are computed by any function of the positions. *)
Definition lps_evaluate (omega : RN -> RN -> RN) (K MU h : RN) (x : list (V3 RN)) (vol m : list RN) (nbrs : list (list nat))
    (theta : list RN -> list RN -> list RN) (damage : list RN -> list RN -> list RN)
    (dmg : list RN) (u y v : list RN) : outcome (list RN * list RN * option (list RN)) :=
  let dmg' := damage dmg y in
  let? (f, _) := run_kernel (lps omega K MU h (ofZ 0) None x (triples y) vol m (theta y dmg') dmg' None) nbrs (repeat vzero (length x)) in
  Ok (dmg', flat f, None).

(** An evaluation that always succeeds and returns as many finite numbers as there are
    components. *)
Definition always_evaluates {M} (finite : RN -> bool) (n : nat) (evaluate : M -> list RN -> list RN -> list RN -> outcome (M * list RN * option (list RN))) : Prop :=
  forall m u y v, length u = (3 * n)%nat -> length y = (3 * n)%nat -> length v = (3 * n)%nat ->
    exists m' f c, evaluate m u y v = Ok (m', f, c) /\ length f = (3 * n)%nat /\ forallb finite f = true /\
      (forall cf, c = Some cf -> length cf = (3 * n)%nat /\ forallb finite cf = true).
