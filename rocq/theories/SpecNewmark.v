(** * Specifications for the implicit solver *)
From Coq Require Import String Reals.
From Verif Require Import Base Num SpecGlobal ModelScalar ModelInput ModelBC SpecBC ModelExplicit SpecExplicit.
Local Open Scope R_scope.

(** Only displacements are solved for. *)
Definition mechanics : physics := {| ph_disp := true; ph_temp := false; ph_conc := false; ph_pres := false |}.
Definition mechanics_dofs : dofs := dofs_initialize dofs_init mechanics.

Section Newmark.
  Context {M : Type}.
  (** The Newmark relations between the values [s] at the beginning of a step and [s'] at its
      end, and positions that are model positions plus displacements. *)
  Definition newmark (dt beta gamma : R) (s s' : estate RN M) : Prop :=
    forall g comp, In g (bs_gids (e_b s)) -> (comp < 3)%nat ->
      exists X u v a u' v' a' : R,
        option_map (fun X => coord_of X comp) (position (e_b s) g) = Some X /\
        held s (u_of s) g comp = Some u /\ held s (v_of s) g comp = Some v /\ held s (e_a s) g comp = Some a /\
        held s' (u_of s') g comp = Some u' /\ held s' (v_of s') g comp = Some v' /\ held s' (e_a s') g comp = Some a' /\
        u' = u + dt * v + dt * dt * ((1 / 2 - beta) * a + beta * a') /\
        v' = v + dt * ((1 - gamma) * a + gamma * a') /\
        held s' (e_y s') g comp = Some (X + u').

  (** [r] is the scaled residual of the equation of motion at the state [s]: zero where the
      displacement is prescribed. *)
  Definition out_of_balance (evaluate : M -> list RN -> list RN -> list RN -> outcome (M * list RN * option (list RN))) (rho : list R)
      (prescribed : nat -> nat -> Prop) (dt beta : R) (s : estate RN M) (r : list R) : Prop :=
    exists m f c, evaluate m (u_of s) (e_y s) (v_of s) = Ok (e_mat s, f, c) /\ length r = (length (bs_gids (e_b s)) * 3)%nat /\
      forall g comp, In g (bs_gids (e_b s)) -> (comp < 3)%nat ->
        exists a fi ei rh ri : R, held s (e_a s) g comp = Some a /\ held s f g comp = Some fi /\ held s (ext_of s) g comp = Some ei /\
          held s (concat (map (fun r => [r; r; r]) rho)) g comp = Some rh /\ held s r g comp = Some ri /\
          (prescribed g comp -> ri = 0) /\ (~ prescribed g comp -> ri = beta * (dt * dt) * (rh * a - fi - ei)).
End Newmark.
Definition euclidean (r : list R) : R := sqrt (Rsum (map (fun e => e * e) r)).

(** Two inputs that differ only in the values of prescribed displacements. *)
Definition same_but_displacements (ps1 ps2 : list (bc_params RN)) : Prop :=
  Forall2 (fun p1 p2 => p1 = p2 \/ (bp_type p1 = PRESCRIBED_DISPLACEMENT /\ bp_type p2 = PRESCRIBED_DISPLACEMENT /\ bp_set p1 = bp_set p2 /\ bp_coord p1 = bp_coord p2)) ps1 ps2.
