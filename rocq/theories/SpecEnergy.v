(** * What the energy properties talk about *)
From Coq Require Import Reals.
From Verif Require Import Base Num SpecDamage SpecForce.

Section Energy.
  Local Open Scope R_scope.
  Local Notation vec := (V3 RN).

  (** The points are at [y s] at time [s]; at time [t] their velocities are [w]. *)
  Definition moves (y : R -> list vec) (t : R) (w : list vec) : Prop :=
    (forall s, length (y s) = length w) /\
    forall i a, nth_error w i = Some a ->
      derivable_pt_lim (fun s => vx (nth i (y s) vzero)) t (vx a) /\
      derivable_pt_lim (fun s => vy (nth i (y s) vzero)) t (vy a) /\
      derivable_pt_lim (fun s => vz (nth i (y s) vzero)) t (vz a).
  (** The two ends of a bond are not at the same place. *)
  Definition apart (nbrs : list (list nat)) (y : list vec) : Prop :=
    forall p k j Y YP, bond_at nbrs p k j -> nth_error y p = Some Y -> nth_error y j = Some YP -> Y <> YP.

  (** Rate of work of the force densities [f] on the velocities [w]. *)
  Fixpoint power (v : list R) (f w : list vec) {struct f} : R :=
    match v, f, w with
    | a :: v', b :: f', c :: w' => a * vdot b c + power v' f' w'
    | _, _, _ => 0
    end.
  (** Sum of volume times density over the owned points. *)
  Fixpoint total (v W : list R) {struct W} : R :=
    match v, W with
    | a :: v', b :: W' => a * b + total v' W'
    | _, _ => 0
    end.
  (** Kinetic energy at densities [rho]. *)
  Fixpoint kinetic_energy (rho v : list R) (w : list vec) {struct w} : R :=
    match rho, v, w with
    | r :: rho', a :: v', c :: w' => 1 / 2 * r * a * vdot c c + kinetic_energy rho' v' w'
    | _, _, _ => 0
    end.
  (** Newton's law: density times acceleration [a] is the force density [f]. *)
  Definition newton (rho : list R) (a f : list vec) : Prop :=
    Forall2 (fun ra b => vscale (N:=RN) (fst ra) (snd ra) = b) (combine rho a) f.
  (** Weighted volume of the bonds [k], [1 + k], ... of a point, each counted as far as it is intact. *)
  Fixpoint intact_volume (omega : R -> R -> R) (h : R) (x : list vec) (v dmg : list R) (p k : nat) (js : list nat) {struct js} : R :=
    match js with
    | [] => 0
    | j :: js' =>
      let d := dist (nth p x vzero) (nth j x vzero) in
      (1 - nth k dmg 0) * omega d h * Rsqr d * nth j v 0 + intact_volume omega h x v dmg p (S k) js'
    end.
  Definition intact_volumes (omega : R -> R -> R) (h : R) (x : list vec) (v dmg : list R) (nbrs : list (list nat)) (md : list R) : Prop :=
    per_point (N:=RN) nbrs md /\
    forall p js, nth_error nbrs p = Some js ->
      nth_error md p = Some (intact_volume omega h x v dmg p (offset nbrs p) js).
  (** Energy densities with the part that the breaking of bonds, at weighted volume [md] of [m], removes from the
      reported density [W]; shear modulus MU. *)
  Fixpoint mended (MU : R) (W th m md : list R) {struct W} : list R :=
    match W, th, m, md with
    | a :: W', q :: th', b :: m', c :: md' => (a + 15 * MU / b * q * q * (b - c) / 18) :: mended MU W' th' m' md'
    | _, _, _, _ => []
    end.
  (** ... with surface correction factors and fluid pressures: the pressure works on the dilatation. *)
  Fixpoint mended_fluid (MU : R) (W th m md scf pr : list R) {struct W} : list R :=
    match W, th, m, md, scf, pr with
    | a :: W', q :: th', b :: m', c :: md', s :: scf', p :: pr' =>
      (a - p * q + 15 * MU / b * s * q * q * (b - c) / 18) :: mended_fluid MU W' th' m' md' scf' pr'
    | _, _, _, _, _, _ => []
    end.
End Energy.
