(** * What the shear correction factor properties talk about *)
From Coq Require Import Reals.
From Verif Require Import Base Num SpecDamage SpecForce.

Section Shear.
  Local Open Scope R_scope.
  Local Notation vec := (V3 RN).

  (** Pure shears of strain [g] in the three coordinate planes; [c] stays where it is.  The strain energy density of the
      classical isotropic solid of shear modulus mu is 2 mu g^2 in each of them. *)
  Definition shear_xy (g : R) (c a : vec) : vec := v3 (N:=RN) (vx a + g * (vy a - vy c)) (vy a + g * (vx a - vx c)) (vz a).
  Definition shear_zx (g : R) (c a : vec) : vec := v3 (N:=RN) (vx a + g * (vz a - vz c)) (vy a) (vz a + g * (vx a - vx c)).
  Definition shear_yz (g : R) (c a : vec) : vec := v3 (N:=RN) (vx a) (vy a + g * (vz a - vz c)) (vz a + g * (vy a - vy c)).
  Definition shears : list (R -> vec -> vec -> vec) := [shear_xy; shear_zx; shear_yz].

  (** No point is its own neighbour. *)
  Definition no_self (nbrs : list (list nat)) : Prop := forall p js, nth_error nbrs p = Some js -> ~ In p js.
  (** The map stretches two of the bonds of the point differently. *)
  Definition uneven (x : list vec) (p : nat) (js : list nat) (S : vec -> vec) : Prop :=
    exists i j, In i js /\ In j js /\
      dist (S (nth p x vzero)) (S (nth i x vzero)) * dist (nth p x vzero) (nth j x vzero) <>
      dist (S (nth p x vzero)) (S (nth j x vzero)) * dist (nth p x vzero) (nth i x vzero).
End Shear.
