(** * What the properties of the position-aware solid talk about *)
From Coq Require Import Reals.
From Verif Require Import Base Num SpecForce.

Section Pals.
  Local Open Scope R_scope.
  Local Notation vec := (V3 RN).
  Local Notation vec3 a b c := (v3 (N:=RN) a b c).

  (** ** Linear algebra of the library: a solution, when one is returned, solves the equations *)
  Fixpoint dots (a b : list R) {struct a} : R := match a, b with p :: a', q :: b' => p * q + dots a' b' | _, _ => 0 end.
  Definition solves (solve : list (list R) -> list R -> outcome (list R)) : Prop :=
    forall k r s, solve k r = Ok s -> length s = length r /\ map (fun row => dots row s) k = r.

  (** ** Homogeneous strains; a matrix has three columns *)
  Definition trace (H : rot) : R := vx (col1 H) + vy (col2 H) + vz (col3 H).
  (** the sum of products of entries *)
  Definition inner (A B : rot) : R := vdot (col1 A) (col1 B) + vdot (col2 A) (col2 B) + vdot (col3 A) (col3 B).
  Definition diag (a b c : R) : rot := Rot (vec3 a 0 0) (vec3 0 b 0) (vec3 0 0 c).
  (** stretches along the axes and shears in the planes of the axes *)
  Definition matching_strains : list rot :=
    [diag 1 0 0; diag 0 1 0; diag 0 0 1;
     Rot (vec3 0 1 0) (vec3 1 0 0) (vec3 0 0 0); Rot (vec3 0 0 1) (vec3 0 0 0) (vec3 1 0 0); Rot (vec3 0 0 0) (vec3 0 0 1) (vec3 0 1 0)].
  Definition scaled (t : R) (E : rot) : rot := Rot (vscale (N:=RN) t (col1 E)) (vscale (N:=RN) t (col2 E)) (vscale (N:=RN) t (col3 E)).
  (** the point [a] under the displacement gradient [g] times [H] *)
  Definition strained (g : R) (H : rot) (a : vec) : vec := vadd a (vscale (N:=RN) g (rotate H a)).
  (** energy density of classical linear elasticity for the strain [E] (symmetric) *)
  Definition classical_energy (K MU : R) (E : rot) : R :=
    1 / 2 * K * (trace E * trace E) + MU * (inner E E - trace E * trace E / 3).

  (** ** Which strains the bonds of a point feel *)
  (** the change of half the squared length of the bond [d] per unit of the strain [E] *)
  Definition felt (E : rot) (d : vec) : R := vdot d (rotate E d).
  (** sum over the neighbours [js] of the point at [X] of volume times [g] of the bond *)
  Definition bond_sum (g : vec -> R) (X : vec) (x : list vec) (v : list R) (js : list nat) : R :=
    fold_right (fun j a => nth j v 0 * g (vsub (nth j x vzero) X) + a) 0 js.
  (** the strain is felt to a part of at least 1e-15 of all *)
  Definition seen (X : vec) (x : list vec) (v : list R) (js : list nat) (E : rot) : Prop :=
    let s F := bond_sum (fun d => felt F d * felt F d) X x v js in
    let all := fold_right Rplus 0 (map s matching_strains) in
    0 < all /\ 1 / 10 ^ 15 * all <= s E.
  (** no bond feels it *)
  Definition unseen (X : vec) (x : list vec) (js : list nat) (E : rot) : Prop :=
    forall j, In j js -> felt E (vsub (nth j x vzero) X) = 0.
  (** no neighbour is at the place of the point itself *)
  Definition off (X : vec) (x : list vec) (js : list nat) : Prop := forall j, In j js -> nth j x vzero <> X.

  (** [f g / g^2] tends to [l] as [g] tends to 0 *)
  Definition second_order (f : R -> R) (l : R) : Prop :=
    forall eps, 0 < eps -> exists d, 0 < d /\ forall g, g <> 0 -> Rabs g < d -> Rabs (f g / (g * g) - l) < eps.
End Pals.
