(** * What the force properties of the bond-associated correspondence material talk about *)
From Coq Require Import Reals.
From Verif Require Import Base Num ModelNeigh SpecDamage ModelForce SpecForce ModelCorr SpecCorr ModelBondAssoc SpecBondAssoc.
Local Open Scope R_scope.

(** sum over all bonds: point, number of the bond, neighbour *)
Definition total (nbrs : list (list nat)) (f : nat -> nat -> nat -> R) : R :=
  sum_to (length nbrs) (fun p => sum_to (length (nth p nbrs [])) (fun m => f p (offset nbrs p + m)%nat (nth m (nth p nbrs []) 0%nat))).
(** every point is in the lists of its neighbours, and nothing is listed twice *)
Definition mutual (nbrs : list (list nat)) : Prop :=
  Forall (fun js => NoDup js) nbrs /\ Forall (Forall (fun j => (j < length nbrs)%nat)) nbrs /\
  forall p j, In j (nth p nbrs []) -> In p (nth j nbrs []).
(** the two halves of a bond have the same entry *)
Definition two_sided {A} (nbrs : list (list nat)) (l : list A) : Prop :=
  forall p k j k', bond_at nbrs p k j -> bond_at nbrs j k' p -> nth_error l k = nth_error l k'.
(** points of a list of vectors, bonds, values *)
Definition at3 (l : list (V3 RN)) (p : nat) : V3 RN := nth p l vzero.
Definition between (l : list (V3 RN)) (p j : nat) : V3 RN := vsub (at3 l j) (at3 l p).
Definition om_of (wt : list (bw (N:=RN))) (k : nat) : R := w_om (nth k wt (Bw (N:=RN) 0 vzero)).
Definition phi_of (wt : list (bw (N:=RN))) (k : nat) : V3 RN := w_phi (nth k wt (Bw (N:=RN) 0 vzero)).
Definition ten_of (l : list (M3 RN)) (k : nat) : mat := ent (nth k l mzero).
(** power of the force densities [f] in the velocities [w] *)
Definition power (v : list R) (w f : list (V3 RN)) : R :=
  sum_to (length f) (fun i => nth i v 0 * vdot (at3 w i) (at3 f i)).
(** volume a bond stands for *)
Definition share (v w0 : list R) (wt : list (bw (N:=RN))) (p k j : nat) : R :=
  nth p v 0 * nth j v 0 * om_of wt k * (1 / 2 / nth p w0 0 + 1 / 2 / nth j w0 0).
(** the weights differentiate linear fields exactly *)
Definition reproduces (nbrs : list (list nat)) (x : list (V3 RN)) (v : list R) (wt : list (bw (N:=RN))) : Prop :=
  forall p, (p < length nbrs)%nat -> forall a c, (a < 3)%nat -> (c < 3)%nat ->
    sum_to (length (nth p nbrs [])) (fun m => let j := nth m (nth p nbrs []) 0%nat in
      comp (between x p j) a * comp (phi_of wt (offset nbrs p + m)) c * nth j v 0) = kron a c.
(** no negative influence, and no weight without influence *)
Definition proper_weights (wt : list (bw (N:=RN))) : Prop := Forall (fun w : bw (N:=RN) => 0 <= w_om w /\ (w_om w = 0 -> w_phi w = vzero)) wt.
(** bonds have a length and their ends a weighted volume *)
Definition apart (nbrs : list (list nat)) (x : list (V3 RN)) (w0 : list R) : Prop :=
  forall p k j, bond_at nbrs p k j -> vdot (between x p j) (between x p j) <> 0 /\ nth p w0 0 <> 0 /\ nth j w0 0 <> 0.
(** arrays of the right length, all points on this processor *)
Definition ba_data (n : nat) (nbrs : list (list nat)) (x y vel : list (V3 RN)) (v w0 : list R) (wt : list (bw (N:=RN))) : Prop :=
  length nbrs = n /\ length x = n /\ length y = n /\ length vel = n /\ length v = n /\ length w0 = n /\ length wt = num_bonds nbrs.

(** ** Whole steps *)

(** Coordinates: the reference positions displaced *)
Definition moved (x u : list (V3 RN)) : list (V3 RN) := map (fun c => vadd (fst c) (snd c)) (combine x u).
(** between steps: weights, point damage, bond states, bond stresses *)
Definition between_steps := (ba_state (N:=RN) * list R * list (bst (N:=RN)) * list (M3 RN))%type.
(** one step of length [dt]: the gradients, then the forces *)
Definition force_step (omega : R -> R -> R) (sinf cosf : R -> R) cauchy svd order x v hs nbrs (dt : R) (e : evaluation) (c : between_steps)
  : outcome (between_steps * list (V3 RN)) :=
  let '(dNP1, dmg, u, vel) := e in
  let '(s, dN, st, sN) := c in
  let? (s1, Fs, Gs) := ba_precompute (N:=RN) omega svd order x v hs nbrs dN dNP1 dmg u vel s in
  let? (st1, s1N, f) := ba_compute_force (N:=RN) sinf cosf cauchy dt x (moved x u) vel v nbrs s1 Fs Gs st sN in
  Ok (s1, dNP1, st1, s1N, f).
Definition force_steps omega sinf cosf cauchy svd order x v hs nbrs dt (es : list evaluation) (c : between_steps) : outcome between_steps :=
  foldM (fun c e => let? (c1, _) := force_step omega sinf cosf cauchy svd order x v hs nbrs dt e c in Ok c1) c es.
(** a stress update that keeps symmetric stresses symmetric *)
Definition keeps_symmetric (cauchy : R -> M3 RN -> M3 RN -> M3 RN) : Prop :=
  forall dt d s, symmetric (ent d) -> symmetric (ent s) -> symmetric (ent (cauchy dt d s)).
(** the two halves of a bond are damaged alike, between none and fully *)
Definition even_damage (nbrs : list (list nat)) (dmg : list R) : Prop :=
  two_sided nbrs dmg /\ Forall (fun d => 0 <= d <= 1) dmg.
Definition even_horizon (nbrs : list (list nat)) (hs : list R) : Prop := forall p k j, bond_at nbrs p k j -> nth p hs 0 = nth j hs 0.

(** first Piola-Kirchhoff stress of a bond with gradient [F], rotation [Q] and unrotated stress [s] *)
Definition first_piola (F Q s P : mat) : Prop := eq3 (prod P (transp F)) (fun i c => det3 F * prod (prod Q s) (transp Q) i c).
(** every point has enough bonds left to tell the polynomials apart *)
Definition all_resolved (omega : R -> R -> R) svd order x v hs nbrs dmg : Prop :=
  forall p, (p < length nbrs)%nat -> exists X h bs, around x v hs dmg nbrs p X h bs /\ 0 < h /\ resolved omega svd order h bs.
(** the velocity of every point is affine *)
Definition affine (A : mat) (b : V3 RN) (x w : list (V3 RN)) : Prop :=
  forall p, (p < length x)%nat -> forall i, (i < 3)%nat -> comp (at3 w p) i = image A (at3 x p) i + comp b i.

(** ** Stress and rotation of a bond *)

(** Hooke's law for the strain increment [dt d]: shear modulus on the deviator, bulk modulus on the trace *)
Definition hookean (K mu dt : R) (d s s1 : mat) : Prop :=
  eq3 s1 (fun i c => s i c + 2 * mu * (dt * d i c - kron i c * (dt * tr3 d) / 3) + K * (dt * tr3 d) * kron i c).
(** a step of a body that only spins, with bond [k] whole to some part *)
Definition spin_step (omega : R -> R -> R) svd order x v hs nbrs (w : V3 RN) (k : nat) (e : evaluation) : Prop :=
  let '(_, dmg, u, vel) := e in
  even_damage nbrs dmg /\ length u = length x /\ all_resolved omega svd order x v hs nbrs dmg /\ nth k dmg 0 < 1 /\
  exists c, spinning w c (moved x u) vel.
