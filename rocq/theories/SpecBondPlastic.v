(** * What the properties of the plastic bond-associated materials talk about *)
From Coq Require Import Reals Rpower.
From Verif Require Import Base Num ModelNeigh SpecDamage ModelForce SpecForce ModelCorr SpecCorr ModelJ2 SpecJ2 ModelBondAssoc SpecBondAssoc SpecBondForce ModelBondPlastic.
Local Open Scope R_scope.

(** between steps: weights, point damage, bond states, stresses, stresses of the step before
    (which the stress field of the next step holds until it is written: the two steps of a field
    change places), plastic strains *)
Record plastic_state := Plastic { p_ba : ba_state (N:=RN); p_damage : list R; p_bonds : list (bst (N:=RN)); p_stress : list (M3 RN); p_before : list (M3 RN); p_strain : list R }.
(** one step of length [dt]: the gradients, then the forces; also what the bonds report *)
Definition plastic_step (omega : R -> R -> R) (sinf cosf : R -> R) (law : bond_law RN) svd order x v hs nbrs (dt : R) (e : evaluation) (c : plastic_state)
  : outcome (plastic_state * list (J2 RN) * list R * list (V3 RN)) :=
  let '(dNP1, dmg, u, vel) := e in
  let? (s1, Fs, Gs) := ba_precompute (N:=RN) omega svd order x v hs nbrs (p_damage c) dNP1 dmg u vel (p_ba c) in
  let? (st1, js, tri, f) := ba_plastic_force (N:=RN) sinf cosf law dt x (moved x u) vel v nbrs s1 Fs Gs (p_bonds c) (p_stress c) (p_before c) (p_strain c) in
  Ok (Plastic s1 dNP1 st1 (map j_stress js) (p_stress c) (map j_eqps js), js, tri, f).
Definition plastic_steps omega sinf cosf law svd order x v hs nbrs dt (es : list evaluation) (c : plastic_state) : outcome plastic_state :=
  foldM (fun c e => let? (c1, _, _, _) := plastic_step omega sinf cosf law svd order x v hs nbrs dt e c in Ok c1) c es.
(** after initialize *)
Definition plastic_start (s0 : ba_state (N:=RN)) (d0 : list R) (nbrs : list (list nat)) : plastic_state :=
  Plastic s0 d0 (ba_bonds (N:=RN) nbrs) (ba_stresses (N:=RN) nbrs) (ba_stresses (N:=RN) nbrs) (ba_plastic_strains (N:=RN) nbrs).
(** an update that keeps symmetric stresses symmetric *)
Definition law_symmetric (law : bond_law RN) : Prop :=
  forall dt d s e r, symmetric (ent d) -> symmetric (ent s) -> l_step law dt d s e = Ok r -> symmetric (ent (j_stress r)).
(** the stress triaxiality: mean stress over von Mises stress, which counts as 1e-20 if less *)
Definition triaxial (s : mat) : R := tr3 s / (3 * Rmax smallest (mises s)).
(** stress of a bond and its plastic strain, with respect to a yield stress that hardens *)
Definition within (law : R -> R) (tol : R) (s : M3 RN) (e : R) : Prop := 0 <= e /\ mises (ent s) <= law e + tol.
(** an update that leaves a stress and plastic strain with [Q] alone when nothing moves *)
Definition rests (law : bond_law RN) (Q : M3 RN -> R -> Prop) : Prop :=
  forall dt s e, Q s e -> exists r, l_step law dt mzero s e = Ok r /\ j_stress r = s /\ j_eqps r = e.
(** the yield stresses of the two hardening laws after the plastic strain [e] *)
Definition power_yield (Y eps0 n : R) (e : R) : R := Y * Rpower (1 + e / eps0) n.
Definition satexp_yield (Y Ysat c lin : R) (e : R) : R := Y + (Ysat - Y) * (1 - exp (- c * e)) + lin * e.
(** one step of J2 plasticity: elastic below the yield stress; otherwise the deviator shrinks to the
    yield stress of the new plastic strain, up to [tol], the pressure stays elastic and the
    plastic strain grows by what the stress does not explain *)
Definition j2_update (yield : R -> R) (tol K G dt : R) (d s : mat) (e : R) (r : J2 RN) : Prop :=
  let E := elastic_step K G dt d s in
  (mises E < yield e -> eq3 (ent (j_stress r)) E /\ j_eqps r = e) /\
  (yield e <= mises E -> yield (j_eqps r) <= mises (ent (j_stress r)) <= yield (j_eqps r) + tol /\ j_eqps r = e + eqps_inc G dt d s (ent (j_stress r)) /\
     tr3 (ent (j_stress r)) / 3 = tr3 s / 3 + K * (dt * tr3 d) /\ exists k, 0 <= k <= 1 /\ eq3 (dev_of (ent (j_stress r))) (scaled k (dev_of E))) /\
  j_vm r = mises (ent (j_stress r)) /\ e <= j_eqps r.
