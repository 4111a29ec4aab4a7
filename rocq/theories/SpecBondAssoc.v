(** * What the properties of the bond-associated correspondence material talk about *)
From Coq Require Import Reals.
From Verif Require Import Base Num ModelNeigh SpecDamage ModelForce SpecForce ModelCorr SpecCorr ModelBondAssoc.
Local Open Scope R_scope.

(** ** Matrices of any size, row by row *)
Definition entry (M : list (list R)) (i j : nat) : R := nth j (nth i M []) 0.
Definition square (n : nat) (M : list (list R)) : Prop := length M = n /\ Forall (fun r => length r = n) M.
Definition sum_to (n : nat) (f : nat -> R) : R := sum_over f (seq 0 n).
(** singular value decomposition M = U diag(w) V^T *)
Definition is_svd (n : nat) (M u : list (list R)) (w : list R) (v : list (list R)) : Prop :=
  square n u /\ length w = n /\ square n v /\
  (forall i j, (i < n)%nat -> (j < n)%nat -> entry M i j = sum_to n (fun k => entry u i k * nth k w 0 * entry v j k)) /\
  (forall k l, (k < n)%nat -> (l < n)%nat -> sum_to n (fun i => entry u i k * entry u i l) = kron k l) /\
  (forall i j, (i < n)%nat -> (j < n)%nat -> sum_to n (fun k => entry v i k * entry v j k) = kron i j) /\
  (forall k l, (k < n)%nat -> (l < n)%nat -> sum_to n (fun i => entry v i k * entry v i l) = kron k l) /\
  Forall (fun s => 0 <= s) w.

(** ** Polynomials about a point *)
Definition degree (e : nat * nat * nat) : nat := let '(a, b, c) := e in (a + b + c)%nat.
Definition mono (e : nat * nat * nat) (xi : V3 RN) : R := let '(a, b, c) := e in vx xi ^ a * vy xi ^ b * vz xi ^ c.
(** exponents of the coordinate with this number *)
Definition unit_exp (a : nat) : nat * nat * nat :=
  match a with 0%nat => (1, 0, 0)%nat | 1%nat => (0, 1, 0)%nat | _ => (0, 0, 1)%nat end.
Definition is_exp (e f : nat * nat * nat) : bool :=
  let '(a, b, c) := e in let '(a', b', c') := f in Nat.eqb a a' && Nat.eqb b b' && Nat.eqb c c'.
(** coefficients with their exponents *)
Definition poly := list (R * (nat * nat * nat)).
Definition poly_at (q : poly) (xi : V3 RN) : R := sum_over (fun t => fst t * mono (snd t) xi) q.
(** partial derivative at the origin *)
Definition slope (q : poly) (a : nat) : R := sum_over (fun t => if is_exp (snd t) (unit_exp a) then fst t else 0) q.
Definition degree_upto (d : Z) (q : poly) : Prop := Forall (fun t => (Z.of_nat (degree (snd t)) <= d)%Z) q.

(** ** Bonds of a point *)

(** bond vector, neighbour's volume, bond damage *)
Definition bond3 := (V3 RN * R * R)%type.
Definition bvec (b : bond3) : V3 RN := fst (fst b).
Definition bvol (b : bond3) : R := snd (fst b).
Definition bdmg (b : bond3) : R := snd b.
Definition around (x : list (V3 RN)) (v hs dmg : list R) (nbrs : list (list nat)) (p : nat) (X : V3 RN) (h : R) (bs : list bond3) : Prop :=
  exists js, nth_error nbrs p = Some js /\ nth_error x p = Some X /\ nth_error hs p = Some h /\ length bs = length js /\
    forall n j, nth_error js n = Some j -> exists XP vj d, nth_error x j = Some XP /\ nth_error v j = Some vj /\
      nth_error dmg (offset nbrs p + n) = Some d /\ nth_error bs n = Some (vsub XP X, vj, d).
(** the entries of a bond field that belong to point [p] *)
Definition own {A} (nbrs : list (list nat)) (p : nat) (l : list A) : list A :=
  firstn (length (nth p nbrs [])) (skipn (offset nbrs p) l).

(** weight of a bond that is damaged *)
Definition weight_of (omega : R -> R -> R) (h : R) (b : bond3) : R := omega (vlen (bvec b)) h * (1 - bdmg b).
(** moments of the scaled bonds, for the exponents listed *)
Definition gram (omega : R -> R -> R) (h : R) (es : list (nat * nat * nat)) (bs : list bond3) : list (list R) :=
  map (fun e => map (fun f => sum_over (fun b => weight_of omega h b * bvol b *
    (mono e (bvec b) / h ^ degree e) * (mono f (bvec b) / h ^ degree f)) bs) es) es.
(** the decomposition used for the point is one, and no singular value is thrown away *)
Definition resolved (omega : R -> R -> R) svd (order : Z) (h : R) (bs : list bond3) : Prop :=
  let es := powers order in
  exists u w v, svd (gram omega h es bs) = (u, w, v) /\ is_svd (length es) (gram omega h es bs) u w v /\
    Forall (fun s => 1 / 1000000 * h * h * h < s) w.

(** The bonds tell the polynomials apart: every combination of the monomials, of unit size,
    has a mean square over the bonds above the threshold. *)
Definition spread (omega : R -> R -> R) (order : Z) (h : R) (bs : list bond3) : Prop :=
  let es := powers order in
  forall z : nat -> R, sum_to (length es) (fun k => z k * z k) = 1 ->
    1 / 1000000 * h * h * h <
    sum_over (fun b => weight_of omega h b * bvol b *
      Rsqr (sum_to (length es) (fun k => z k * (mono (nth k es (0, 0, 0)%nat) (bvec b) / h ^ degree (nth k es (0, 0, 0)%nat))))) bs.

(** displacement of the point and its neighbours *)
Definition displaced (x u : list (V3 RN)) (p : nat) (js : list nat) (X : V3 RN) (q : nat -> poly) : Prop :=
  forall j XP UP, j = p \/ In j js -> nth_error x j = Some XP -> nth_error u j = Some UP ->
    forall i, (i < 3)%nat -> comp UP i = poly_at (q i) (vsub XP X).

(** the points listed move from [x] to [A x + b] *)
Definition moved_by (A : mat) (b : V3 RN) (x u : list (V3 RN)) (pts : list nat) : Prop :=
  forall j X U, In j pts -> nth_error x j = Some X -> nth_error u j = Some U ->
    forall i, (i < 3)%nat -> comp X i + comp U i = image A X i + comp b i.

(** ** Bond level gradient: exact along the bond, the given average across it *)
Definition bond_level (m : mat) (xi d : V3 RN) (G : mat) : Prop :=
  (forall i, (i < 3)%nat -> image G xi i = comp d i) /\
  (forall t, vdot t xi = 0 -> forall i, (i < 3)%nat -> image G t i = image m t i).
Definition average (a b : mat) : mat := fun i j => (a i j + b i j) / 2.

(** ** Histories of damage *)

(** one evaluation: point damage, bond damage, displacements, velocities *)
Definition evaluation := (list R * list R * list (V3 RN) * list (V3 RN))%type.
(** Accepted evaluations, one per step: the damage computed in one is the old damage of the next. *)
Definition steps_run (omega : R -> R -> R) svd order x v hs nbrs (es : list evaluation) (s : ba_state (N:=RN) * list R) : outcome (ba_state (N:=RN) * list R) :=
  foldM (fun st e => let '(dNP1, dmg, u, vel) := e in
    let? (s1, _, _) := ba_precompute (N:=RN) omega svd order x v hs nbrs (snd st) dNP1 dmg u vel (fst st) in Ok (s1, dNP1)) s es.
(** whenever the damage of a bond changes, the damage of its point grows by more than 1e-15 *)
Fixpoint reported (nbrs : list (list nat)) (dN dmgN : list R) (es : list evaluation) : Prop :=
  match es with
  | [] => True
  | (dNP1, dmg, _, _) :: r =>
    (forall p, (p < length nbrs)%nat -> own nbrs p dmg = own nbrs p dmgN \/ nth p dN 0 + 1 / 1000000000000000 < nth p dNP1 0) /\
    reported nbrs dNP1 dmg r
  end.
(** the weights an evaluation with this bond damage would compute from nothing *)
Definition fresh (omega : R -> R -> R) svd order x v hs nbrs (dmg : list R) (wt : list (bw (N:=RN))) : Prop :=
  exists fs, gradient_weights (N:=RN) omega svd order x v hs dmg nbrs (repeat 0 (length nbrs)) [] = Ok (0%Z, wt, fs).

(** ** Damage as the damage models report it *)
Definition mean_damage (nbrs : list (list nat)) (p : nat) (dmg : list R) : R :=
  sum_over (fun d => d) (own nbrs p dmg) / INR (length (own nbrs p dmg)).
(** bonds break and stay broken, and the damage of a point is the mean over its bonds *)
Fixpoint breaking (nbrs : list (list nat)) (dmgN : list R) (es : list evaluation) : Prop :=
  match es with
  | [] => True
  | (dNP1, dmg, _, _) :: r =>
    length dmg = length dmgN /\ (forall k, is01 (nth k dmg 0) /\ nth k dmgN 0 <= nth k dmg 0) /\
    (forall p, (p < length nbrs)%nat -> nth p dNP1 0 = mean_damage nbrs p dmg) /\ breaking nbrs dmg r
  end.

(** ** Data of the right length *)
Definition bonds_fit (n : nat) (nbrs : list (list nat)) : Prop := (length nbrs <= n)%nat /\ Forall (Forall (fun j => (j < n)%nat)) nbrs.
