(** * What the plasticity and viscoelasticity properties talk about *)
From Coq Require Import Reals List.
From Verif Require Import Base Num ModelNeigh SpecDamage ModelForce SpecForce ModelPlastic.
Local Open Scope R_scope.
Import ListNotations.

(** ** Deviatoric force states of one point: one number per bond *)

(** The elastic trial value of bond [k] from point [p] to its neighbour [j]:
    alpha times (deformed length - reference length - theta * reference length / 3
    - plastic extension). *)
Definition trial_at (x y : list (V3 RN)) (edp : list R) (alpha theta : R) (p k j : nat) (t : R) : Prop :=
  exists X XP Y YP ep, nth_error x p = Some X /\ nth_error x j = Some XP /\ nth_error y p = Some Y /\ nth_error y j = Some YP /\
    nth_error edp k = Some ep /\
    t = alpha * (dist Y YP - dist X XP - theta * dist X XP / 3 - ep).
Definition trial_state (x y : list (V3 RN)) (edp : list R) (alpha theta : R) (p k : nat) (js : list nat) (ts : list R) : Prop :=
  length ts = length js /\
  forall n j t, nth_error js n = Some j -> nth_error ts n = Some t -> trial_at x y edp alpha theta p (k + n) j t.

(** Squared norm of a force state: sum of (1 - damage)^2 t^2 times neighbour volume. *)
Fixpoint sq_norm (v dmg : list R) (k : nat) (js : list nat) (ts : list R) {struct js} : R :=
  match js, ts with
  | j :: js', t :: ts' => Rsqr ((1 - nth k dmg 0) * t) * nth j v 0 + sq_norm v dmg (S k) js' ts'
  | _, _ => 0
  end.

(** Yield value of the linear peridynamic solid for yield stress sigma and horizon h. *)
Definition yield_of (sigma h : R) : R := 25 * (sigma * sigma) / (8 * PI * h ^ 5).
(** ... of a planar body of thickness th *)
Definition yield_of_planar (sigma h th : R) : R := 75 * (sigma * sigma) / (8 * PI * th * h ^ 4).

(** ... either of the two, by whether a thickness is given *)
Definition yield_point (sigma h : R) (planar : option R) : R :=
  match planar with None => yield_of sigma h | Some th => yield_of_planar sigma h th end.

(** Points that have neighbours have a positive weighted volume; shear correction
    factors are positive. *)
Definition positive_at_bonds (nbrs : list (list nat)) (m : list R) : Prop :=
  forall p js a, nth_error nbrs p = Some js -> js <> [] -> nth_error m p = Some a -> 0 < a.

(** What one evaluation must leave behind at a point with neighbours [js] (bonds [k],
    [k+1], ...), yield value [psi], old multiplier [lam], trial state [trial]: the
    deviatoric force state [td], the new plastic extensions [edp'] and multiplier [lam'].
    - the force state is on or inside the yield surface;
    - an admissible trial state is kept and nothing else changes;
    - otherwise the state is scaled back onto the surface and the multiplier grows.
    With hardening modulus [H] the surface is psi + H lambda. *)
Definition yield_outcome (H : R) (v dmg edp : list R) (k : nat) (js : list nat) (psi lam : R) (trial td : list R) (edp' : list R) (lam' : R) : Prop :=
  length td = length js /\
  sq_norm v dmg k js td / 2 <= psi + H * lam' /\
  (sq_norm v dmg k js trial / 2 <= psi + H * lam ->
     td = trial /\ lam' = lam /\ forall n, (n < length js)%nat -> nth_error edp' (k + n) = nth_error edp (k + n)) /\
  (psi + H * lam < sq_norm v dmg k js trial / 2 ->
     sq_norm v dmg k js td / 2 = psi + H * lam' /\ lam < lam' /\ exists c, 0 <= c < 1 /\ td = map (Rmult c) trial).

(** lists of numbers compared entry by entry *)
Definition all_le (a b : list R) : Prop := Forall2 Rle a b.

(** The solver with the real cosine, arc cosine and cube root; [dmax] stands for DBL_MAX. *)
Definition cube_root (z : R) : R := Rpower z (/ 3).
Definition update_R (dmax : R) : R -> R -> R -> R -> R -> R := updateDeltaLambda (N:=RN) cos acos cube_root dmax.

(** Every trial state is small enough for the closed-form solver, which uses the largest
    representable number [dmax] for "no root found". *)
Definition trials_below (dmax MU H : R) (nbrs : list (list nat)) (x y : list (V3 RN)) (v m theta dmg scf edp : list R) : Prop :=
  forall p js mp tp s ts,
    nth_error nbrs p = Some js -> nth_error m p = Some mp -> nth_error theta p = Some tp -> nth_error scf p = Some s ->
    trial_state x y edp (s * 15 * MU / mp) tp p (offset nbrs p) js ts -> sq_norm v dmg (offset nbrs p) js ts / (2 * H) < dmax.

(** The deviatoric force states that the plastic extensions [edp] leave in the
    configuration are on or inside the yield surface, at every point. *)
Definition admissible (MU psi : R) (nbrs : list (list nat)) (x : list (V3 RN)) (v m : list R) (c : config RN) (edp : list R) : Prop :=
  forall p js mp tp td, nth_error nbrs p = Some js -> nth_error m p = Some mp -> nth_error (cf_theta c) p = Some tp ->
    trial_state x (cf_y c) edp (15 * MU / mp) tp p (offset nbrs p) js td ->
    sq_norm v (cf_dmg c) (offset nbrs p) js td / 2 <= psi.

(** ** Load histories: what a configuration must look like *)
Definition config_fits (nbrs : list (list nat)) (n : nat) (c : config RN) : Prop :=
  length (cf_y c) = n /\ length (cf_theta c) = length nbrs /\ length (cf_dmg c) = num_bonds nbrs.
Definition history_fits (nbrs : list (list nat)) (n : nat) (h : list (list (config RN) * config RN)) : Prop :=
  Forall (fun st => Forall (config_fits nbrs n) (fst st) /\ config_fits nbrs n (snd st)) h.

(** ** Viscoelasticity *)

(** [b] relaxes towards the extension [e] with time constant [tau] on [t0, t1]. *)
Definition relaxes (tau : R) (e b : R -> R) (t0 t1 : R) : Prop :=
  forall t, t0 <= t <= t1 -> derivable_pt_lim b t ((e t - b t) / tau).
(** [e] is linear on [t0, t1]. *)
Definition linear_on (e : R -> R) (t0 t1 : R) : Prop :=
  forall t, t0 <= t <= t1 -> e t = e t0 + (t - t0) / (t1 - t0) * (e t1 - e t0).

(** The deviatoric extension of bond [k] from point [p] to [j]: (1 - damage) times
    (deformed length - reference length), minus theta times reference length / 3. *)
Definition ext_at (x y : list (V3 RN)) (dmg theta : list R) (p k j : nat) (e : R) : Prop :=
  exists X XP Y YP d th, nth_error x p = Some X /\ nth_error x j = Some XP /\ nth_error y p = Some Y /\ nth_error y j = Some YP /\
    nth_error dmg k = Some d /\ nth_error theta p = Some th /\
    e = (1 - d) * (dist Y YP - dist X XP) - th * dist X XP / 3.

(** [e] is the extension of the bond at the end of each step, the first starting at time
    [t], and runs linearly in between. *)
Fixpoint follows (x : list (V3 RN)) (dmg : list R) (p k j : nat) (e : R -> R) (t : R) (steps : list (R * (list (V3 RN) * list R))) : Prop :=
  match steps with
  | [] => True
  | (dt, (y, th)) :: rest => linear_on e t (t + dt) /\ ext_at x y dmg th p k j (e (t + dt)) /\ follows x dmg p k j e (t + dt) rest
  end.
Definition total_time (dts : list R) : R := fold_right Rplus 0 dts.
Definition steps_fit (nbrs : list (list nat)) (n : nat) (steps : list (R * (list (V3 RN) * list R))) : Prop :=
  Forall (fun st => 0 < fst st /\ length (fst (snd st)) = n /\ length (snd (snd st)) = length nbrs) steps.

(** The update of one bond over several steps with extension [e]. *)
Fixpoint back_steps (tau : R) (e : R -> R) (t b : R) (dts : list R) : R :=
  match dts with
  | [] => b
  | dt :: rest => back_steps tau e (t + dt) (visco_edb (N:=RN) exp tau dt (e t) (e (t + dt)) b) rest
  end.
Fixpoint piecewise_linear (e : R -> R) (t : R) (dts : list R) : Prop :=
  match dts with
  | [] => True
  | dt :: rest => linear_on e t (t + dt) /\ piecewise_linear e (t + dt) rest
  end.
