(** * C06, C07, C54: bond damage *)
From Coq Require Import Reals Lra SpecFloat.
From Verif Require Import Base Num ModelNeigh ModelDamage SpecDamage ProofDamage.

(** ** C06, critical stretch *)

(** In binary64, from any state, through any number of steps with any tentative
    evaluations and any coordinates (NaN and infinities included): a bond whose damage is
    1 keeps damage 1. *)
Theorem C06_broken_stays_broken_binary64 :
  forall crit (m : mesh FN) steps s s' k,
    timeSteps (criticalStretch crit m) steps s = Ok s' ->
    nth_error (bdN s) k = Some (ofZ (n:=FN) 1) -> nth_error (bdN s') k = Some (ofZ (n:=FN) 1).
Proof. exact (crit_steps_one sane_F). Qed.
Print Assumptions C06_broken_stays_broken_binary64.

(** In binary64: an intact bond is broken afterwards exactly when its computed relative
    extension exceeded the critical stretch in the configuration of some step; otherwise
    it is still intact (its damage is 0, not anything in between). *)
Theorem C06_breaks_iff_exceeded_binary64 :
  forall crit (m : mesh FN) steps s s' k b,
    timeSteps (criticalStretch crit m) steps s = Ok s' ->
    nth_error (bonds_of (m_owned m) (m_nbrs m)) k = Some b ->
    nth_error (bdN s) k = Some (ofZ (n:=FN) 0) ->
    ((exists st, In st steps /\ exceeds crit m (snd st) b) /\ nth_error (bdN s') k = Some (ofZ (n:=FN) 1)) \/
    ((forall st, In st steps -> ~ exceeds crit m (snd st) b) /\ nth_error (bdN s') k = Some (ofZ (n:=FN) 0)).
Proof. exact (crit_steps_iff sane_F). Qed.
Print Assumptions C06_breaks_iff_exceeded_binary64.

(** In exact arithmetic, [exceeds] is what it should be: the bond is longer than
    (1 + critical stretch) times its original length. *)
Theorem C06_exceeds_means_overstretched :
  forall crit m c b,
    c_thermal c = None ->
    (forall x0 x1, nth_error (m_x m) (fst b) = Some x0 -> nth_error (m_x m) (snd b) = Some x1 ->
       (0 < dist x0 x1)%R) ->
    (exceeds (N:=RN) crit m c b <-> overstretched crit (m_x m) (c_y c) b).
Proof. exact exceeds_R. Qed.
Print Assumptions C06_exceeds_means_overstretched.

(** The reported damage of a point is the fraction of its bonds that were overstretched
    in some step so far. *)
Theorem C06_damage_is_fraction_broken :
  forall crit m steps t c nb np s',
    timeSteps (criticalStretch (N:=RN) crit m) (steps ++ [(t, c)]) (fresh nb np) = Ok s' ->
    mesh_ok m np -> distinct_bonds m ->
    (forall st, In st (steps ++ [(t, c)]) -> c_thermal (snd st) = None) ->
    forall p id nbp, nth_error (m_owned m) p = Some id -> nth_error (m_nbrs m) p = Some nbp ->
    exists flags, length flags = length nbp /\
      (forall q j, nth_error nbp q = Some j ->
         (nth_error flags q = Some true <->
          exists st, In st (steps ++ [(t, c)]) /\ overstretched crit (m_x m) (c_y (snd st)) (id, j))) /\
      nth_error (dmgN s') id =
        Some (if (0 <? length nbp) then (INR (count_true flags) / INR (length nbp))%R else 0%R).
Proof. exact fraction_broken. Qed.
Print Assumptions C06_damage_is_fraction_broken.

Theorem C06_damage_in_unit_interval :
  forall crit m steps t c nb np s',
    timeSteps (criticalStretch (N:=RN) crit m) (steps ++ [(t, c)]) (fresh nb np) = Ok s' ->
    mesh_ok m np ->
    forall id, In id (m_owned m) -> exists v, nth_error (dmgN s') id = Some v /\ (0 <= v <= 1)%R.
Proof. exact crit_damage_range. Qed.
Print Assumptions C06_damage_in_unit_interval.

Theorem C06_damage_never_decreases :
  forall crit m steps t c steps2 nb np s1 s2,
    timeSteps (criticalStretch (N:=RN) crit m) (steps ++ [(t, c)]) (fresh nb np) = Ok s1 ->
    timeSteps (criticalStretch (N:=RN) crit m) steps2 s1 = Ok s2 ->
    NoDup (m_owned m) ->
    forall id v v', In id (m_owned m) ->
      nth_error (dmgN s1) id = Some v -> nth_error (dmgN s2) id = Some v' -> (v <= v')%R.
Proof. exact crit_monotone_steps. Qed.
Print Assumptions C06_damage_never_decreases.

(** Tentative evaluations within a step (line searches, Newton iterations) break
    nothing for good. *)
Theorem C06_tentative_evaluations_leave_no_trace :
  forall (N : Num) crit (m : mesh N) t c s s1 s2,
    timeStep (criticalStretch crit m) t c s = Ok s1 ->
    timeStep (criticalStretch crit m) [] c s = Ok s2 -> bdN s1 = bdN s2.
Proof. exact @crit_tentative_irrelevant. Qed.
Print Assumptions C06_tentative_evaluations_leave_no_trace.

(** On meshes and configurations that fit together no step is undefined, so the
    hypotheses [... = Ok _] above are met by every such run. *)
Theorem C06_steps_are_defined :
  forall (N : Num) crit (m : mesh N) np steps s,
    mesh_ok m np -> dstate_ok s (num_bonds (m_nbrs m)) np ->
    Forall (fun st => Forall (fun c => config_ok c np) (fst st) /\ config_ok (snd st) np) steps ->
    exists s', timeSteps (criticalStretch crit m) steps s = Ok s'.
Proof. exact @timeSteps_defined. Qed.
Print Assumptions C06_steps_are_defined.

(** Non-vacuity: two points, a step that pulls them apart, then one that pushes them
    back; the bonds break and stay broken, the damage of both is 1. *)
Definition pt {N : Num} (a b c : Z) : V3 N := v3 (ofZ a) (ofZ b) (ofZ c).
Definition ex_mesh {N : Num} : mesh N := Mesh [pt 0 0 0; pt 1 0 0] [0; 1] [[1]; [0]].
Definition ex_far {N : Num} : config N := Config [pt 0 0 0; pt 2 0 0] None.
Definition ex_near {N : Num} : config N := Config [pt 0 0 0; pt 1 0 0] None.
Definition ex_crit {N : Num} : N := lit 1 10.

Definition bonds_after (o : outcome (dstate FN)) : option (list spec_float * list spec_float) :=
  match o with Ok s => Some (bdN s, dmgN s) | _ => None end.
Example C06_nonvacuous :
  mesh_ok (N:=FN) ex_mesh 2 /\ config_ok (N:=FN) ex_far 2 /\
  bonds_after (timeSteps (criticalStretch (N:=FN) ex_crit ex_mesh) [([], ex_near)] (fresh 2 2)) =
    Some ([fofZ 0; fofZ 0], [fofZ 0; fofZ 0]) /\
  bonds_after (timeSteps (criticalStretch (N:=FN) ex_crit ex_mesh)
                 [([], ex_near); ([], ex_far); ([], ex_near)] (fresh 2 2)) =
    Some ([fofZ 1; fofZ 1], [fofZ 1; fofZ 1]).
Proof.
  split; [|split; [|split]].
  - repeat split; repeat constructor; cbn; intuition lia.
  - repeat split.
  - vm_compute; reflexivity.
  - vm_compute; reflexivity.
Qed.

Example C06_nonvacuous_distinct : mesh_ok (N:=RN) ex_mesh 2 /\ distinct_bonds ex_mesh.
Proof.
  split.
  - repeat split; repeat constructor; cbn; intuition lia.
  - intros b x0 x1 [<-|[<-|[]]] H0 H1; cbn in H0, H1; injection H0 as <-; injection H1 as <-;
      unfold dist, pt; cbn [vx vy vz]; to_R; unfold Rsqr; apply sqrt_lt_R0; lra.
Qed.

(** ** C07, the other bond-breaking models *)

(** The user-defined critical stretch model keeps two independent histories: after a run
    (listed latest step first, each with the critical stretch in force), a bond is broken
    exactly if it was overstretched in the last step, the third last, the fifth last...;
    the steps in between are forgotten. *)
Theorem C07_user_model_remembers_every_second_step :
  forall m k b (cs : list (FN * config FN)) s s',
    foldM (fun s c => timeStep (userDefinedStretch (fst c) m) [] (snd c) s) s (rev cs) = Ok s' ->
    nth_error (bonds_of (m_owned m) (m_nbrs m)) k = Some b ->
    nth_error (bdN s) k = Some (ofZ (n:=FN) 0) -> nth_error (bdNP1 s) k = Some (ofZ (n:=FN) 0) ->
    bond_is (exists c, In c (every_second cs) /\ exceeds (fst c) m (snd c) b) (bdN s') k /\
    bond_is (exists c, In c (every_second (tl cs)) /\ exceeds (fst c) m (snd c) b) (bdNP1 s') k.
Proof. exact (user_steps_char sane_F). Qed.
Print Assumptions C07_user_model_remembers_every_second_step.

(** Hence irreversibility is false for it: the bond of the example breaks in the first
    step and is whole again after the second. *)
Theorem C07_user_model_irreversible_refuted :
  exists (m : mesh FN) crit c1 c2 s1 s2,
    timeStep (userDefinedStretch crit m) [] c1 (fresh 2 2) = Ok s1 /\
    timeStep (userDefinedStretch crit m) [] c2 s1 = Ok s2 /\
    nth_error (bdN s1) 0 = Some (ofZ (n:=FN) 1) /\ nth_error (bdN s2) 0 = Some (ofZ (n:=FN) 0).
Proof.
  exists ex_mesh, ex_crit, ex_far, ex_near.
  destruct (run2_vm (option spec_float * option spec_float)
    (timeStep (userDefinedStretch ex_crit ex_mesh) [] ex_far (fresh 2 2))
    (timeStep (userDefinedStretch ex_crit ex_mesh) [] ex_near)
    (fun (a c : dstate FN) => (nth_error (bdN a) 0, nth_error (bdN c) 0)) (Some (fofZ 1), Some (fofZ 0)))
    as (s1 & s2 & H1 & H2 & H3); [vm_compute; reflexivity|].
  injection H3 as H3 H4. exists s1, s2; auto.
Qed.
Print Assumptions C07_user_model_irreversible_refuted.

(** The interface-aware model: five mutually bonded points, one pulled away and put
    back.  Its bonds are broken after the first step and whole after the second. *)
Definition ex5 : mesh FN :=
  Mesh [pt 0 0 0; pt 1 0 0; pt 0 1 0; pt 0 0 1; pt 1 1 1] [0; 1; 2; 3; 4]
       [[1; 2; 3; 4]; [0; 2; 3; 4]; [0; 1; 3; 4]; [0; 1; 2; 4]; [0; 1; 2; 3]].
Definition ex5_near : config FN := Config (m_x ex5) None.
Definition ex5_far : config FN := Config [pt 0 0 0; pt 9 0 0; pt 0 1 0; pt 0 0 1; pt 1 1 1] None.
Definition ia_step (c : config FN) (s : dstate FN * list nat) : outcome (dstate FN * list nat) :=
  let? r := interfaceAware ex_crit (repeat ex_crit 5) ex5 c s in Ok (swap (fst r), snd r).

Theorem C07_interface_model_irreversible_refuted :
  exists s1 s2,
    ia_step ex5_far (fresh 20 5, []) = Ok s1 /\ ia_step ex5_near s1 = Ok s2 /\
    nth_error (bdN (fst s1)) 0 = Some (ofZ (n:=FN) 1) /\ nth_error (bdN (fst s2)) 0 = Some (ofZ (n:=FN) 0).
Proof.
  destruct (run2_vm (option spec_float * option spec_float)
    (ia_step ex5_far (fresh 20 5, [])) (ia_step ex5_near)
    (fun (a c : dstate FN * list nat) => (nth_error (bdN (fst a)) 0, nth_error (bdN (fst c)) 0)) (Some (fofZ 1), Some (fofZ 0)))
    as (s1 & s2 & H1 & H2 & H3); [vm_compute; reflexivity|].
  injection H3 as H3 H4. exists s1, s2; auto.
Qed.
Print Assumptions C07_interface_model_irreversible_refuted.

(** A bond broken by the evaluation that precedes the first explicit step is whole again
    after that step, if it is no longer overstretched then. *)
Theorem C07_initial_evaluation_lost_refuted :
  exists s1 s2,
    criticalStretch (N:=FN) ex_crit ex_mesh ex_far (fresh 2 2) = Ok s1 /\
    nth_error (bdNP1 s1) 0 = Some (ofZ (n:=FN) 1) /\
    timeStep (criticalStretch ex_crit ex_mesh) [] ex_near s1 = Ok s2 /\
    nth_error (bdN s2) 0 = Some (ofZ (n:=FN) 0).
Proof.
  destruct (run2_vm (option spec_float * option spec_float)
    (criticalStretch (N:=FN) ex_crit ex_mesh ex_far (fresh 2 2))
    (timeStep (criticalStretch ex_crit ex_mesh) [] ex_near)
    (fun (a c : dstate FN) => (nth_error (bdNP1 a) 0, nth_error (bdN c) 0)) (Some (fofZ 1), Some (fofZ 0)))
    as (s1 & s2 & H1 & H2 & H3); [vm_compute; reflexivity|].
  injection H3 as H3 H4. exists s1, s2; auto.
Qed.
Print Assumptions C07_initial_evaluation_lost_refuted.

(** ** C54, stress and plastic strain driven models *)

(** Von Mises stress damage: whatever the stresses, over any number of steps the damage
    of every bond stays in [0,1] and never decreases. *)
Theorem C54_von_mises_monotone :
  forall cs cd td steps s s',
    (td < cd)%R ->
    runSteps (fun s => (snd s, fst s)) (vonMises (N:=RN) cs cd td) steps s = Ok s' ->
    forall k v, nth_error (fst s) k = Some v -> (0 <= v <= 1)%R ->
    exists v', nth_error (fst s') k = Some v' /\ (v <= v' <= 1)%R.
Proof. exact vonMises_history. Qed.
Print Assumptions C54_von_mises_monotone.

(** Johnson-Cook: from the start of a run, for every continuation of it, damage
    parameter and bond damage stay in [0,1] and never decrease. *)
Theorem C54_johnson_cook_monotone :
  forall ex p1 p2 p3 thr steps1 steps2 n s1 s2,
    (thr < 1)%R ->
    runSteps jcSwap (johnsonCook (N:=RN) ex p1 p2 p3 thr) steps1 (jc_fresh n) = Ok s1 ->
    runSteps jcSwap (johnsonCook (N:=RN) ex p1 p2 p3 thr) steps2 s1 = Ok s2 ->
    forall k, k < n ->
    exists d1 b1 d2 b2, nth_error (jcDN s1) k = Some d1 /\ nth_error (jcBN s1) k = Some b1 /\
      nth_error (jcDN s2) k = Some d2 /\ nth_error (jcBN s2) k = Some b2 /\
      (0 <= d1 <= d2 /\ d2 <= 1 /\ 0 <= b1 <= b2 /\ b2 <= 1)%R.
Proof. exact jc_two. Qed.
Print Assumptions C54_johnson_cook_monotone.

(** Non-vacuity, in binary64: half damage from the first step, complete damage from the
    second, and it stays. *)
Example C54_nonvacuous_von_mises :
  runSteps (fun s => (snd s, fst s)) (vonMises (N:=FN) (fofZ 10) (fofZ 1) (fofZ 0))
    [([], [fofZ 5]); ([], [fofZ 20]); ([], [fofZ 1])] ([fofZ 0], [fofZ 0])
  = Ok ([fofZ 1], [fofZ 1]) /\
  runSteps (fun s => (snd s, fst s)) (vonMises (N:=FN) (fofZ 10) (fofZ 1) (fofZ 0))
    [([], [fofZ 5])] ([fofZ 0], [fofZ 0]) = Ok ([lit (n:=FN) 1 2], [fofZ 0]).
Proof. split; vm_compute; reflexivity. Qed.
Example C54_nonvacuous_johnson_cook :
  match runSteps jcSwap (johnsonCook (N:=FN) (fun x => x) (fofZ 4) (fofZ 0) (fofZ 0) (fofZ 0))
    [([], [(fofZ 2, fofZ 0, fofZ 0)]); ([], [(fofZ 0, fofZ 7, fofZ 0)])]
    (JC (N:=FN) [fofZ 0] [fofZ 0] [fofZ 0] [fofZ 0]) with
  | Ok s => Some (jcDN s, jcBN s) | _ => None end =
  Some ([lit (n:=FN) 1 2] : list spec_float, [lit (n:=FN) 1 2] : list spec_float).
Proof. vm_compute; reflexivity. Qed.
