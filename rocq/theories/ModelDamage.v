(** * Model of the bond damage models (src/damage/) *)
From Verif Require Import Base Num ModelNeigh.
Local Open Scope num_scope.

Section Damage.
  Context {N : Num}.

  (** CriticalStretchDamageModel::distance, Peridigm_CriticalStretchDamageModel.hpp:95-99. *)
  Definition distance (a b : V3 N) : N :=
    sqr_root ((vx a - vx b) * (vx a - vx b) + (vy a - vy b) * (vy a - vy b)
              + (vz a - vz b) * (vz a - vz b)).

  (** One configuration handed to computeDamage: the current coordinates, and, when
      thermal strains apply, alpha and the temperature change. *)
  Record config := Config { c_y : list (V3 N); c_thermal : option (N * list N) }.

  (** Peridigm_CriticalStretchDamageModel.cpp:147-155 *)
  Definition relativeExtension (x : list (V3 N)) (c : config) (node nbr : nat) : outcome N :=
    let? x0 := at_ub x node in
    let? x1 := at_ub x nbr in
    let? y0 := at_ub (c_y c) node in
    let? y1 := at_ub (c_y c) nbr in
    let d0 := distance x0 x1 in
    let d1 := distance y0 y1 in
    let? d := match c_thermal c with
              | None => Ok d1
              | Some (alpha, dT) => let? t := at_ub dT node in Ok (d1 - alpha * t * d0)
              end in
    Ok ((d - d0) / d0).

  (** Peridigm_CriticalStretchDamageModel.cpp:156-161: the new value of one bond. *)
  Definition breakBond (exceeds : bool) (old : N) : N :=
    let trial := if exceeds then 1 else 0 in
    if old <? trial then trial else old.

  (** Peridigm_CriticalStretchDamageModel.cpp:136-164: bond by bond. *)
  Fixpoint breakBonds (crit : N) (x : list (V3 N)) (c : config)
           (bonds : list (nat * nat)) (bd : list N) : outcome (list N) :=
    match bonds, bd with
    | [], _ => Ok bd
    | (i, j) :: bs, d :: ds =>
      let? e := relativeExtension x c i j in
      let? r := breakBonds crit x c bs ds in
      Ok (breakBond (crit <? e) d :: r)
    | _ :: _, [] => UB
    end.

  Definition sum_list (l : list N) : N := fold_left add l 0.

  (** Peridigm_CriticalStretchDamageModel.cpp:168-183: the mean of the bond damage of
      each point, written at its id.  [bd] is the rest of the bond array. *)
  Fixpoint pointDamage (owned : list nat) (nbrs : list (list nat)) (bd : list N)
           (damage : list N) : outcome (list N) :=
    match owned, nbrs with
    | [], [] => Ok damage
    | id :: os, nb :: ns =>
      let n := length nb in
      if Nat.ltb (length bd) n then UB else
      let total := sum_list (firstn n bd) in
      let v := if Nat.ltb 0 n then total / ofZ (Z.of_nat n) else 0 in
      let? d := upd_ub damage id v in
      pointDamage os ns (skipn n bd) d
    | _, _ => UB
    end.

  (** The two-step fields Bond_Damage and Damage of one block. *)
  Record dstate := DState { bdN : list N; bdNP1 : list N; dmgN : list N; dmgNP1 : list N }.

  (** The mesh seen by a damage model. *)
  Record mesh := Mesh { m_x : list (V3 N); m_owned : list nat; m_nbrs : list (list nat) }.

  (** CriticalStretchDamageModel::computeDamage, Peridigm_CriticalStretchDamageModel.cpp:108-184. *)
  Definition criticalStretch (crit : N) (m : mesh) (c : config) (s : dstate) : outcome dstate :=
    (* line 131: copy the values, N+1 := N *)
    let? b := breakBonds crit (m_x m) c (bonds_of (m_owned m) (m_nbrs m)) (bdN s) in
    let? d := pointDamage (m_owned m) (m_nbrs m) b (dmgNP1 s) in
    Ok (DState (bdN s) b (dmgN s) d).

  (** UserDefinedTimeDependentCriticalStretchDamageModel::computeDamage,
      Peridigm_UserDefinedTimeDependentCriticalStretchDamageModel.cpp:162-241.  Lines
      187-188 assign one temporary RCP to another, which changes no data: the loop
      works on whatever the N+1 buffer holds.  [crit] is the value of the user's
      function at the current time, set by evaluateParserDmg (lines 96-133). *)
  Definition userDefinedStretch (crit : N) (m : mesh) (c : config) (s : dstate) : outcome dstate :=
    let? b := breakBonds crit (m_x m) c (bonds_of (m_owned m) (m_nbrs m)) (bdNP1 s) in
    let? d := pointDamage (m_owned m) (m_nbrs m) b (dmgNP1 s) in
    Ok (DState (bdN s) b (dmgN s) d).

  (** InterfaceAwareDamageModel::computeDamage, first loop,
      Peridigm_InterfaceAwareDamageModel.cpp:140-178; [cs] is the field Critical_Stretch. *)
  Fixpoint interfaceBonds (crit : N) (cs : list N) (x : list (V3 N)) (c : config)
           (bonds : list (nat * nat)) (bd : list N) : outcome (list N) :=
    match bonds, bd with
    | [], _ => Ok bd
    | (i, j) :: bs, d :: ds =>
      let? ncs := at_ub cs j in
      let? d' := if negb (d =? 0) || (ncs =? 0) then Ok d
                 else let minc := if ncs <? crit then ncs else crit in
                      let? e := relativeExtension x c i j in
                      Ok (breakBond (minc <? e) d) in
      let? r := interfaceBonds crit cs x c bs ds in
      Ok (d' :: r)
    | _ :: _, [] => UB
    end.

  (** Second loop, lines 186-225; [set] is the node set RANK_DEFICIENT_NODES.  Returns
      the bond array, the damage and the node set. *)
  Fixpoint interfacePoints (owned : list nat) (nbrs : list (list nat)) (bd : list N)
           (damage : list N) (set : list nat) : outcome (list N * list N * list nat) :=
    match owned, nbrs with
    | [], [] => Ok (bd, damage, set)
    | id :: os, nb :: ns =>
      let n := length nb in
      if Nat.ltb (length bd) n then UB else
      let mine := firstn n bd in
      let total := sum_list mine in
      let deficient := ofZ (Z.of_nat n - 2) <=? total in
      let remove := deficient && negb (existsb (Nat.eqb id) set) in
      let mine' := if remove then repeat 1 n else mine in
      let set' := if remove then set ++ [id] else set in
      let total' := if remove then ofZ (Z.of_nat n) else total in
      let v := if Nat.ltb 0 n then total' / ofZ (Z.of_nat n) else 0 in
      let? d := upd_ub damage id v in
      let? r := interfacePoints os ns (skipn n bd) d set' in
      let '(b, d', s') := r in
      Ok (mine' ++ b, d', s')
    | _, _ => UB
    end.

  Definition interfaceAware (crit : N) (cs : list N) (m : mesh) (c : config)
             (s : dstate * list nat) : outcome (dstate * list nat) :=
    let (st, set) := s in
    let? b := interfaceBonds crit cs (m_x m) c (bonds_of (m_owned m) (m_nbrs m)) (bdNP1 st) in
    let? r := interfacePoints (m_owned m) (m_nbrs m) b (dmgNP1 st) set in
    let '(b', d, set') := r in
    Ok (DState (bdN st) b' (dmgN st) d, set').

  (** DataManager::updateState on the two fields (Peridigm_DataManager.hpp:174). *)
  Definition swap (s : dstate) : dstate := DState (bdNP1 s) (bdN s) (dmgNP1 s) (dmgN s).

  (** The state after allocation and [initialize] (zeros in both steps; lines 83-106). *)
  Definition fresh (nbonds npoints : nat) : dstate :=
    DState (repeat 0 nbonds) (repeat 0 nbonds) (repeat 0 npoints) (repeat 0 npoints).

  (** One time step of a solver: any number of tentative evaluations, a final one, and
      the state update (Peridigm.cpp:1536,1589 for the explicit solver; the implicit
      solvers evaluate several times before lines 2464, 2996, 4014). *)
  Definition runStep {C S : Type} (sw : S -> S) (eval : C -> S -> outcome S)
             (tentative : list C) (final : C) (s : S) : outcome S :=
    let? s1 := foldM (fun s c => eval c s) s tentative in
    let? s2 := eval final s1 in
    Ok (sw s2).
  Definition runSteps {C S : Type} (sw : S -> S) (eval : C -> S -> outcome S)
             (steps : list (list C * C)) (s : S) : outcome S :=
    foldM (fun s st => runStep sw eval (fst st) (snd st) s) s steps.

  Definition timeStep (eval : config -> dstate -> outcome dstate) := runStep swap eval.
  Definition timeSteps (eval : config -> dstate -> outcome dstate) := runSteps swap eval.

  (** VonMisesStressDamageModel::computeDamage, one bond,
      Peridigm_VonMisesStressDamageModel.cpp:183-190 ([old] comes from step N, line 167). *)
  Definition vonMisesBond (critStress critDmg thrDmg : N) (stress old : N) : N :=
    let q := stress / critStress in
    let temp := if critDmg <=? q then 1
                else if q <=? thrDmg then 0
                else (q - thrDmg) / (critDmg - thrDmg) in
    if old <? temp then temp else old.      (* std::max(old, temp) *)

  (** JohnsonCookDamageModel::computeDamage, one bond,
      Peridigm_JohnsonCookDamageModel.cpp:219-241: the new damage parameter and the new
      bond damage.  [epsF] is the failure strain (line 226, with exp). *)
  Definition johnsonCookBond (thr : N) (deqps epsF dOld : N) : N * N :=
    let delta := deqps / epsF in
    let d1 := if 0 <? delta then dOld + delta else dOld in
    let d2 := if 1 <=? d1 then 1 else d1 in
    (d2, if thr <? d2 then (d2 - thr) / (1 - thr) else 0).

  (** The bond loops of the two models.  The bond damage of step N+1 starts as a copy of
      step N (VonMises line 167, JohnsonCook line 176).  The volume average and the
      flying-point flag computed in the same loops are not modelled; the flag was just
      reset (JohnsonCook line 169), so the `else' branch of line 194 is never taken. *)
  Fixpoint vonMisesBonds (critStress critDmg thrDmg : N) (stress old : list N) {struct old} : outcome (list N) :=
    match old with
    | [] => Ok []
    | d :: ds =>
      match stress with
      | [] => UB
      | s :: ss => let? r := vonMisesBonds critStress critDmg thrDmg ss ds in
                   Ok (vonMisesBond critStress critDmg thrDmg s d :: r)
      end
    end.
  Definition vonMises (critStress critDmg thrDmg : N) (stress : list N) (s : list N * list N)
    : outcome (list N * list N) :=
    let? b := vonMisesBonds critStress critDmg thrDmg stress (fst s) in Ok (fst s, b).

  (** The fields of the Johnson-Cook model: damage parameter and bond damage at N, N+1. *)
  Record jcstate := JC { jcDN : list N; jcDNP1 : list N; jcBN : list N; jcBNP1 : list N }.
  Definition jcSwap (s : jcstate) := JC (jcDNP1 s) (jcDN s) (jcBNP1 s) (jcBN s).
  (** Input per bond: the two equivalent plastic strains and the stress triaxiality.
      [ex] is std::exp. *)
  Fixpoint johnsonCookBonds (ex : N -> N) (p1 p2 p3 thr : N) (input : list (N * N * N)) (dOld : list N) {struct dOld}
    : outcome (list (N * N)) :=
    match dOld with
    | [] => Ok []
    | d :: ds =>
      match input with
      | [] => UB
      | (e0, e1, tri) :: ins =>
        let? r := johnsonCookBonds ex p1 p2 p3 thr ins ds in
        Ok (johnsonCookBond thr (e0 - e1) (p1 + p2 * ex (- p3 * tri)) d :: r)
      end
    end.
  Definition johnsonCook (ex : N -> N) (p1 p2 p3 thr : N) (input : list (N * N * N)) (s : jcstate)
    : outcome jcstate :=
    let? r := johnsonCookBonds ex p1 p2 p3 thr input (jcDN s) in
    Ok (JC (jcDN s) (map fst r) (jcBN s) (map snd r)).
End Damage.
Arguments config : clear implicits. Arguments dstate : clear implicits. Arguments mesh : clear implicits.
Arguments jcstate : clear implicits.
