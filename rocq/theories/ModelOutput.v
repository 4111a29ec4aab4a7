(** * Compute classes that fill output fields

    Model of src/compute/Peridigm_Compute_{Node_Set_Data,Number_Of_Neighbors,
    Neighborhood_Volume,Radius,Force,Contact_Force,Acceleration,Deformation_Gradient}.cpp. *)
From Coq Require Import String ZArith.
From Verif Require Import Base Num ModelScalar ModelGlobal ModelForce ModelCorr.

(** ** Node_Set_Data *)
Section NodeSetData.
  Context {N : Num}.
  Local Open Scope num_scope.

  (** What one processor holds of one block: name, global ids of the owned points
      (getOwnedScalarPointMap), and one component of the variable, owned points first (the
      three components of a vector are treated independently and alike). *)
  Record nblock := NBlock { nb_name : string; nb_gids : list Z; nb_data : list N }.
  (** One processor: the global ids listed in the node set (a std::set, asked for
      membership only) and its blocks. *)
  Record nrank := NRank { nr_set : list Z; nr_blocks : list nblock }.

  (** cpp:130-134: the local ids of the owned points of the set *)
  Definition local_ids (set : list Z) (gids : list Z) : list nat :=
    map fst (filter (fun ig => existsb (Z.eqb (snd ig)) set) (combine (seq 0 (length gids)) gids)).

  (** cpp:124-136: m_blockLocalIds, later entries replacing earlier ones of the same name *)
  Definition block_local_ids (r : nrank) : list (string * list nat) :=
    fold_left (fun m b => (nb_name b, local_ids (nr_set r) (nb_gids b)) :: m) (nr_blocks r) [].
  (** std::map::at *)
  Fixpoint name_at {A} (m : list (string * A)) (s : string) : outcome A :=
    match m with
    | [] => Err
    | (t, a) :: m' => if String.eqb t s then Ok a else name_at m' s
    end.

  (** cpp:144-213 on one processor *)
  Definition nsd_local (c : calculation) (ids : list (string * list nat)) (r : nrank) : outcome N :=
    foldM (fun acc b =>
             let? l := name_at ids (nb_name b) in
             foldM (fun acc i => let? d := at_ub (nb_data b) i in Ok (bd_take c acc d)) acc l)
          (bd_start c) (nr_blocks r).
  (** cpp:215-237: the value written, the same on every processor.  [init] are the processors
      when the class was initialised, [w] the same processors when the value is computed. *)
  Definition node_set_value (c : calculation) (init w : list nrank) : outcome N :=
    let? l := mapO (fun ir => nsd_local c (block_local_ids (fst ir)) (snd ir)) (combine init w) in
    all_reduce (match c with Minimum => nmin | Maximum => nmax | Sum => add end) l.
End NodeSetData.
Arguments nblock N : clear implicits.
Arguments nrank N : clear implicits.

(** ** Fields filled point by point *)
Section Points.
  Context {N : Num}.
  Local Open Scope num_scope.

  (** Number_Of_Neighbors.cpp:75-80: the counts in the flat list, from index [idx] on *)
  Fixpoint number_of_neighbors (flat : list nat) (numOwned idx : nat) : outcome (list N) :=
    match numOwned with
    | O => Ok []
    | S k =>
        let? n := at_ub flat idx in
        let? r := number_of_neighbors flat k (idx + 1 + n) in
        Ok (ofZ (Z.of_nat n) :: r)
    end.

  (** Neighborhood_Volume.cpp:97-106: the [n] neighbours listed from [idx] on; [part] are
      the partial volumes of the bonds, if there are any *)
  Fixpoint add_volumes (flat : list nat) (vol : list N) (part : option (list N)) (n idx bond : nat) (acc : N) : outcome N :=
    match n with
    | O => Ok acc
    | S n' =>
        let? j := at_ub flat idx in
        let? v := match part with None => at_ub vol j | Some l => at_ub l bond end in
        add_volumes flat vol part n' (idx + 1) (bond + 1) (acc + v)
    end.
  (** cpp:88-107: the points from [i] on *)
  Fixpoint neighborhood_volume (flat : list nat) (vol : list N) (part : option (list N)) (numOwned i idx bond : nat)
    : outcome (list N) :=
    match numOwned with
    | O => Ok []
    | S k =>
        let? own := at_ub vol i in
        let? n := at_ub flat idx in
        let? s := add_volumes flat vol part n (idx + 1) bond own in
        let? r := neighborhood_volume flat vol part k (i + 1) (idx + 1 + n) (bond + n) in
        Ok (s :: r)
    end.

  (** Radius.cpp:80-84; [cbrt a] is pow(a, 1.0/3.0) *)
  Definition radius (cbrt : N -> N) (vol : list N) : list N := map (fun v => cbrt (lit 3 4 / pi * v)) vol.

  (** Force.cpp:72-108 (and Contact_Force.cpp:72-109) for one block: the return code and the
      field; [old] is what the field held before *)
  Definition force_field (vol : list N) (density old : list (V3 N)) : Z * list (V3 N) :=
    if negb (Nat.eqb (length density) (length vol)) || negb (Nat.eqb (length old) (length vol))
    then (1%Z, old)
    else (0%Z, map (fun vf => v3 (fst vf * vx (snd vf)) (fst vf * vy (snd vf)) (fst vf * vz (snd vf))) (combine vol density)).
  (** all blocks; the loop ends at the first failure *)
  Fixpoint force_fields (blocks : list (list N * list (V3 N) * list (V3 N))) : Z * list (list (V3 N)) :=
    match blocks with
    | [] => (0%Z, [])
    | (vol, density, old) :: rest =>
        let '(rc, f) := force_field vol density old in
        if Z.eqb rc 0
        then let '(rc', r) := force_fields rest in (rc', f :: r)
        else (rc, f :: map snd rest)
    end.

  (** Peridigm.cpp:4364-4377 (synchDataManagers) for the force density of one block, whose
      overlap points are the entries [ids] of the force vector of the solver *)
  Definition synch (ids : list nat) (force : list N) : outcome (list N) :=
    let? l := mapO (fun i => let? a := at_ub force (i * 3) in let? b := at_ub force (i * 3 + 1) in
                             let? c := at_ub force (i * 3 + 2) in Ok [a; b; c]) ids in
    Ok (concat l).
  (** Acceleration.cpp:70-86 for one block *)
  Definition acceleration_field (density : N) (force : list N) : list N := map (fun a => 1 / density * a) force.

  (** Deformation_Gradient.cpp:83-118: one block as reference coordinates, current
      coordinates, volumes, horizons, neighbours and the field before; the return code and
      the field after *)
  Record gblock := GBlock { gb_x : list (V3 N); gb_y : list (V3 N); gb_v : list N; gb_h : list N;
                            gb_nbrs : list (list nat); gb_old : list (M3 N) }.
  (** [retval = retval || f(...)]: the function is not called once retval is nonzero, and
      retval is 0 or 1 *)
  Definition gradient_block (omega : N -> N -> N) (retval : Z) (b : gblock) : outcome (Z * list (M3 N)) :=
    if Z.eqb retval 0
    then let? (code, geo) := deformation omega (gb_x b) (gb_y b) (gb_v b) (gb_h b) (gb_nbrs b) in
         Ok (if Z.eqb code 0 then 0%Z else 1%Z, map snd geo)
    else Ok (retval, gb_old b).
  Fixpoint gradient_blocks (omega : N -> N -> N) (retval : Z) (bs : list gblock) : outcome (Z * list (list (M3 N))) :=
    match bs with
    | [] => Ok (retval, [])
    | b :: rest =>
        let? (rc, f) := gradient_block omega retval b in
        let? (rc', r) := gradient_blocks omega rc rest in
        Ok (rc', f :: r)
    end.
  Definition deformation_gradient (omega : N -> N -> N) (bs : list gblock) := gradient_blocks omega 0%Z bs.
End Points.
Arguments gblock N : clear implicits.
