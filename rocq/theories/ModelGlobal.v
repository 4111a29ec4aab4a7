(** * Global output quantities and time-dependent data files

    Model of src/compute/Peridigm_Compute_{Kinetic_Energy,Linear_Momentum,Angular_Momentum,
    Block_Data,Nearest_Point_Data}.cpp and src/core/Peridigm_DataLoader.cpp:58-70, 201-223, 286-330. *)
From Verif Require Import Base Num ModelScalar.

Section Global.
  Context {N : Num}.
  Local Open Scope num_scope.

  (** What one processor holds of one block: id, density, the local ids of the owned points
      (NeighborhoodData::OwnedIDs), and the fields read below, one entry per overlap point:
      volume, velocity, current and reference coordinates, element id, and the variable
      given to the Block_Data class (one component of it: the three components of a vector
      are treated independently and alike). *)
  Record rblock := {
    rb_id : Z; rb_rho : N; rb_owned : list nat; rb_vol : list N; rb_vel : list (V3 N);
    rb_y : list (V3 N); rb_x : list (V3 N); rb_gid : list Z; rb_data : list N }.

  (** A processor: its blocks, in the order common to all processors.  A world: the
      processors (at least one). *)
  Definition rank := list rblock.

  (** Epetra_Comm::SumAll on vectors, MinAll and MaxAll on single values. *)
  Fixpoint zip_with {A} (f : A -> A -> A) (l m : list A) : list A :=
    match l, m with a :: l', b :: m' => f a b :: zip_with f l' m' | _, _ => [] end.
  Definition all_reduce {A} (f : A -> A -> A) (l : list A) : outcome A :=
    match l with [] => UB | a :: t => Ok (fold_left f t a) end.
  Definition nmin (a b : N) : N := if b <? a then b else a.
  Definition nmax (a b : N) : N := if a <? b then b else a.

  (** Peridigm_Compute_Kinetic_Energy.cpp:117-138: the points of one block on one processor *)
  Definition local_ke (b : rblock) : outcome N :=
    foldM (fun KE i =>
             let? vol := at_ub (rb_vol b) i in
             let? v := at_ub (rb_vel b) i in
             Ok (KE + lit 1 2 * vol * rb_rho b * (vx v * vx v + vy v * vy v + vz v * vz v))) 0 (rb_owned b).

  (** lines 83-154 (global variant): SumAll is called once per block; here the calls of
      all blocks are one elementwise sum. *)
  Definition global_ke (w : list rank) : outcome N :=
    let? l := mapO (mapO local_ke) w in
    let? g := all_reduce (zip_with add) l in
    Ok (fold_left add g 0).

  (** Peridigm_Compute_Linear_Momentum.cpp:111-136 *)
  Definition local_lm (b : rblock) : outcome (V3 N) :=
    foldM (fun acc i =>
             let? vol := at_ub (rb_vol b) i in
             let? v := at_ub (rb_vel b) i in
             let mass := rb_rho b * vol in
             Ok (v3 (vx acc + mass * vx v) (vy acc + mass * vy v) (vz acc + mass * vz v))) vzero (rb_owned b).
  (** lines 85-167 *)
  Definition global_lm (w : list rank) : outcome N :=
    let? l := mapO (mapO local_lm) w in
    let? g := all_reduce (zip_with vadd) l in
    Ok (fold_left (fun s p => s + vlen p) g 0).

  (** Peridigm_Compute_Angular_Momentum.cpp:114-143 *)
  Definition local_am (b : rblock) : outcome (V3 N) :=
    foldM (fun acc i =>
             let? vol := at_ub (rb_vol b) i in
             let? v := at_ub (rb_vel b) i in
             let? r := at_ub (rb_y b) i in
             let mass := vol * rb_rho b in
             Ok (v3 (vx acc + mass * (vy v * vz r - vz v * vy r))
                    (vy acc + mass * (vz v * vx r - vx v * vz r))
                    (vz acc + mass * (vx v * vy r - vy v * vx r)))) vzero (rb_owned b).
  (** lines 87-161 *)
  Definition global_am (w : list rank) : outcome N :=
    let? l := mapO (mapO local_am) w in
    let? g := all_reduce (zip_with vadd) l in
    Ok (fold_left (fun s p => s + vlen p) g 0).

  (** DBL_MAX and DBL_MIN (the smallest positive normal number). *)
  Definition dbl_max : N := ofZ ((2 ^ 53 - 1) * 2 ^ 971).
  Definition dbl_min : N := lit 1 (2 ^ 1022).

  (** Peridigm_Compute_Block_Data.cpp *)
  Inductive calculation := Minimum | Maximum | Sum.
  (** lines 129-140 *)
  Definition bd_start (c : calculation) : N :=
    match c with Minimum => dbl_max | Maximum => dbl_min | Sum => 0 end.
  (** lines 147-190 *)
  Definition bd_take (c : calculation) (acc d : N) : N :=
    match c with
    | Minimum => if d <? acc then d else acc
    | Maximum => if acc <? d then d else acc
    | Sum => acc + d
    end.
  (** lines 142-192: the first numOwnedPoints entries of the data of every block with the
      given id *)
  Definition bd_local (c : calculation) (bid : Z) (r : rank) : outcome N :=
    foldM (fun acc b =>
             if Z.eqb (rb_id b) bid
             then foldM (fun acc i => let? d := at_ub (rb_data b) i in Ok (bd_take c acc d))
                        acc (seq 0 (length (rb_owned b)))
             else Ok acc) (bd_start c) r.
  (** lines 194-203 *)
  Definition block_data_value (c : calculation) (bid : Z) (w : list rank) : outcome N :=
    let? l := mapO (bd_local c bid) w in
    all_reduce (match c with Minimum => nmin | Maximum => nmax | Sum => add end) l.

  (** Peridigm_Compute_Nearest_Point_Data.cpp:119-121 *)
  Definition dist2 (x p : V3 N) : N :=
    (vx x - vx p) * (vx x - vx p) + (vy x - vy p) * (vy x - vy p) + (vz x - vz p) * (vz x - vz p).

  Definition INT_MAX : Z := (2 ^ 31 - 1)%Z.

  (** lines 100-135: the nearest point of one processor (squared distance and id); the
      flag for the warning about ties is left out *)
  Definition nearest_local (p : V3 N) (r : rank) : outcome (N * Z) :=
    foldM (fun acc b =>
      foldM (fun (acc : N * Z) i =>
        let? x := at_ub (rb_x b) i in
        let? g := at_ub (rb_gid b) i in
        let d := dist2 x p in
        let '(best, id) := acc in
        Ok (if d <=? best then if (d <? best) || Z.ltb g id then (d, g) else (best, id) else (best, id)))
        acc (seq 0 (length (rb_owned b)))) (dbl_max, INT_MAX) r.

  (** lines 137-148: nearest over the processors, lowest id on ties *)
  Definition nearest (p : V3 N) (w : list rank) : outcome Z :=
    let? l := mapO (nearest_local p) w in
    let? best := all_reduce nmin (map fst l) in
    all_reduce Z.min (map (fun di => if fst di =? best then snd di else INT_MAX) l).
End Global.
Arguments rblock N : clear implicits.
Arguments rank N : clear implicits.

(** ** Time-dependent data files (Peridigm_DataLoader.cpp) *)
Section Loader.
  Context {N : Num}.
  Local Open Scope num_scope.

  (** The data file: times and, for each, one value per node.  The file is taken not to
      change between requests. *)
  Definition datafile := list (N * list N).

  (** hpp members time_, time_1_, time_2_, data_1_, data_2_, scratch_ *)
  Record loader := { ld_time : N; ld_t1 : N; ld_t2 : N; ld_d1 : list N; ld_d2 : list N; ld_out : list N }.

  (** cpp:58-70: all times -1, all vectors zero ([n] nodes) *)
  Definition loader_init (n : nat) : loader :=
    {| ld_time := - (1); ld_t1 := - (1); ld_t2 := - (1);
       ld_d1 := repeat 0 n; ld_d2 := repeat 0 n; ld_out := repeat 0 n |}.

  (** cpp:307-316: the first pair of consecutive times enclosing [t] *)
  Fixpoint find_pair (f : datafile) (t : N) : option ((N * list N) * (N * list N)) :=
    match f with
    | a :: ((b :: _) as r) =>
        if (fst a <=? t) && (t <=? fst b) then Some (a, b) else find_pair r t
    | _ => None
    end.

  (** cpp:214-217 *)
  Fixpoint interpolate (c : N) (d1 d2 : list N) : list N :=
    match d1, d2 with
    | a :: r1, b :: r2 => ((1 - c) * a + c * b) :: interpolate c r1 r2
    | _, _ => []
    end.

  (** cpp:201-217 with loadDataFromFile, cpp:286-330.  When the requested time is not in the
      file an exception is thrown after [time_] has been changed: the result carries the
      loader in every case. *)
  Definition load_data (f : datafile) (l : loader) (t : N) : loader * outcome (list N) :=
    if t =? ld_time l then (l, Ok (ld_out l))
    else
      let l1 := {| ld_time := t; ld_t1 := ld_t1 l; ld_t2 := ld_t2 l;
                   ld_d1 := ld_d1 l; ld_d2 := ld_d2 l; ld_out := ld_out l |} in
      let loaded :=
        if (t <? ld_t1 l) || (ld_t2 l <? t)
        then match find_pair f t with
             | None => None
             | Some (a, b) => Some {| ld_time := t; ld_t1 := fst a; ld_t2 := fst b;
                                      ld_d1 := snd a; ld_d2 := snd b; ld_out := ld_out l |}
             end
        else Some l1 in
      match loaded with
      | None => (l1, Err)
      | Some l2 =>
          let c := (t - ld_t1 l2) / (ld_t2 l2 - ld_t1 l2) in
          let out := interpolate c (ld_d1 l2) (ld_d2 l2) in
          ({| ld_time := t; ld_t1 := ld_t1 l2; ld_t2 := ld_t2 l2;
              ld_d1 := ld_d1 l2; ld_d2 := ld_d2 l2; ld_out := out |}, Ok out)
      end.

  (** A sequence of requests with their results. *)
  Fixpoint load_run (f : datafile) (l : loader) (ts : list N) : list (outcome (list N)) :=
    match ts with
    | [] => []
    | t :: r => let '(l', o) := load_data f l t in o :: load_run f l' r
    end.
End Loader.
Arguments loader N : clear implicits.
Arguments datafile N : clear implicits.
