(** * Bond filters

    src/io/pdneigh/BondFilter.cxx and .h, the use of the filters when a neighbourhood is
    built (src/io/pdneigh/NeighborhoodList.cxx), as initial damage
    (src/damage/Peridigm_InitialDamageModel.cpp), and the removal of bonds between blocks
    (src/io/discretization/Peridigm_ExodusDiscretization.cpp).  Points are values, not
    pointers into an array of doubles. *)
From Verif Require Import Base Num.

Section Filter.
  Context {N : Num}.
  Local Open Scope num_scope.

  (** Cross, src/io/utilities/Vector3D.h 117-128 *)
  Definition cross (u v : V3 N) : V3 N :=
    v3 (- vz u * vy v + vy u * vz v) (vz u * vx v - vx u * vz v) (- vy u * vx v + vx u * vy v).

  (** DBL_MAX = (2^53 - 1) 2^971 *)
  Definition dbl_max : N := ofZ ((2 ^ 53 - 1) * 2 ^ 971)%Z.

  (** std::abs *)
  Definition absolute (x : N) : N := if x <? 0 then - x else x.

  (** numerator, denominator: BondFilter.cxx 65-66, 180-181, 241-242, 325-326 *)
  Definition along (n p q : V3 N) : N :=
    (vx q - vx p) * vx n + (vy q - vy p) * vy n + (vz q - vz p) * vz n.

  (** The parameter of the intersection with the plane through r with normal n,
      BondFilter.cxx 68-80, 183-195, 244-256, 328-340 *)
  Definition parameter (tolerance : N) (n r p0 p1 : V3 N) : N :=
    let numerator := along n p0 r in
    let denominator := along n p0 p1 in
    if absolute denominator <? tolerance then dbl_max else numerator / denominator.

  (** The intersection point, BondFilter.cxx 87-90, 200-204, 261-265, 345-349 *)
  Definition point_at (t : N) (p0 p1 : V3 N) : V3 N :=
    v3 (vx p0 + t * (vx p1 - vx p0)) (vy p0 + t * (vy p1 - vy p0)) (vz p0 + t * (vz p1 - vz p0)).

  (** FinitePlane, BondFilter.h 59-91, BondFilter.cxx 59-61 *)
  Record plane := { pl_n : V3 N; pl_r0 : V3 N; pl_ub : V3 N; pl_ua : V3 N; pl_a : N; pl_b : N }.
  Definition finite_plane (normal corner bottom : V3 N) (length_bottom length_a : N) : plane :=
    {| pl_n := normal; pl_r0 := corner; pl_ub := bottom; pl_ua := cross bottom normal; pl_a := length_a; pl_b := length_bottom |}.

  (** FinitePlane::bondIntersectInfinitePlane, BondFilter.cxx 63-93 *)
  Definition intersects_infinite (pl : plane) (p0 p1 : V3 N) : bool * V3 N :=
    let t := parameter (lit 1 100000000000000) (pl_n pl) (pl_r0 pl) p0 p1 in
    (((0 <=? t) && (t <=? 1))%bool, point_at t p0 p1).

  (** FinitePlane::bondIntersect, BondFilter.cxx 95-106 *)
  Definition in_plane (pl : plane) (x : V3 N) (tolerance : N) : bool :=
    let one := 1 + tolerance in
    let dr := vsub x (pl_r0 pl) in
    let aa := vdot dr (pl_ua pl) in
    let bb := vdot dr (pl_ub pl) in
    ((- tolerance <? aa) && (aa / pl_a pl <? one) && (- tolerance <? bb) && (bb / pl_b pl <? one))%bool.

  (** The test of FinitePlaneFilter::filterBonds, BondFilter.cxx 149; tolerance 1e-15, BondFilter.h 124-125 *)
  Definition plane_cuts (pl : plane) (p0 p1 : V3 N) : bool :=
    let r := intersects_infinite pl p0 p1 in
    (fst r && in_plane pl (snd r) (lit 1 1000000000000000))%bool.

  (** DiskFilter::bondIntersectsDisk, BondFilter.cxx 178-214; tolerance 1e-15, BondFilter.h 135 *)
  Definition disk_cuts (center normal : V3 N) (radius : N) (p0 p1 : V3 N) : bool :=
    let t := parameter (lit 1 1000000000000000) normal center p0 p1 in
    if ((t <? 0) || (1 <? t))%bool then false
    else
      let x := point_at t p0 p1 in
      let d2 := (vx x - vx center) * (vx x - vx center) + (vy x - vy center) * (vy x - vy center)
                + (vz x - vz center) * (vz x - vz center) in
      d2 <? radius * radius.

  (** Unit normal from two edges, BondFilter.h 160-173, 199-213 *)
  Definition unit_normal (a b : V3 N) : V3 N :=
    let n := v3 (vy a * vz b - vz a * vy b) (vz a * vx b - vx a * vz b) (vx a * vy b - vy a * vx b) in
    let magnitude := sqr_root (vx n * vx n + vy n * vy n + vz n * vz n) in
    v3 (vx n / magnitude) (vy n / magnitude) (vz n / magnitude).

  (** Barycentric coordinates of x with respect to v1, second edge to [far], first to [near]:
      BondFilter.cxx 274-286 (far = v3, near = v2), 361-375 (near = v2), 377-382 (near = v4) *)
  Definition inside_triangle (tolerance : N) (v1 near far x : V3 N) : bool :=
    let a := vsub far v1 in
    let b := vsub near v1 in
    let c := vsub x v1 in
    let dot00 := vdot a a in
    let dot01 := vdot a b in
    let dot02 := vdot a c in
    let dot11 := vdot b b in
    let dot12 := vdot b c in
    let alpha := (dot11 * dot02 - dot01 * dot12) / (dot00 * dot11 - dot01 * dot01) in
    let beta := (dot00 * dot12 - dot01 * dot02) / (dot00 * dot11 - dot01 * dot01) in
    ((- tolerance <? alpha) && (- tolerance <? beta) && (alpha + beta <? 1 + 2 * tolerance))%bool.

  (** TriangleFilter::bondIntersectsTriangle and pointInTriangle, BondFilter.cxx 239-288; BondFilter.h 152-173 *)
  Definition triangle_cuts (v1 v2 v3' : V3 N) (p0 p1 : V3 N) : bool :=
    let tolerance := lit 1 100000000000000 in
    let t := parameter tolerance (unit_normal (vsub v2 v1) (vsub v3' v1)) v1 p0 p1 in
    if ((t <? 0) || (1 <? t))%bool then false
    else inside_triangle tolerance v1 v2 v3' (point_at t p0 p1).

  (** QuadFilter::bondIntersectsQuad and pointInQuad, BondFilter.cxx 315-385; BondFilter.h 190-213 *)
  Definition quad_cuts (v1 v2 v3' v4 : V3 N) (p0 p1 : V3 N) : bool :=
    let tolerance := lit 1 100000000000000 in
    let t := parameter tolerance (unit_normal (vsub v2 v1) (vsub v4 v1)) v1 p0 p1 in
    if ((t <? 0) || (1 <? t))%bool then false
    else
      let x := point_at t p0 p1 in
      (inside_triangle tolerance v1 v2 v3' x || inside_triangle tolerance v1 v4 v3' x)%bool.

  (** The filters; the flag is includeSelf (BondFilter.h 95-106; the last three constructors
      always pass false, BondFilter.h 135, 152, 190) *)
  Inductive filter :=
  | ByDefault (with_self : bool)
  | ByPlane (pl : plane) (with_self : bool)
  | ByDisk (center normal : V3 N) (radius : N)
  | ByTriangle (v1 v2 v3' : V3 N)
  | ByQuad (v1 v2 v3' v4 : V3 N).
  Definition include_self (f : filter) : bool :=
    match f with ByDefault b | ByPlane _ b => b | _ => false end.
  Definition cuts (f : filter) : V3 N -> V3 N -> bool :=
    match f with
    | ByDefault _ => fun _ _ => false
    | ByPlane pl _ => plane_cuts pl
    | ByDisk c n r => disk_cuts c n r
    | ByTriangle a b c => triangle_cuts a b c
    | ByQuad a b c d => quad_cuts a b c d
    end.

  (** filterBonds, BondFilter.cxx 108-121, 123-153, 155-176, 216-237, 290-313.
      [ids] is treeList, [xs] the points of xOverlap, [flags] the array bondFlags, which may
      be longer than treeList.  BondFilterDefault does not read the coordinates. *)
  Fixpoint filter_bonds (f : filter) (ids : list nat) (pt : V3 N) (self : nat) (xs : list (V3 N)) (flags : list bool) : outcome (list bool) :=
    match ids, flags with
    | [], _ => Ok flags
    | _ :: _, [] => UB
    | uid :: ids', flag :: flags' =>
        let? flag' :=
          if (Nat.eqb self uid && negb (include_self f))%bool then Ok true
          else match f with
               | ByDefault _ => Ok flag
               | _ => let? p1 := at_ub xs uid in Ok (if cuts f pt p1 then true else flag)
               end in
        let? rest := filter_bonds f ids' pt self xs flags' in
        Ok (flag' :: rest)
    end.

  (** The loop over the filters, NeighborhoodList.cxx 709-716 *)
  Definition apply_filters (fs : list filter) (ids : list nat) (pt : V3 N) (self : nat) (xs : list (V3 N)) : outcome (list bool) :=
    foldM (fun flags f => filter_bonds f ids pt self xs flags) (repeat false (length ids)) fs.

  (** The neighbourhood of one point in the second pass, NeighborhoodList.cxx 729-745: number of neighbours, neighbours.
      [ids] is the sorted result of the search. *)
  Definition keep (ids : list nat) (flags : list bool) : list nat :=
    map fst (List.filter (fun p => negb (snd p)) (combine ids flags)).
  Definition neighborhood_entry (fs : list filter) (ids : list nat) (pt : V3 N) (self : nat) (xs : list (V3 N)) : outcome (list nat) :=
    let? flags := apply_filters fs ids pt self xs in
    let kept := keep ids flags in
    Ok (length kept :: kept).

  (** InitialDamageModel::initialize, Peridigm_InitialDamageModel.cpp 126-150: the damage of one
      bond.  treeList = {0}, xOverlap holds only the neighbour, ptLocalID = -1 (converted to the
      largest size_t, so never equal to 0; modelled by 1). *)
  Definition initial_bond_damage (fs : list filter) (pt neighbor : V3 N) : outcome N :=
    foldM (fun damage f =>
      let? flags := filter_bonds f [O] pt 1%nat [neighbor] [false] in
      let? flag := at_ub flags 0 in
      Ok (if (flag : bool) then 1 else damage)) 0 fs.
End Filter.
Arguments plane : clear implicits.
Arguments filter : clear implicits.

(** "Omit Bonds Between Blocks": filterBonds, Peridigm_ExodusDiscretization.cpp 709-777,
    Peridigm_TextFileDiscretization.cpp 352-421 (the same code), for the command "All".
    [num_blocks] is the size of the bonding matrix, [block] the block number of each point of the
    overlap map, [lists] the neighbours of each owned point (local ids).  The subscripts
    blockID - 1 are not checked.  The flat encoding of the lists is that of C26. *)
Definition bonded (num_blocks : nat) (b1 b2 : Z) : outcome bool :=
  if ((1 <=? b1) && (b1 <=? Z.of_nat num_blocks) && (1 <=? b2) && (b2 <=? Z.of_nat num_blocks))%Z%bool
  then Ok (b1 =? b2)%Z else UB.
Definition omit_between_blocks (num_blocks : nat) (block : list Z) (lists : list (list nat)) : outcome (list (list nat)) :=
  (fix go (i : nat) (l : list (list nat)) : outcome (list (list nat)) :=
     match l with
     | [] => Ok []
     | ns :: l' =>
         let? b1 := at_ub block i in
         let? kept := foldM (fun acc n => let? b2 := at_ub block n in let? ok := bonded num_blocks b1 b2 in
                                          Ok (if (ok : bool) then acc ++ [n] else acc)) [] ns in
         let? rest := go (S i) l' in
         Ok (kept :: rest)
     end) O lists.
