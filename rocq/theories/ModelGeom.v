(** * Element geometry: volumes, centroids, intersection with a sphere

    src/io/discretization/Peridigm_GeometryUtils.cpp and .hpp.  Node coordinates are
    passed as points instead of pointers into an array of doubles, so the index
    arithmetic on the coordinate array is not modelled; the error messages of
    TEUCHOS_TEST_FOR_TERMINATION are not modelled (the call is [Err]). *)
From Verif Require Import Base Num.

Section Geom.
  Context {N : Num}.
  Local Open Scope num_scope.

  (** Four or eight nodes in the order of the coordinate array
      (GeometryUtils.cpp 58-61, 74-81, 603-606, 680-687). *)
  Record tetra := tet { t0 : V3 N; t1 : V3 N; t2 : V3 N; t3 : V3 N }.
  Record hexa := hex { h0 : V3 N; h1 : V3 N; h2 : V3 N; h3 : V3 N; h4 : V3 N; h5 : V3 N; h6 : V3 N; h7 : V3 N }.

  (** scalarTripleProduct, GeometryUtils.cpp 911-919 *)
  Definition triple (a b c : V3 N) : N :=
    vx a * (vy b * vz c - vz b * vy c) + vy a * (vz b * vx c - vx b * vz c) + vz a * (vx b * vy c - vy b * vx c).

  (** tetVolume, GeometryUtils.cpp 375-392 (the wrapper at 366-373 only repackages pointers) *)
  Definition tet_volume (p : tetra) : outcome N :=
    let a := vsub (t1 p) (t0 p) in
    let b := vsub (t2 p) (t0 p) in
    let c := vsub (t3 p) (t0 p) in
    let volume := triple a b c / ofZ 6 in
    if volume <? 0 then Err else Ok volume.

  (** tetCentroid, GeometryUtils.cpp 358-364 *)
  Definition tet_centroid (p : tetra) : V3 N :=
    v3 ((vx (t0 p) + vx (t1 p) + vx (t2 p) + vx (t3 p)) * lit 1 4)
       ((vy (t0 p) + vy (t1 p) + vy (t2 p) + vy (t3 p)) * lit 1 4)
       ((vz (t0 p) + vz (t1 p) + vz (t2 p) + vz (t3 p)) * lit 1 4).

  (** tetCentroidAndVolume, GeometryUtils.cpp 52-67 *)
  Definition tet_centroid_and_volume (p : tetra) : outcome (V3 N * N) :=
    let? v := tet_volume p in Ok (tet_centroid p, v).

  (** Barycentre of a face, GeometryUtils.cpp 87-103, 693-709: 0.25*(a+b+c+d) per component *)
  Definition face_centre (a b c d : V3 N) : V3 N :=
    v3 (lit 1 4 * (vx a + vx b + vx c + vx d))
       (lit 1 4 * (vy a + vy b + vy c + vy d))
       (lit 1 4 * (vz a + vz b + vz c + vz d)).

  (** The six face barycentres and the barycentre of the hexahedron, GeometryUtils.cpp 83-107, 689-710 *)
  Definition f0 (h : hexa) := face_centre (h0 h) (h1 h) (h4 h) (h5 h).
  Definition f1 (h : hexa) := face_centre (h1 h) (h2 h) (h5 h) (h6 h).
  Definition f2 (h : hexa) := face_centre (h2 h) (h3 h) (h6 h) (h7 h).
  Definition f3 (h : hexa) := face_centre (h0 h) (h3 h) (h4 h) (h7 h).
  Definition f4 (h : hexa) := face_centre (h0 h) (h1 h) (h2 h) (h3 h).
  Definition f5 (h : hexa) := face_centre (h4 h) (h5 h) (h6 h) (h7 h).
  Definition hex_centre (h : hexa) : V3 N :=
    v3 (lit 1 2 * (vx (f4 h) + vx (f5 h))) (lit 1 2 * (vy (f4 h) + vy (f5 h))) (lit 1 2 * (vz (f4 h) + vz (f5 h))).

  (** The 24 triangles on the faces, in the order of GeometryUtils.cpp 117-332 (first three
      nodes of each tetrahedron) and again of 712-834. *)
  Definition hex_triangles (h : hexa) : list (V3 N * V3 N * V3 N) :=
    [ (h1 h, h0 h, f0 h); (h5 h, h1 h, f0 h); (h4 h, h5 h, f0 h); (h0 h, h4 h, f0 h);
      (h2 h, h1 h, f1 h); (h6 h, h2 h, f1 h); (h5 h, h6 h, f1 h); (h1 h, h5 h, f1 h);
      (h3 h, h2 h, f2 h); (h7 h, h3 h, f2 h); (h6 h, h7 h, f2 h); (h2 h, h6 h, f2 h);
      (h0 h, h3 h, f3 h); (h3 h, h7 h, f3 h); (h7 h, h4 h, f3 h); (h4 h, h0 h, f3 h);
      (h0 h, h1 h, f4 h); (h1 h, h2 h, f4 h); (h2 h, h3 h, f4 h); (h3 h, h0 h, f4 h);
      (h5 h, h4 h, f5 h); (h4 h, h7 h, f5 h); (h7 h, h6 h, f5 h); (h6 h, h5 h, f5 h) ].

  (** One of the 24 repeated code blocks of hexCentroidAndVolume, e.g. GeometryUtils.cpp 117-125 *)
  Definition hex_add (c : V3 N) (acc : V3 N * N) (t : V3 N * V3 N * V3 N) : outcome (V3 N * N) :=
    let '(p, q, r) := t in
    let e := tet p q r c in
    let? v := tet_volume e in
    let m := tet_centroid e in
    Ok (v3 (vx (fst acc) + vx m * v) (vy (fst acc) + vy m * v) (vz (fst acc) + vz m * v), snd acc + v).

  (** hexCentroidAndVolume, GeometryUtils.cpp 69-339, with a centroid requested *)
  Definition hex_centroid_and_volume (h : hexa) : outcome (V3 N * N) :=
    let? (m, volume) := foldM (hex_add (hex_centre h)) (v3 0 0 0, 0) (hex_triangles h) in
    Ok (v3 (vx m / volume) (vy m / volume) (vz m / volume), volume).

  (** hexVolume, GeometryUtils.cpp 341-356: hexCentroidAndVolume with a null centroid, which
      skips exactly the statements that compute the centroid. *)
  Definition hex_volume (h : hexa) : outcome N :=
    foldM (fun volume t => let '(p, q, r) := t in let? v := tet_volume (tet p q r (hex_centre h)) in Ok (volume + v))
      0 (hex_triangles h).

  (** enum SphereIntersection, GeometryUtils.hpp 55 *)
  Inductive sphere := INSIDE | INTERSECTS | OUTSIDE.

  (** The separation test of one edge, GeometryUtils.cpp 511-532 (edge AB, opposite node C),
      534-550 (BC, A), 552-568 (CA, B): u, v are the ends of the edge, w is the opposite node. *)
  Definition edge_separates (rr : N) (u v w : V3 N) : bool :=
    let uv := vsub v u in
    let up := vsub (v3 0 0 0) u in
    let t := vdot up uv / vdot uv uv in
    let q := v3 (vx u + t * vx uv) (vy u + t * vy uv) (vz u + t * vz uv) in
    let qp := vsub (v3 0 0 0) q in
    let qw := vsub w q in
    ((rr <? vdot qp qp) && (vdot qp qw <? 0))%bool.

  (** if(b) numWithinSphere += 1, GeometryUtils.cpp 431-436 *)
  Definition one_if (b : bool) : nat := if b then 1%nat else 0%nat.

  (** triangleSphereIntersection, GeometryUtils.cpp 394-572 *)
  Definition triangle_sphere (p q r : V3 N) (centre : V3 N) (radius : N) : sphere :=
    let a := vsub p centre in
    let b := vsub q centre in
    let c := vsub r centre in
    let rr := radius * radius in
    let aa := vdot a a in
    let bb := vdot b b in
    let cc := vdot c c in
    let inside := Nat.add (Nat.add (one_if (aa <? rr)) (one_if (bb <? rr))) (one_if (cc <? rr)) in
    if (Nat.eqb inside 1 || Nat.eqb inside 2)%bool then INTERSECTS
    else if Nat.eqb inside 3 then INSIDE
    else
      let n := vcross (vsub b a) (vsub c a) in
      let d := vdot a n in
      let e := vdot n n in
      if rr <? d * d / e then OUTSIDE
      else
        let ab := vdot a b in
        let ac := vdot a c in
        let bc := vdot b c in
        if ((aa <? ab) && (aa <? ac))%bool then OUTSIDE
        else if ((bb <? ab) && (bb <? bc))%bool then OUTSIDE
        else if ((cc <? ac) && (cc <? bc))%bool then OUTSIDE
        else if edge_separates rr a b c then OUTSIDE
        else if edge_separates rr b c a then OUTSIDE
        else if edge_separates rr c a b then OUTSIDE
        else INTERSECTS.

  (** Squared distance as in GeometryUtils.cpp 583-586, 657-660 *)
  Definition dist2 (p c : V3 N) : N :=
    (vx p - vx c) * (vx p - vx c) + (vy p - vy c) * (vy p - vy c) + (vz p - vz c) * (vz p - vz c).

  (** Number of nodes within the sphere, GeometryUtils.cpp 578-589, 652-663 *)
  Definition nodes_inside (l : list (V3 N)) (centre : V3 N) (radius : N) : nat :=
    length (filter (fun p => dist2 p centre <? radius * radius) l).

  (** The loop over the triangles of the surface, GeometryUtils.cpp 598-645, 672-851 *)
  Fixpoint surface_sphere (l : list (V3 N * V3 N * V3 N)) (centre : V3 N) (radius : N) (all_inside all_outside : bool) : outcome sphere :=
    match l with
    | [] => if (all_inside && all_outside)%bool then Err
            else if (negb all_inside && negb all_outside)%bool then Err
            else if all_outside then Ok OUTSIDE else Ok INSIDE
    | (p, q, r) :: l' =>
        match triangle_sphere p q r centre radius with
        | INTERSECTS => Ok INTERSECTS
        | INSIDE => surface_sphere l' centre radius all_inside false
        | OUTSIDE => surface_sphere l' centre radius false all_outside
        end
    end.

  (** The faces of a tetrahedron, GeometryUtils.cpp 608-629 *)
  Definition tet_triangles (p : tetra) : list (V3 N * V3 N * V3 N) :=
    [ (t0 p, t1 p, t2 p); (t0 p, t1 p, t3 p); (t0 p, t2 p, t3 p); (t1 p, t2 p, t3 p) ].

  Definition tet_nodes (p : tetra) := [t0 p; t1 p; t2 p; t3 p].
  Definition hex_nodes (h : hexa) := [h0 h; h1 h; h2 h; h3 h; h4 h; h5 h; h6 h; h7 h].

  (** tetrahedronSphereIntersection, GeometryUtils.cpp 574-646 *)
  Definition tet_sphere (p : tetra) (centre : V3 N) (radius : N) : outcome sphere :=
    let k := nodes_inside (tet_nodes p) centre radius in
    if (k =? 4)%nat then Ok INSIDE
    else if (0 <? k)%nat then Ok INTERSECTS
    else surface_sphere (tet_triangles p) centre radius true true.

  (** hexahedronSphereIntersection, GeometryUtils.cpp 648-852 *)
  Definition hex_sphere (h : hexa) (centre : V3 N) (radius : N) : outcome sphere :=
    let k := nodes_inside (hex_nodes h) centre radius in
    if (k =? 8)%nat then Ok INSIDE
    else if (0 <? k)%nat then Ok INTERSECTS
    else surface_sphere (hex_triangles h) centre radius true true.

  (** maxDistanceToNode, GeometryUtils.cpp 921-936 *)
  Definition max_distance (nodes : list (V3 N)) (point : V3 N) : N :=
    sqr_root (fold_left (fun m p => let d := dist2 p point in if m <? d then d else m) nodes 0).
End Geom.
Arguments tetra : clear implicits.
Arguments hexa : clear implicits.
