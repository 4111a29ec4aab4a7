(** * The generator of cylinders

    src/io/mesh_input/quick_grid/QuickGrid.cxx and .h: SpecRing2D, RingHorizon,
    TensorProductCylinderMeshGenerator, and their use in
    src/io/discretization/Peridigm_PdQuickGridDiscretization.cpp.  The code repeats the loops of the
    generator of boxes (ModelGrid); the definitions that do not depend on the generator
    (Horizon, Spec1D, pointers, the records) are taken from there.  The generators of solid
    cylinders and of wedges (not reachable from an input deck) are not modelled. *)
From Verif Require Import Base Num ModelExplicit ModelScalar ModelGrid.

(** RingHorizon::RingHorizonIterator, QuickGrid.h 125-170: start, the next ray, and the rays visited for
    ray [j] (always 2 h + 1 of them); subtractions of size_t that would wrap are UB *)
Definition ring_start (h rays j : nat) : outcome nat :=
  if (h <=? j)%nat then Ok (j - h) else if (h - j <=? rays)%nat then Ok (rays - (h - j)) else UB.
Definition ring_next (rays next : nat) : nat := if (next <? rays - 1)%nat then S next else 0.
Fixpoint ring_visit (count rays next : nat) : list nat :=
  match count with O => [] | S c => next :: ring_visit c rays (ring_next rays next) end.
Definition ring_cells (h : nat) : nat := 2 * h + 1.
Definition ring_rays (h rays j : nat) : outcome (list nat) := let? s := ring_start h rays j in Ok (ring_visit (ring_cells h) rays s).

Section Cylinder.
  Context {N : Num}.
  Local Open Scope num_scope.
  Variable truncate : N -> option nat.

  (** SpecRing2D, QuickGrid.h 193-218, QuickGrid.cxx 414-430 *)
  Record ring := Ring { r_centre : V3 N; r_inner : N; r_outer : N; r_rings : nat; r_rays : nat }.
  Definition magnitude (x : N) : N := if x <? 0 then - x else x.
  Definition make_ring (centre : V3 N) (inner outer : N) (rings : nat) : outcome ring :=
    let thickness := outer - inner in
    let dr := thickness / ofZ (Z.of_nat rings) in
    let radius := (inner + outer) / 2 in
    let dtheta := dr / radius in
    match truncate (2 * pi / dtheta) with
    | None => UB
    | Some n => Ok (Ring centre inner outer rings (n + 1)%nat)
    end.
  (** getRaySpec, getRingSpec *)
  Definition ray_spec (r : ring) : spec1 N := Spec1 (r_rings r) (r_inner r) (magnitude (r_outer r - r_inner r)).
  Definition ring_spec (r : ring) : spec1 N := Spec1 (r_rays r) 0 (2 * pi).

  (** Spec1D::getCellNeighborhoodSize with a radius, QuickGrid.cxx 394-411 *)
  Definition arc_horizon (s : spec1 N) (horizon radius : N) : outcome nat :=
    let dx := cell_size s * radius in
    let dC := horizon / dx in
    match truncate dC with
    | None => UB
    | Some n =>
        let d := dC - ofZ (Z.of_nat n) in
        let n' := if lit 1 2 <=? (if d <? 0 then - d else d) then S n else n in
        Ok (if (cells s <? n')%nat then cells s else n')
    end.

  (** TensorProductCylinderMeshGenerator, QuickGrid.cxx 1320-1368, with the functions cos and sin
      of the C library *)
  Record cylinder := {
    c_cos : N -> N; c_sin : N -> N;
    c_norm : V3 N -> V3 N -> N -> bool;
    c_radius : N;
    c_sr : spec1 N; c_st : spec1 N; c_sz : spec1 N;
    c_hr : nat; c_ht : nat; c_hz : nat;
    c_shares : list nat }.
  Definition make_cylinder (cosine sine : N -> N) (procs : nat) (radius : N) (r : ring) (axis : spec1 N) (norm : V3 N -> V3 N -> N -> bool) : outcome cylinder :=
    let? hz := cell_horizon truncate axis radius in
    let? ht := arc_horizon (ring_spec r) radius ((r_inner r + r_outer r) / 2) in
    let? hr := cell_horizon truncate (ray_spec r) radius in
    let? _ := cell_horizon truncate (ring_spec r) radius in
    let? shares := cells_per_processor (r_rays r * r_rings r * cells axis) procs in
    Ok {| c_cos := cosine; c_sin := sine; c_norm := norm; c_radius := radius; c_sr := ray_spec r; c_st := ring_spec r; c_sz := axis;
          c_hr := hr; c_ht := ht; c_hz := hz; c_shares := shares |}.

  Section WithGenerator.
    Variable g : cylinder.
    Let nx := cells (c_sr g).
    Let ny := cells (c_st g).
    Let nz := cells (c_sz g).
    Let xs := discretization (c_sr g).
    Let ys := discretization (c_st g).
    Let zs := discretization (c_sz g).

    (** computeNumNeighbors, QuickGrid.cxx 1530-1547 *)
    Definition num_neighbors_c (i j k : nat) : nat :=
      hcells (c_hr g) nx i * ring_cells (c_ht g) * hcells (c_hz g) nz k - 1.

    (** getSizeNeighborList, QuickGrid.cxx 1549-1591 *)
    Fixpoint size_i_c (fuel mine i j k : nat) (s : sizing) : sizing :=
      match fuel with
      | O => s
      | S f => if (z_cell s <? mine)%nat
               then size_i_c f mine (S i) j k {| z_i0 := 0; z_j0 := z_j0 s; z_cell := S (z_cell s); z_size := Nat.add (z_size s) (num_neighbors_c i j k) |}
               else s
      end.
    Fixpoint size_j_c (fuel mine j k : nat) (s : sizing) : sizing :=
      match fuel with
      | O => s
      | S f =>
          let s0 := {| z_i0 := z_i0 s; z_j0 := 0; z_cell := z_cell s; z_size := z_size s |} in
          size_j_c f mine (S j) k (size_i_c (Nat.sub nx (z_i0 s0)) mine (z_i0 s0) j k s0)
      end.
    Fixpoint size_k_c (fuel mine k : nat) (s : sizing) : sizing :=
      match fuel with
      | O => s
      | S f => size_k_c f mine (S k) (size_j_c (Nat.sub ny (z_j0 s)) mine (z_j0 s) k s)
      end.
    Definition size_neighbor_list_c (mine : nat) (loc : cell3) : nat :=
      z_size (size_k_c (Nat.sub nz (ck loc)) mine (ck loc) {| z_i0 := ci loc; z_j0 := cj loc; z_cell := 0; z_size := mine |}).

    (** A point, QuickGrid.cxx 1441-1453 and 1475-1482: the centre of the ring is not added. *)
    Definition polar (r theta z : N) : V3 N := v3 (r * c_cos g theta) (r * c_sin g theta) z.

    (** The neighbours of one cell, QuickGrid.cxx 1460-1491 *)
    Definition neighbors_c (i j k : nat) (p : V3 N) : outcome (list nat) :=
      foldM (fun acc kk =>
        let? rays := ring_rays (c_ht g) ny j in
        foldM (fun acc jj =>
          foldM (fun acc ii =>
            if (Nat.eqb ii i && Nat.eqb jj j && Nat.eqb kk k)%bool then Ok acc
            else
              let? r := at_ub xs ii in
              let? theta := at_ub ys jj in
              let? z := at_ub zs kk in
              Ok (if c_norm g (polar r theta z) p (c_radius g) then acc ++ [Nat.add (Nat.add ii (Nat.mul jj nx)) (Nat.mul (Nat.mul kk nx) ny)] else acc))
          acc (seq (hstart (c_hr g) i) (hcells (c_hr g) nx i)))
        acc rays)
      [] (seq (hstart (c_hz g) k) (hcells (c_hz g) nz k)).

    (** computePdGridData, QuickGrid.cxx 1370-1524; the arrays as in ModelGrid *)
    Definition add_cell_c (cap room i j k : nat) (s : building (N:=N)) : outcome (building (N:=N)) :=
      let? r := at_ub xs i in
      let? theta := at_ub ys j in
      let? z := at_ub zs k in
      let volume := r * cell_size (c_sr g) * cell_size (c_st g) * cell_size (c_sz g) in
      if (length (b_ids s) <? cap)%nat then
        let? ns := neighbors_c i j k (polar r theta z) in
        let list' := b_list s ++ length ns :: ns in
        if (length list' <=? room)%nat then
          Ok {| b_i0 := 0; b_j0 := b_j0 s; b_cell := S (b_cell s);
                b_loc := Cell (S (ci (b_loc s))) (cj (b_loc s)) (ck (b_loc s));
                b_ids := b_ids s ++ [Nat.add (Nat.add i (Nat.mul j nx)) (Nat.mul (Nat.mul k nx) ny)];
                b_points := b_points s ++ [polar r theta z];
                b_volumes := b_volumes s ++ [volume];
                b_list := list' |}
        else UB
      else UB.
    Fixpoint build_i_c (fuel cap room mine i j k : nat) (s : building (N:=N)) : outcome (building (N:=N)) :=
      match fuel with
      | O => Ok s
      | S f => if (b_cell s <? mine)%nat
               then let? s' := add_cell_c cap room i j k s in build_i_c f cap room mine (S i) j k s'
               else Ok s
      end.
    (** QuickGrid.cxx 1496-1508 *)
    Definition end_row_c (mine : nat) (s : building (N:=N)) : building (N:=N) :=
      let l := b_loc s in
      let l' :=
        if Nat.eqb (ci l) nx then
          if Nat.eqb (b_cell s) mine then
            if Nat.eqb (S (cj l)) ny then Cell 0 0 (S (ck l)) else Cell 0 (S (cj l)) (ck l)
          else Cell 0 (cj l) (ck l)
        else l in
      {| b_i0 := b_i0 s; b_j0 := b_j0 s; b_cell := b_cell s; b_loc := l';
         b_ids := b_ids s; b_points := b_points s; b_volumes := b_volumes s; b_list := b_list s |}.
    Fixpoint build_j_c (fuel cap room mine j k : nat) (s : building (N:=N)) : outcome (building (N:=N)) :=
      match fuel with
      | O => Ok s
      | S f => if (b_cell s <? mine)%nat
               then let s0 := start_row j s in
                    let? s1 := build_i_c (Nat.sub nx (b_i0 s0)) cap room mine (b_i0 s0) j k s0 in
                    build_j_c f cap room mine (S j) k (end_row_c mine s1)
               else Ok s
      end.
    Fixpoint build_k_c (fuel cap room mine k : nat) (s : building (N:=N)) : outcome (building (N:=N)) :=
      match fuel with
      | O => Ok s
      | S f => if (b_cell s <? mine)%nat
               then let s0 := start_layer k s in
                    let? s1 := build_j_c (Nat.sub ny (b_j0 s0)) cap room mine (b_j0 s0) k s0 in
                    build_k_c f cap room mine (S k) s1
               else Ok s
      end.
    Definition compute_share_c (proc : nat) (loc : cell3) : outcome (cell3 * grid_data N) :=
      let? mine := at_ub (c_shares g) proc in
      let? cap := at_ub (c_shares g) (Nat.sub (length (c_shares g)) 1) in
      let? room := to_int (size_neighbor_list_c mine loc) in
      let? s := build_k_c (Nat.sub nz (ck loc)) cap room mine (ck loc)
                  {| b_i0 := ci loc; b_j0 := cj loc; b_cell := 0; b_loc := loc;
                     b_ids := []; b_points := []; b_volumes := []; b_list := [] |} in
      let? ptr := pointers mine 0 (b_list s) in
      Ok (b_loc s, {| gd_global := Nat.mul (Nat.mul nx ny) nz; gd_num := mine; gd_ids := b_ids s; gd_points := b_points s;
                      gd_volumes := b_volumes s; gd_size := length (b_list s); gd_list := b_list s; gd_ptr := ptr |}).
    (** QuickGrid.cxx 443-455, 1871-1884 *)
    Fixpoint remaining_shares_c (n proc : nat) (loc : cell3) : outcome (list (grid_data N)) :=
      match n with
      | O => Ok []
      | S n' =>
          let? r := compute_share_c proc loc in
          let? rest := remaining_shares_c n' (S proc) (fst r) in
          Ok (snd r :: rest)
      end.
  End WithGenerator.

  (** getDiscretization for TensorProductCylinderMeshGenerator,
      Peridigm_PdQuickGridDiscretization.cpp 186-226, before load balancing.  The conversion to int of the
      number of cells along the axis is UB beyond the range of int. *)
  Definition generate_cylinder (cosine sine : N -> N) (procs : nat) (horizon : N) (inner outer len : N) (rings : nat) (xc yc z0 : N)
      (norm : V3 N -> V3 N -> N -> bool) : outcome (list (grid_data N)) :=
    let? r := make_ring (v3 xc yc 0) inner outer rings in
    let cell := cell_size (ray_spec r) in
    match truncate (len / cell) with
    | None => UB
    | Some n =>
        let? nz := to_int (n + 1)%nat in
        let? g := make_cylinder cosine sine procs horizon r (Spec1 nz z0 len) norm in
        remaining_shares_c g (length (c_shares g)) 0 (Cell 0 0 0)
    end.
End Cylinder.
Arguments ring : clear implicits.
Arguments cylinder : clear implicits.
