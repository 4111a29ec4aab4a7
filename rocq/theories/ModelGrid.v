(** * The tensor product mesh generator

    src/io/mesh_input/quick_grid/QuickGrid.cxx and .h: Spec1D, Horizon,
    QuickGridMeshGenerationIterator, TensorProduct3DMeshGenerator.  The generators for rings
    and cylinders are not modelled.  A value that does not fit an int is a distinct outcome
    (UB) wherever the code converts a size to int. *)
From Coq Require Import SpecFloat.
From Verif Require Import Base Num ModelExplicit ModelScalar.

Definition int_max : Z := 2147483647.

(** Conversion of a size to int (QuickGrid.cxx 460-461, 543) *)
Definition to_int (n : nat) : outcome nat := if (Z.of_nat n <=? int_max)%Z then Ok n else UB.

(** Horizon, QuickGrid.h 95-121 *)
Definition hstart (horizon i : nat) : nat := if (horizon <? i)%nat then i - horizon else 0.
Definition hend (horizon nx i : nat) : nat := if (i <? nx - horizon)%nat then i + horizon + 1 else nx.
Definition hcells (horizon nx i : nat) : nat := hend horizon nx i - hstart horizon i.

(** Cell3D, QuickGrid.h 220-224 *)
Record cell3 := Cell { ci : nat; cj : nat; ck : nat }.

(** QuickGridMeshGenerationIterator::getNumCellsPerProcessor, QuickGrid.cxx 457-465; division by
    zero and subscript -1 for no processors *)
Definition cells_per_processor (global procs : nat) : outcome (list nat) :=
  match procs with
  | O => UB
  | S p =>
      let? n := to_int (global / procs) in
      let? last := to_int (n + global mod procs) in
      Ok (repeat n p ++ [last])
  end.

Section Grid.
  Context {N : Num}.
  Local Open Scope num_scope.

  (** static_cast<size_t>(double): toward zero; None if the value does not fit (undefined) *)
  Variable truncate : N -> option nat.

  (** Spec1D, QuickGrid.h 171-187 *)
  Record spec1 := Spec1 { cells : nat; x_start : N; x_length : N }.
  Definition cell_size (s : spec1) : N := x_length s / ofZ (Z.of_nat (cells s)).

  (** getDiscretization(const Spec1D&), QuickGrid.cxx 243-253 *)
  Definition discretization (s : spec1) : list N :=
    (fix go (n : nat) (p : N) : list N :=
       match n with O => [] | S n' => p :: go n' (p + cell_size s) end)
    (cells s) (x_start s + cell_size s / 2).

  (** Spec1D::getCellNeighborhoodSize with ringRadius = 1, QuickGrid.cxx 394-411 *)
  Definition cell_horizon (s : spec1) (horizon : N) : outcome nat :=
    let dx := cell_size s * 1 in
    let dC := horizon / dx in
    match truncate dC with
    | None => UB
    | Some n =>
        let d := dC - ofZ (Z.of_nat n) in
        let n' := if lit 1 2 <=? (if d <? 0 then - d else d) then S n else n in
        Ok (if (cells s <? n')%nat then cells s else n')
    end.

  (** SphericalNormFunction and NoOpNormFunction, QuickGrid.cxx 157-167 *)
  Definition spherical (u v : V3 N) (r : N) : bool :=
    let dx := vx v - vx u in
    let dy := vy v - vy u in
    let dz := vz v - vz u in
    (dx * dx + dy * dy + dz * dz) - r * r <? 0.
  Definition everywhere (u v : V3 N) (r : N) : bool := true.

  (** TensorProduct3DMeshGenerator, QuickGrid.cxx 470-497 *)
  Record generator := {
    g_norm : V3 N -> V3 N -> N -> bool;
    g_radius : N;
    g_sx : spec1; g_sy : spec1; g_sz : spec1;
    g_hx : nat; g_hy : nat; g_hz : nat;
    g_shares : list nat }.
  Definition make_generator (procs : nat) (radius : N) (sx sy sz : spec1) (norm : V3 N -> V3 N -> N -> bool) : outcome generator :=
    let? hx := cell_horizon sx radius in
    let? hy := cell_horizon sy radius in
    let? hz := cell_horizon sz radius in
    let? shares := cells_per_processor (cells sx * cells sy * cells sz) procs in
    Ok {| g_norm := norm; g_radius := radius; g_sx := sx; g_sy := sy; g_sz := sz;
          g_hx := hx; g_hy := hy; g_hz := hz; g_shares := shares |}.

  Section WithGenerator.
    Variable g : generator.
    Let nx := cells (g_sx g).
    Let ny := cells (g_sy g).
    Let nz := cells (g_sz g).
    Let xs := discretization (g_sx g).
    Let ys := discretization (g_sy g).
    Let zs := discretization (g_sz g).

    (** computeNumNeighbors, QuickGrid.cxx 693-710; the subtraction never wraps because every count is positive *)
    Definition num_neighbors (i j k : nat) : nat :=
      hcells (g_hx g) nx i * hcells (g_hy g) ny j * hcells (g_hz g) nz k - 1.

    (** getSizeNeighborList, QuickGrid.cxx 649-691.  State: iStart, jStart, cell, size. *)
    Record sizing := { z_i0 : nat; z_j0 : nat; z_cell : nat; z_size : nat }.
    Fixpoint size_i (fuel mine i j k : nat) (s : sizing) : sizing :=
      match fuel with
      | O => s
      | S f => if (z_cell s <? mine)%nat
               then size_i f mine (S i) j k {| z_i0 := 0; z_j0 := z_j0 s; z_cell := S (z_cell s); z_size := Nat.add (z_size s) (num_neighbors i j k) |}
               else s
      end.
    Fixpoint size_j (fuel mine j k : nat) (s : sizing) : sizing :=
      match fuel with
      | O => s
      | S f =>
          let s0 := {| z_i0 := z_i0 s; z_j0 := 0; z_cell := z_cell s; z_size := z_size s |} in
          size_j f mine (S j) k (size_i (Nat.sub nx (z_i0 s0)) mine (z_i0 s0) j k s0)
      end.
    Fixpoint size_k (fuel mine k : nat) (s : sizing) : sizing :=
      match fuel with
      | O => s
      | S f => size_k f mine (S k) (size_j (Nat.sub ny (z_j0 s)) mine (z_j0 s) k s)
      end.
    Definition size_neighbor_list (mine : nat) (loc : cell3) : nat :=
      z_size (size_k (Nat.sub nz (ck loc)) mine (ck loc) {| z_i0 := ci loc; z_j0 := cj loc; z_cell := 0; z_size := mine |}).

    (** The neighbours of one cell, QuickGrid.cxx 583-610: the norm is called with the neighbour first. *)
    Definition neighbors (i j k : nat) (p : V3 N) : outcome (list nat) :=
      foldM (fun acc kk =>
        foldM (fun acc jj =>
          foldM (fun acc ii =>
            if (Nat.eqb ii i && Nat.eqb jj j && Nat.eqb kk k)%bool then Ok acc
            else
              let? x := at_ub xs ii in
              let? y := at_ub ys jj in
              let? z := at_ub zs kk in
              Ok (if g_norm g (v3 x y z) p (g_radius g) then acc ++ [Nat.add (Nat.add ii (Nat.mul jj nx)) (Nat.mul (Nat.mul kk nx) ny)] else acc))
          acc (seq (hstart (g_hx g) i) (hcells (g_hx g) nx i)))
        acc (seq (hstart (g_hy g) j) (hcells (g_hy g) ny j)))
      [] (seq (hstart (g_hz g) k) (hcells (g_hz g) nz k)).

    (** computePdGridData, QuickGrid.cxx 510-647.  State: iStart, jStart, cell, cellLocator, the
        arrays written so far.  [cap] is the size of the arrays for the points (allocatePdGridData),
        [room] that of the neighbour list; a write beyond is UB.  The number of neighbours of a cell
        is stored after its neighbours are; the writes of one cell are checked together. *)
    Record building := {
      b_i0 : nat; b_j0 : nat; b_cell : nat; b_loc : cell3;
      b_ids : list nat; b_points : list (V3 N); b_volumes : list N; b_list : list nat }.
    Definition add_cell (cap room i j k : nat) (s : building) : outcome building :=
      let volume := cell_size (g_sx g) * cell_size (g_sy g) * cell_size (g_sz g) in
      let? x := at_ub xs i in
      let? y := at_ub ys j in
      let? z := at_ub zs k in
      if (length (b_ids s) <? cap)%nat then
        let? ns := neighbors i j k (v3 x y z) in
        let list' := b_list s ++ length ns :: ns in
        if (length list' <=? room)%nat then
          Ok {| b_i0 := 0; b_j0 := b_j0 s; b_cell := S (b_cell s);
                b_loc := Cell (S (ci (b_loc s))) (cj (b_loc s)) (ck (b_loc s));
                b_ids := b_ids s ++ [Nat.add (Nat.add i (Nat.mul j nx)) (Nat.mul (Nat.mul k nx) ny)];
                b_points := b_points s ++ [v3 x y z];
                b_volumes := b_volumes s ++ [volume];
                b_list := list' |}
        else UB
      else UB.
    Fixpoint build_i (fuel cap room mine i j k : nat) (s : building) : outcome building :=
      match fuel with
      | O => Ok s
      | S f => if (b_cell s <? mine)%nat
               then let? s' := add_cell cap room i j k s in build_i f cap room mine (S i) j k s'
               else Ok s
      end.
    (** QuickGrid.cxx 565-568 and 617-628 *)
    Definition start_row (j : nat) (s : building) : building :=
      {| b_i0 := b_i0 s; b_j0 := 0; b_cell := b_cell s; b_loc := Cell (ci (b_loc s)) j (ck (b_loc s));
         b_ids := b_ids s; b_points := b_points s; b_volumes := b_volumes s; b_list := b_list s |}.
    Definition end_row (mine : nat) (s : building) : building :=
      let l := b_loc s in
      let l' :=
        if Nat.eqb (ci l) nx then
          if Nat.eqb (b_cell s) mine then
            if Nat.eqb (S (cj l)) ny then Cell 0 0 (S (ck l)) else Cell 0 (S (cj l)) (ck l)
          else Cell 0 (cj l) (ck l)
        else l in
      {| b_i0 := b_i0 s; b_j0 := b_j0 s; b_cell := b_cell s; b_loc := l';
         b_ids := b_ids s; b_points := b_points s; b_volumes := b_volumes s; b_list := b_list s |}.
    Fixpoint build_j (fuel cap room mine j k : nat) (s : building) : outcome building :=
      match fuel with
      | O => Ok s
      | S f => if (b_cell s <? mine)%nat
               then let s0 := start_row j s in
                    let? s1 := build_i (Nat.sub nx (b_i0 s0)) cap room mine (b_i0 s0) j k s0 in
                    build_j f cap room mine (S j) k (end_row mine s1)
               else Ok s
      end.
    (** QuickGrid.cxx 556-562 *)
    Definition start_layer (k : nat) (s : building) : building :=
      {| b_i0 := b_i0 s; b_j0 := b_j0 s; b_cell := b_cell s; b_loc := Cell (ci (b_loc s)) (cj (b_loc s)) k;
         b_ids := b_ids s; b_points := b_points s; b_volumes := b_volumes s; b_list := b_list s |}.
    Fixpoint build_k (fuel cap room mine k : nat) (s : building) : outcome building :=
      match fuel with
      | O => Ok s
      | S f => if (b_cell s <? mine)%nat
               then let s0 := start_layer k s in
                    let? s1 := build_j (Nat.sub ny (b_j0 s0)) cap room mine (b_j0 s0) k s0 in
                    build_k f cap room mine (S k) s1
               else Ok s
      end.

    (** neighborhoodPtr, QuickGrid.cxx 633-643 *)
    Fixpoint pointers (n sum : nat) (l : list nat) : outcome (list nat) :=
      match n with
      | O => Ok []
      | S n' =>
          let? count := at_ub l 0 in
          let? rest := pointers n' (Nat.add sum (S count)) (skipn (S count) l) in
          Ok (sum :: rest)
      end.

    (** QuickGridData, QuickGridData.h *)
    Record grid_data := {
      gd_global : nat; gd_num : nat; gd_ids : list nat; gd_points : list (V3 N); gd_volumes : list N;
      gd_size : nat; gd_list : list nat; gd_ptr : list nat }.
    Definition compute_share (proc : nat) (loc : cell3) : outcome (cell3 * grid_data) :=
      let? mine := at_ub (g_shares g) proc in
      let? cap := at_ub (g_shares g) (Nat.sub (length (g_shares g)) 1) in
      let? room := to_int (size_neighbor_list mine loc) in
      let? s := build_k (Nat.sub nz (ck loc)) cap room mine (ck loc)
                  {| b_i0 := ci loc; b_j0 := cj loc; b_cell := 0; b_loc := loc;
                     b_ids := []; b_points := []; b_volumes := []; b_list := [] |} in
      let? ptr := pointers mine 0 (b_list s) in
      Ok (b_loc s, {| gd_global := Nat.mul (Nat.mul nx ny) nz; gd_num := mine; gd_ids := b_ids s; gd_points := b_points s;
                      gd_volumes := b_volumes s; gd_size := length (b_list s); gd_list := b_list s; gd_ptr := ptr |}).

    (** beginIterateProcs, nextProc, hasNextProc as used by processor 0: QuickGrid.cxx 443-455, 1871-1882 *)
    Fixpoint remaining_shares (n proc : nat) (loc : cell3) : outcome (list grid_data) :=
      match n with
      | O => Ok []
      | S n' =>
          let? r := compute_share proc loc in
          let? rest := remaining_shares n' (S proc) (fst r) in
          Ok (snd r :: rest)
      end.
    Definition all_shares : outcome (list grid_data) := remaining_shares (length (g_shares g)) 0 (Cell 0 0 0).
  End WithGenerator.

  Definition generate (procs : nat) (radius : N) (sx sy sz : spec1) (norm : V3 N -> V3 N -> N -> bool) : outcome (list grid_data) :=
    let? g := make_generator procs radius sx sy sz norm in all_shares g.
End Grid.
Arguments spec1 : clear implicits.
Arguments generator : clear implicits.
Arguments grid_data : clear implicits.
