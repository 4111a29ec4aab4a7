(** * The file written by Bond_Visualization

    Model of src/compute/Peridigm_Compute_Bond_Visualization.cpp:54-205 on one processor.
    The file is a list of lines, a line a list of words, integers and numbers; the decimal
    representation of the numbers (six digits) is left out. *)
From Coq Require Import String ZArith.
From Verif Require Import Base Num ModelScalar.

Section Vtk.
  Context {N : Num}.
  Local Open Scope num_scope.

  (** One block: global ids of the overlap points, their reference coordinates (both in the
      order of the overlap map), the number of owned points and the neighbourhood list. *)
  Record vblock := VBlock { vb_gids : list Z; vb_x : list (V3 N); vb_owned : nat; vb_flat : list nat }.

  Inductive token := Word (s : string) | Int (z : Z) | Dbl (x : N).

  (** std::map with [at]; the newest entry comes first *)
  Fixpoint map_at {A} (m : list (Z * A)) (g : Z) : outcome A :=
    match m with
    | [] => Err
    | (h, a) :: m' => if Z.eqb h g then Ok a else map_at m' g
    end.

  (** cpp:97-112 *)
  Definition coordinates (bs : list vblock) : outcome (list (Z * V3 N)) :=
    foldM (fun m b =>
             foldM (fun m ig => let? x := at_ub (vb_x b) (fst ig) in Ok ((snd ig, x) :: m))
                   m (combine (seq 0 (length (vb_gids b))) (vb_gids b))) [] bs.

  (** Epetra_BlockMap::GID: IndexBase - 1 for an index out of range *)
  Definition gid (gids : list Z) (i : nat) : Z := match nth_error gids i with Some g => g | None => (-1)%Z end.

  (** cpp:124-129; [node] is the parameter "Node Id" *)
  Definition store_data (node : option Z) (g : Z) : bool :=
    match node with None => true | Some k => Z.eqb g (k - 1) end.

  (** cpp:132-140: the [n] neighbours listed from [idx] on *)
  Fixpoint bond_row (gids : list Z) (flat : list nat) (n idx : nat) (g : Z) : outcome (list (Z * Z)) :=
    match n with
    | O => Ok []
    | S n' =>
        let? j := at_ub flat idx in
        let? r := bond_row gids flat n' (idx + 1) g in
        Ok ((g, gid gids j) :: r)
    end.
  (** cpp:121-141: the owned points from [i] on *)
  Fixpoint bond_rows (node : option Z) (gids : list Z) (flat : list nat) (numOwned i idx : nat) : outcome (list (Z * Z)) :=
    match numOwned with
    | O => Ok []
    | S k =>
        let? n := at_ub flat idx in
        let? row := bond_row gids flat n (idx + 1) (gid gids i) in
        let? r := bond_rows node gids flat k (i + 1) (idx + 1 + n) in
        Ok ((if store_data node (gid gids i) then row else []) ++ r)
    end.
  (** cpp:115-143 *)
  Definition connectivity (node : option Z) (bs : list vblock) : outcome (list (Z * Z)) :=
    let? l := mapO (fun b => bond_rows node (vb_gids b) (vb_flat b) (vb_owned b) 0 0) bs in Ok (concat l).

  (** std::set<int>::insert *)
  Fixpoint set_insert (g : Z) (s : list Z) : list Z :=
    match s with
    | [] => [g]
    | h :: s' => if (g <? h)%Z then g :: s else if (h <? g)%Z then h :: set_insert g s' else s
    end.
  (** cpp:137-138, 145-147 (the sort finds the ids sorted) *)
  Definition node_ids (conn : list (Z * Z)) : list Z :=
    fold_left (fun s ab => set_insert (snd ab) (set_insert (fst ab) s)) conn [].

  (** cpp:180-187: globalIdToVtkId *)
  Definition vtk_ids (ids : list Z) : list (Z * nat) :=
    fold_left (fun m ig => (snd ig, fst ig) :: m) (combine (seq 0 (length ids)) ids) [].

  Local Open Scope string_scope.
  Local Open Scope list_scope.
  (** writeVTK, cpp:156-205 *)
  Definition write_vtk (ids : list Z) (coords : list (Z * V3 N)) (conn : list (Z * Z)) : outcome (list (list token)) :=
    let? pts := mapO (map_at coords) ids in
    let? cells := mapO (fun ab => let? i := map_at (vtk_ids ids) (fst ab) in
                                  let? j := map_at (vtk_ids ids) (snd ab) in Ok (i, j)) conn in
    let size := Z.of_nat (length conn) in
    Ok ([ [Word "#"; Word "vtk"; Word "DataFile"; Word "Version"; Word "3.0"];
          [Word "This"; Word "file"; Word "was"; Word "generated"; Word "by"; Word "the"; Word "Peridigm";
           Word "Bond"; Word "Visualization"; Word "Compute"; Word "Class"];
          [Word "ASCII"];
          [Word "DATASET"; Word "UNSTRUCTURED_GRID"];
          [Word "POINTS"; Int (Z.of_nat (length ids)); Word "float"] ]
        ++ map (fun x => [Dbl (vx x); Dbl (vy x); Dbl (vz x)]) pts
        ++ [ [Word "CELLS"; Int size; Int (3 * size)] ]
        ++ map (fun ij => [Int 2; Int (Z.of_nat (fst ij)); Int (Z.of_nat (snd ij))]) cells
        ++ [ [Word "CELL_TYPES"; Int size] ]
        ++ map (fun _ => [Int 3]) conn).

  (** initialize, cpp:87-150 *)
  Definition bond_file (node : option Z) (bs : list vblock) : outcome (list (list token)) :=
    let? coords := coordinates bs in
    let? conn := connectivity node bs in
    write_vtk (node_ids conn) coords conn.
End Vtk.
Arguments vblock N : clear implicits.
Arguments token N : clear implicits.
