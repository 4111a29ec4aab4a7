(** * Reading a genesis mesh and turning its elements into points

    Model of src/io/discretization/Peridigm_ExodusDiscretization.cpp 209-588 (loadData) on one processor.  The calls to the Exodus library are trusted to deliver the
    content of the file, which is the argument; the error codes of that library, the file
    name, the warnings and the verbose text are not modelled. *)
From Coq Require Import String DecimalString.
From Verif Require Import Base Num ModelScalar ModelInput ModelGeom.
Local Open Scope string_scope.
Local Open Scope list_scope.

Section Mesh.
  Context {N : Num}.
  Local Open Scope num_scope.

  (** What ex_get_name, ex_get_elem_block, ex_get_elem_conn and ex_get_elem_attr deliver for a
      block (cpp:349-394).  The connectivity holds [mb_npe] one-based node numbers per element. *)
  Record mblock := { mb_id : Z; mb_name : string; mb_type : string; mb_count : nat; mb_npe : nat; mb_nattr : nat;
                     mb_conn : list Z; mb_attr : list N }.
  (** ex_get_name, ex_get_node_set (cpp:529-541, 549-553): one-based node numbers *)
  Record mset := { ms_id : Z; ms_name : string; ms_nodes : list Z }.
  (** The file: coordinates (cpp:252-255), element numbers (cpp:264-269), auxiliary element maps
      (cpp:271-297), blocks, node sets.  The node numbers are used only for the stored mesh. *)
  Record mesh := { me_coord : list (V3 N); me_elem_map : list Z; me_aux : list (string * list Z);
                   me_blocks : list mblock; me_sets : list mset }.

  (** One point: the entries of blockID, cellVolume and initialX, kept together here
      (the code has three vectors with the same index). *)
  Record mpoint := { mp_block : Z; mp_volume : N; mp_x : V3 N }.
  Definition mpoint0 : mpoint := {| mp_block := 0; mp_volume := 0; mp_x := vzero |}.

  (** stringstream << int *)
  Definition show_int (z : Z) : string := NilZero.string_of_int (Z.to_int z).
  (** cpp:349-360, 533-540: the given name, or one made from the number *)
  Definition name_or (given prefix : string) (id : Z) : string :=
    if String.eqb given "" then (prefix ++ show_int id)%string else given.
  Definition block_name (b : mblock) : string := name_or (mb_name b) "block_" (mb_id b).
  Definition set_name (s : mset) : string := name_or (ms_name s) "nodelist_" (ms_id s).

  (** Subscript with an int *)
  Definition at_z {A} (l : list A) (i : Z) : outcome A := if (i <? 0)%Z then UB else at_ub l (Z.to_nat i).

  (** cpp:264-269, 282-297: zero-based element numbers, those of the auxiliary map if there is one *)
  Definition element_ids (m : mesh) : outcome (list Z) :=
    match me_aux m with
    | [] => Ok (map (fun i => (i - 1)%Z) (me_elem_map m))
    | [(name, aux)] =>
        if String.eqb name "original_global_id_map" then Ok (map (fun i => (i - 1)%Z) aux) else Err
    | _ => Err
    end.

  (** cpp:374-385 *)
  Inductive etype := Sphere | Tetrahedron | Hexahedron.
  Definition element_type (s : string) : outcome etype :=
    let u := to_upper s in
    let is (t : string) := String.eqb u t in
    if is "SPHERE" then Ok Sphere
    else if is "TET" || is "TETRA" || is "TET4" || is "TET10" then Ok Tetrahedron
    else if is "HEX" || is "HEX8" || is "HEX20" then Ok Hexahedron
    else Err.

  (** cpp:400-406: the coordinates of the nodes of element [i] of the block *)
  Definition node_coordinates (coord : list (V3 N)) (b : mblock) (i : nat) : outcome (list (V3 N)) :=
    mapO (fun k => let? c := at_ub (mb_conn b) (i * mb_npe b + k) in at_z coord (c - 1)%Z) (seq 0 (mb_npe b)).

  (** cpp:411-448: position and volume.  The coordinate array has mb_npe entries. *)
  Definition element_point (t : etype) (b : mblock) (i : nat) (x : list (V3 N)) : outcome (V3 N * N) :=
    match t with
    | Sphere =>
        let? p := at_ub x 0 in
        let? v := at_ub (mb_attr b) (i * mb_nattr b + 1) in
        Ok (p, v)
    | Tetrahedron =>
        let? a := at_ub x 0 in let? b := at_ub x 1 in let? c := at_ub x 2 in let? d := at_ub x 3 in
        tet_centroid_and_volume (tet a b c d)
    | Hexahedron =>
        let? a := at_ub x 0 in let? b := at_ub x 1 in let? c := at_ub x 2 in let? d := at_ub x 3 in
        let? e := at_ub x 4 in let? f := at_ub x 5 in let? g := at_ub x 6 in let? h := at_ub x 7 in
        hex_centroid_and_volume (hex a b c d e f g h)
    end.

  (** Epetra_BlockMap::LID on a list of distinct numbers (for repeated numbers the first) *)
  Fixpoint lid (ids : list Z) (g : Z) : option nat :=
    match ids with
    | [] => None
    | h :: t => if (h =? g)%Z then Some O else match lid t g with Some k => Some (S k) | None => None end
    end.

  (** The loop state: the points, the element blocks so far (names to element numbers, in file
      order; the code keeps a std::map), localElemId. *)
  Record lstate := { ls_points : list mpoint; ls_local : nat }.

  (** One element, cpp:398-456.  Returns also the global number pushed on the block list. *)
  Definition load_element (coord : list (V3 N)) (ids : list Z) (t : etype) (b : mblock) (s : lstate * list Z) (i : nat)
    : outcome (lstate * list Z) :=
    let '(st, members) := s in
    let? x := node_coordinates coord b i in
    let? g := at_ub ids (ls_local st) in
    let? pv := element_point t b i x in
    match lid ids g with
    | None => UB
    | Some k =>
        let? pts := upd_ub (ls_points st) k {| mp_block := mb_id b; mp_volume := snd pv; mp_x := fst pv |} in
        Ok ({| ls_points := pts; ls_local := S (ls_local st) |}, members ++ [g])
    end.

  (** One block, cpp:345-458.  The element type is examined only if the block has elements.
      (ex_get_elem_attr fills the attributes of sphere blocks only; the others are not read.) *)
  Definition load_block (coord : list (V3 N)) (ids : list Z) (s : lstate * list (string * list Z)) (b : mblock)
    : outcome (lstate * list (string * list Z)) :=
    let '(st, blocks) := s in
    if existsb (fun e => String.eqb (fst e) (block_name b)) blocks then Err
    else if (mb_count b =? 0)%nat then Ok (st, blocks ++ [(block_name b, [])])
    else
      let? t := element_type (mb_type b) in
      let? r := foldM (load_element coord ids t b) (st, []) (seq 0 (mb_count b)) in
      Ok (fst r, blocks ++ [(block_name b, snd r)]).

  (** cpp:500-520: for each node the local numbers of the elements it belongs to *)
  Definition note_nodes (b : mblock) (s : list (list nat) * nat) (i : nat) : outcome (list (list nat) * nat) :=
    let '(tbl, local) := s in
    let? tbl' := foldM (fun tbl k =>
      let? c := at_ub (mb_conn b) (i * mb_npe b + k) in
      if (c <? 1)%Z then UB
      else let? row := at_ub tbl (Z.to_nat (c - 1)) in upd_ub tbl (Z.to_nat (c - 1)) (row ++ [local])) tbl (seq 0 (mb_npe b)) in
    Ok (tbl', S local).
  Definition elements_of_nodes (m : mesh) : outcome (list (list nat)) :=
    let? r := foldM (fun s b => foldM (note_nodes b) s (seq 0 (mb_count b))) (repeat [] (length (me_coord m)), O) (me_blocks m) in
    Ok (fst r).

  (** cpp:527-544: all sets are named first *)
  Definition name_sets (ss : list mset) : outcome (list (string * Z)) :=
    foldM (fun acc s => if existsb (fun e => String.eqb (fst e) (set_name s)) acc then Err
                        else Ok (acc ++ [(set_name s, ms_id s)])) [] ss.
  (** cpp:545-569: the elements that contain a node of the set, each once.  GID of the local
      number is the element number.  (The sets are filled in the order of their names; they are
      independent of one another, so the order of the file is used here.) *)
  Definition fill_set (ids : list Z) (tbl : list (list nat)) (s : mset) : outcome (list Z) :=
    foldM (fun acc c =>
      let? row := at_z tbl (c - 1)%Z in
      foldM (fun acc k => let? g := at_ub ids k in
                          Ok (if existsb (Z.eqb g) acc then acc else acc ++ [g])) acc row) [] (ms_nodes s).

  Record loaded := { lo_ids : list Z; lo_points : list mpoint; lo_blocks : list (string * list Z);
                     lo_sets : list (string * list Z); lo_set_ids : list (string * Z) }.
  (** loadData, cpp:209-588 *)
  Definition load_mesh (m : mesh) : outcome loaded :=
    let? ids := element_ids m in
    let? r := foldM (load_block (me_coord m) ids) ({| ls_points := repeat mpoint0 (length ids); ls_local := O |}, []) (me_blocks m) in
    let? tbl := elements_of_nodes m in
    let? names := name_sets (me_sets m) in
    let? sets := mapO (fun s => let? l := fill_set ids tbl s in Ok (set_name s, l)) (me_sets m) in
    Ok {| lo_ids := ids; lo_points := ls_points (fst r); lo_blocks := snd r; lo_sets := sets; lo_set_ids := names |}.
End Mesh.
Arguments mblock : clear implicits. Arguments mesh : clear implicits. Arguments mpoint : clear implicits.
Arguments loaded : clear implicits. Arguments lstate : clear implicits.
