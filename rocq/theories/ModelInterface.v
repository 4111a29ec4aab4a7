(** * Interfaces between elements, and the file of their apertures

    Models of constructInterfaceData (src/io/discretization/Peridigm_ExodusDiscretization.cpp
    592-681) and of src/core/Peridigm_InterfaceData.cpp, on one processor.  The calls to the
    Exodus library that write the file, and the conversion of the written values to float,
    are left out: the content handed to the library is the result. *)
From Verif Require Import Base Num ModelScalar ModelMesh.

(** The faces of a hexahedron, Peridigm_ExodusDiscretization.cpp:599 *)
Definition faces : list (list nat) :=
  [[4; 5; 6; 7]; [7; 6; 2; 3]; [0; 4; 7; 3]; [0; 1; 2; 3]; [0; 4; 5; 1]; [1; 5; 6; 2]].

(** Epetra_BlockMap::GID *)
Definition gid_at (gids : list Z) (i : nat) : Z := match nth_error gids i with Some g => g | None => (-1)%Z end.

(** The vector exodusMeshElementConnectivity: [conn] lists the nodes of every local element; the
    vector is the concatenation, FirstPointInElement the start of an element, ElementSize the
    length of its list (cpp:615-616, 628). *)
Definition first_point (conn : list (list Z)) (l : nat) : nat := list_sum (map (@length Z) (firstn l conn)).
(** cpp:618-621, 634-635: the first [n] entries from the start of element [l] on *)
Definition read_nodes (conn : list (list Z)) (l n : nat) : outcome (list Z) :=
  mapO (fun k => at_ub (concat conn) (first_point conn l + k)) (seq 0 n).

(** An interface: leftElements, rightElements, numNodes, interfaceNodesVec *)
Record iface := { if_left : Z; if_right : Z; if_count : nat; if_nodes : list Z }.

(** cpp:639-646: how often a node of the face equals a node of the neighbour *)
Definition matches (face neigh : list Z) : nat :=
  list_sum (map (fun a => length (filter (Z.eqb a) neigh)) face).

(** cpp:637-659: hexahedra.  [rec] is the condition of cpp:650. *)
Fixpoint hex_interface (rec : bool) (self neigh : list Z) (fs : list (list nat)) : outcome (option (nat * list Z)) :=
  match fs with
  | [] => Ok None
  | f :: fs' =>
      let? ids := mapO (at_ub self) f in
      let n := matches ids neigh in
      if ((2 <? n)%nat && rec)%bool then Ok (Some (n, ids)) else hex_interface rec self neigh fs'
  end.

(** cpp:660-674: all other elements.  foundNodeIds has room for four nodes. *)
Definition other_interface (rec : bool) (self neigh : list Z) : outcome (option (nat * list Z)) :=
  let? r := foldM (fun s a => foldM (fun s b =>
              let '(n, found) := s in
              if Z.eqb a b then let? found' := upd_ub found n a in Ok (S n, found') else Ok (n, found)) s neigh)
            (O, [0; 0; 0; 0]%Z) self in
  Ok (if ((2 <? fst r)%nat && rec)%bool then Some r else None).

(** cpp:624-675: one neighbour.  The neighbour is read with the number of nodes of the element
    itself. *)
Definition one_pair (conn : list (list Z)) (overlap : list Z) (selfGID : Z) (self : list Z) (j : nat) : outcome (list iface) :=
  let g := gid_at overlap j in
  let? neigh := read_nodes conn j (length self) in
  let rec := ((negb (g =? -1) && (selfGID <? g)) || (selfGID <? g))%Z%bool in
  let? r := if (length self =? 8)%nat then hex_interface rec self neigh faces else other_interface rec self neigh in
  Ok (match r with Some (n, nodes) => [{| if_left := selfGID; if_right := g; if_count := n; if_nodes := nodes |}] | None => [] end).

(** cpp:622-675: the neighbours listed from [idx] on *)
Fixpoint row_interfaces (conn : list (list Z)) (overlap : list Z) (selfGID : Z) (self : list Z) (flat : list nat) (n idx : nat) : outcome (list iface) :=
  match n with
  | O => Ok []
  | S n' =>
      let? j := at_ub flat idx in
      let? a := one_pair conn overlap selfGID self j in
      let? r := row_interfaces conn overlap selfGID self flat n' (idx + 1) in
      Ok (a ++ r)
  end.

(** cpp:609-677: the loop over the neighbourhood list; every turn advances in the list, so
    [fuel] equal to its length is enough. *)
Fixpoint interfaces_from (conn : list (list Z)) (owned overlap : list Z) (flat : list nat) (fuel idx elem : nat) : outcome (list iface) :=
  if (length flat <=? idx)%nat then Ok []
  else match fuel with
  | O => UB
  | S k =>
      let? n := at_ub flat idx in
      let? nodes := at_ub conn elem in
      let? self := read_nodes conn elem (length nodes) in
      let? row := row_interfaces conn overlap (gid_at owned elem) self flat n (idx + 1) in
      let? r := interfaces_from conn owned overlap flat k (idx + 1 + n) (elem + 1) in
      Ok (row ++ r)
  end.
Definition construct_interfaces (conn : list (list Z)) (owned overlap : list Z) (flat : list nat) : outcome (list iface) :=
  interfaces_from conn owned overlap flat (length flat) 0 0.

(** InterfaceData::Initialize, Peridigm_InterfaceData.cpp:91-98: the first [if_count] nodes *)
Definition stored_nodes (f : iface) : outcome (list Z) := mapO (at_ub (if_nodes f)) (seq 0 (if_count f)).

(** InitializeExodusOutput, Peridigm_InterfaceData.cpp:145-152, 215-247: the connectivity of the
    block of quadrilaterals and of the block of triangles, as one-based local node numbers, and
    the numbers of the elements of the file (cpp:175-177: those of the interfaces, in order) *)
Definition local_node (node_ids : list Z) (g : Z) : Z :=
  match lid node_ids g with Some k => (Z.of_nat k + 1)%Z | None => 0%Z end.
Definition shell_blocks (node_ids : list Z) (fs : list iface) : outcome (list (list Z) * list (list Z) * list nat) :=
  let? l := mapO stored_nodes fs in
  let of_size k := filter (fun ns => length ns =? k)%nat l in
  if (length (of_size 4) + length (of_size 3) =? length l)%nat
  then Ok (map (map (local_node node_ids)) (of_size 4), map (map (local_node node_ids)) (of_size 3), seq 1 (length fs))
  else Err.

Section Aperture.
  Context {N : Num}.
  Local Open Scope num_scope.

  (** Peridigm_InterfaceData.cpp:347-380: length in the current minus length in the reference
      configuration of the line between the two elements; [x], [y] are the coordinates by
      element number *)
  Definition distance (p q : V3 N) : N :=
    let dx := vx q - vx p in let dy := vy q - vy p in let dz := vz q - vz p in
    sqr_root (dx * dx + dy * dy + dz * dz).
  Definition aperture (x y : Z -> V3 N) (f : iface) : N :=
    distance (y (if_left f)) (y (if_right f)) - distance (x (if_left f)) (x (if_right f)).

  (** The values of the interfaces with [k] nodes, Peridigm_InterfaceData.cpp:295-309 *)
  Definition of_size (k : nat) (fs : list iface) (a : list N) : list N :=
    map snd (filter (fun fa => (if_count (fst fa) =? k)%nat) (combine fs a)).

  (** WriteExodusOutput, Peridigm_InterfaceData.cpp:275-386: the values written for the
      quadrilaterals and for the triangles, and the values kept for the next call *)
  Definition write_apertures (fs : list iface) (a : list N) (xy : (Z -> V3 N) * (Z -> V3 N))
    : outcome (list N * (list N * list N)) :=
    if forallb (fun f => (if_count f =? 4)%nat || (if_count f =? 3)%nat) fs
    then Ok (map (aperture (fst xy) (snd xy)) fs, (of_size 4 fs a, of_size 3 fs a))
    else Err.
  (** A run: Initialize sets the values to zero (cpp:82-84), then one call per output. *)
  Fixpoint write_all (fs : list iface) (a : list N) (h : list ((Z -> V3 N) * (Z -> V3 N))) : outcome (list (list N * list N)) :=
    match h with
    | [] => Ok []
    | xy :: h' => let? r := write_apertures fs a xy in let? rest := write_all fs (fst r) h' in Ok (snd r :: rest)
    end.
  Definition aperture_history (fs : list iface) (h : list ((Z -> V3 N) * (Z -> V3 N))) : outcome (list (list N * list N)) :=
    write_all fs (map (fun _ => 0) fs) h.
End Aperture.
