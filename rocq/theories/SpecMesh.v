(** * What a user expects of a mesh that was read: every element became one point (C70) *)
From Coq Require Import String.
From Verif Require Import Base Num ModelInput ModelGeom ModelMesh.
Local Open Scope string_scope.
Local Open Scope list_scope.

Section Spec.
  Context {N : Num}.
  (** Node [k] of element [i] of the block is node number [c] (one-based) of the file ... *)
  Definition has_node (b : mblock N) (i k : nat) (c : Z) : Prop :=
    k < mb_npe b /\ nth_error (mb_conn b) (i * mb_npe b + k) = Some c.
  (** ... and lies at [p]. *)
  Definition corner (m : mesh N) (b : mblock N) (i k : nat) (p : V3 N) : Prop :=
    exists c, has_node b i k c /\ (1 <= c)%Z /\ nth_error (me_coord m) (Z.to_nat (c - 1)) = Some p.

  (** Element [i] of block [b] is the [e]-th element of the file, counted through the blocks. *)
  Definition elements_in (bs : list (mblock N)) : nat := list_sum (map mb_count bs).
  Definition is_element (m : mesh N) (e : nat) (b : mblock N) (i : nat) : Prop :=
    exists l1 l2, me_blocks m = l1 ++ b :: l2 /\ i < mb_count b /\ e = elements_in l1 + i.

  (** The element numbers of the file (one-based): those of the auxiliary map if there is one. *)
  Definition numbers (m : mesh N) : list Z := match me_aux m with [] => me_elem_map m | (_, l) :: _ => l end.
  Definition zero_based (l : list Z) : list Z := map (fun z => (z - 1)%Z) l.

  (** Accepted names of element types; upper and lower case are not distinguished. *)
  Definition names_of (t : etype) : list string :=
    match t with
    | Sphere => ["SPHERE"]
    | Tetrahedron => ["TET"; "TETRA"; "TET4"; "TET10"]
    | Hexahedron => ["HEX"; "HEX8"; "HEX20"]
    end.
  Definition of_type (b : mblock N) (t : etype) : Prop := In (to_upper (mb_type b)) (names_of t).
  Definition corners_used (t : etype) : nat := match t with Sphere => 1 | Tetrahedron => 4 | Hexahedron => 8 end.

  (** The point made of an element: a sphere is taken as it is (its volume is the second
      attribute); a tetrahedron or hexahedron is replaced by its centroid and volume (see C44 for
      what these are), computed from the corners; further nodes are ignored. *)
  Definition point_of (m : mesh N) (t : etype) (b : mblock N) (i : nat) (x : V3 N) (v : N) : Prop :=
    match t with
    | Sphere => corner m b i 0 x /\ nth_error (mb_attr b) (i * mb_nattr b + 1) = Some v
    | Tetrahedron => exists p q r s, corner m b i 0 p /\ corner m b i 1 q /\ corner m b i 2 r /\ corner m b i 3 s /\
                       tet_centroid_and_volume (tet p q r s) = Ok (x, v)
    | Hexahedron => exists p q r s p' q' r' s',
        corner m b i 0 p /\ corner m b i 1 q /\ corner m b i 2 r /\ corner m b i 3 s /\
        corner m b i 4 p' /\ corner m b i 5 q' /\ corner m b i 6 r' /\ corner m b i 7 s' /\
        hex_centroid_and_volume (hex p q r s p' q' r' s') = Ok (x, v)
    end.

  (** A well-formed file: all node numbers exist, every element has a number of its own, elements
      have the nodes and attributes that their type needs. *)
  Definition in_file (m : mesh N) (c : Z) : Prop := (1 <= c <= Z.of_nat (length (me_coord m)))%Z.
  Definition block_wf (m : mesh N) (b : mblock N) : Prop :=
    length (mb_conn b) = mb_count b * mb_npe b /\ Forall (in_file m) (mb_conn b) /\
    forall t, of_type b t -> corners_used t <= mb_npe b /\
      (t = Sphere -> 2 <= mb_nattr b /\ length (mb_attr b) = mb_count b * mb_nattr b).
  Definition mesh_wf (m : mesh N) : Prop :=
    NoDup (numbers m) /\ length (numbers m) = elements_in (me_blocks m) /\
    Forall (block_wf m) (me_blocks m) /\ Forall (fun s => Forall (in_file m) (ms_nodes s)) (me_sets m).

  (** What the code can read: known element types, one auxiliary map with the expected name at
      most, no repeated names, no inverted element. *)
  Definition readable (m : mesh N) : Prop :=
    (me_aux m = [] \/ exists l, me_aux m = [("original_global_id_map", l)]) /\
    NoDup (map block_name (me_blocks m)) /\ NoDup (map set_name (me_sets m)) /\
    forall e b i, is_element m e b i -> exists t x v, of_type b t /\ point_of m t b i x v.
End Spec.
