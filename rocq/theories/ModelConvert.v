(** * The mesh converter: a loaded mesh written as a mesh of spheres

    Model of src/mesh_converter/Peridigm_MeshConverter_Main.cpp 133-400 on one processor.  The input is what
    ModelMesh.load_mesh delivers, the result the content of the new file as ModelMesh.load_mesh
    reads it.  The calls of the Exodus library are trusted to store what they are given: blocks
    and node sets in the order of the calls, a node set as the stretch of the concatenated list
    that its offset and size name; ex_put_elem_block refuses a number already used (a negative
    code, on which the program ends).  Not modelled: the neighbourhood file, parameters and
    texts, node numbers and coordinate names (not read back). *)
From Coq Require Import String.
From Verif Require Import Base Num ModelScalar ModelInput ModelGeom ModelMesh.
Local Open Scope string_scope.
Local Open Scope list_scope.

(** std::map: the entries in the order of their names *)
Fixpoint insert_named {A} (e : string * A) (l : list (string * A)) : list (string * A) :=
  match l with
  | [] => [e]
  | f :: l' => match String.compare (fst e) (fst f) with Gt => f :: insert_named e l' | _ => e :: l end
  end.
Definition by_name {A} (l : list (string * A)) : list (string * A) := fold_right insert_named [] l.

(** A name is copied (strcpy, cpp:275-285, 332-339) into MAX_STR_LENGTH + 1 = 33 characters. *)
Definition copy_name (s : string) : outcome string := if (String.length s <=? 32)%nat then Ok s else UB.

Section Convert.
  Context {N : Num}.
  Local Open Scope num_scope.
  (** cbrt of the C library, and DBL_MAX *)
  Variable cbrt : N -> N.
  Variable dbl_max : N.

  Definition smaller (a b : N) : N := if ltb b a then b else a.
  Definition larger (a b : N) : N := if ltb a b then b else a.
  (** cpp:151-167 *)
  Definition least (f : V3 N -> N) (pts : list (mpoint N)) : N := fold_left (fun a p => smaller a (f (mp_x p))) pts dbl_max.
  Definition greatest (f : V3 N -> N) (pts : list (mpoint N)) : N := fold_left (fun a p => larger a (f (mp_x p))) pts (opp dbl_max).

  (** Local numbers of the points that satisfy a test, in order *)
  Definition where_ (test : mpoint N -> bool) (pts : list (mpoint N)) : list Z :=
    map (fun e => Z.of_nat (fst e)) (filter (fun e => test (snd e)) (combine (seq 0 (length pts)) pts)).

  (** cpp:147-210: the additional sets, in the order of their names (they are kept in a std::map) *)
  Definition boundary_sets (th : N) (pts : list (mpoint N)) : list (string * list Z) :=
    let below f p := ltb (f (mp_x p)) (least f pts + th) in
    let above f p := ltb (greatest f pts - th) (f (mp_x p)) in
    [("initial_velocity_node_set", where_ (fun p => negb (above vx p)) pts);
     ("max_x_face", where_ (above vx) pts); ("max_y_face", where_ (above vy) pts); ("max_z_face", where_ (above vz) pts);
     ("min_x_face", where_ (below vx) pts); ("min_y_face", where_ (below vy) pts); ("min_z_face", where_ (below vz) pts)].

  (** cpp:224-262: sizes, offsets and the concatenated list of one-based node numbers *)
  Fixpoint concat_sets (l : list (string * list Z)) (offset : nat) : list (nat * nat) * list Z :=
    match l with
    | [] => ([], [])
    | (_, s) :: l' =>
        let r := concat_sets l' (offset + length s) in
        ((length s, offset) :: fst r, map (fun g => (g + 1)%Z) s ++ snd r)
    end.
  (** ex_put_concat_node_sets, ex_put_names (cpp:262-286): what the file then holds *)
  Definition stored_sets (l : list (string * list Z)) : outcome (list mset) :=
    let r := concat_sets l 0 in
    mapO (fun e => let '((k, (name, _)), (size, offset)) := e in
                   let? n := copy_name name in
                   Ok {| ms_id := Z.of_nat k + 1; ms_name := n; ms_nodes := firstn size (skipn offset (snd r)) |})
         (combine (combine (seq 0 (length l)) l) (fst r)).

  (** One element, cpp:351-360: node number and attributes.  LID is -1 for an unknown number,
      which is then used as a subscript. *)
  Definition sphere (ids : list Z) (pts : list (mpoint N)) (g : Z) : outcome (Z * list N) :=
    match lid ids g with
    | None => UB
    | Some k => let? p := at_ub pts k in Ok ((Z.of_nat k + 1)%Z, [cbrt (mp_volume p); mp_volume p])
    end.
  (** One block, cpp:313-339, 344-366 *)
  Definition sphere_block (ids : list Z) (pts : list (mpoint N)) (e : string * list Z) : outcome (mblock N) :=
    let? id := block_id (fst e) in
    let? n := copy_name (fst e) in
    let? l := mapO (sphere ids pts) (snd e) in
    Ok {| mb_id := id; mb_name := n; mb_type := "SPHERE"; mb_count := length (snd e); mb_npe := 1; mb_nattr := 2;
          mb_conn := map fst l; mb_attr := concat (map snd l) |}.
  Fixpoint distinct (l : list Z) : bool := match l with [] => true | z :: l' => negb (existsb (Z.eqb z) l') && distinct l' end.

  (** main, cpp:133-400: [scale] is Scale Factor, [layer] Boundary Layer Thickness if given *)
  Definition convert (scale : N) (layer : option N) (r : loaded N) : outcome (mesh N) :=
    let extra := match layer with None => [] | Some th => boundary_sets th (lo_points r) end in
    let? sets := stored_sets (by_name (lo_sets r) ++ extra) in
    let blocks := by_name (lo_blocks r) in
    let? bs := mapO (sphere_block (lo_ids r) (lo_points r)) blocks in
    if negb (distinct (map mb_id bs)) then Err
    else if (length blocks <? 1)%nat then Err
    else Ok {| me_coord := map (fun p => vscale scale (mp_x p)) (lo_points r);
               me_elem_map := map (fun g => (g + 1)%Z) (concat (map snd blocks));
               me_aux := []; me_blocks := bs; me_sets := sets |}.
End Convert.
