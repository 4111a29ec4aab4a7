(** * Model of the per-block data manager and its states
      (src/core/Peridigm_DataManager.{hpp,cpp}, src/core/Peridigm_State.{hpp,cpp}) *)
From Verif Require Import Base ModelField.

(** PeridigmField::Step, Peridigm_Field.hpp:96-102. *)
Inductive step := STEP_NONE | STEP_N | STEP_NP1.

Definition step_eqb (a b : step) : bool :=
  match a, b with
  | STEP_NONE, STEP_NONE | STEP_N, STEP_N | STEP_NP1, STEP_NP1 => true
  | _, _ => false
  end.

Section Data.
  (** Contents of one Epetra_Vector (all entries of one field on one processor). *)
  Variable Vec : Type.
  (** The zero-filled vector a field is allocated with (Epetra constructors zero by
      default); it depends on the maps of the block and on the field. *)
  Variable zero_vec : nat -> nat -> Vec.

  (** State: the member fieldIdToDataVector, indexed by field id, [None] being a null
      RCP (Peridigm_State.hpp:154-160).  Simplification: the redundant
      fieldIdToDataMap holds the same handles and is not represented; the grouping of
      the vectors into multivectors is not represented. *)
  Definition state := list (option Vec).

  (** The members of one DataManager that matter here (Peridigm_DataManager.hpp:195-255).
      [None] is a null RCP<State>. *)
  Record manager := Mgr {
    lessPoint : list (nat * flength);   (* statelessPointFieldIds *)
    fulPoint : list (nat * flength);    (* statefulPointFieldIds *)
    lessBond : list nat;                (* statelessBondFieldIds *)
    fulBond : list nat;                 (* statefulBondFieldIds *)
    sNONE : option state;
    sN : option state;
    sNP1 : option state
  }.
  Definition new_manager : manager := Mgr [] [] [] [] None None None.

  (** All data managers of the process together with the static members of the class
      (Peridigm_DataManager.hpp:199-245): the ids of the allocated global fields, those
      of them that are stateful, and the global data by field id and step.
      Simplification: the scalar and vector arrays ...GlobalDataStateN/NP1 are
      represented by the list of stateful ids. *)
  Record world := World {
    allGlobal : list nat;
    fulGlobal : list nat;
    globalData : nat -> step -> option Vec;
    mgrs : list manager
  }.
  Definition initial_world (n : nat) : world :=
    World [] [] (fun _ _ => None) (repeat new_manager n).

  Definition memb (i : nat) (l : list nat) : bool := existsb (Nat.eqb i) l.

  (** Classification of the ids, Peridigm_DataManager.cpp:80-147. *)
  Record sorted_ids := Ids {
    i_lessGlobal : list nat; i_fulGlobal : list nat;
    i_lessBond : list nat; i_fulBond : list nat;
    i_lessPoint : list (nat * flength); i_fulPoint : list (nat * flength)
  }.

  Definition classify (g : registry) (allG : list nat) (a : sorted_ids) (fid : nat)
    : outcome sorted_ids :=
    let '(Ids lg fg lb fb lp fp) := a in
    let? s := getFieldSpec g (Z.of_nat fid) in
    let r := fs_req s in
    match rq_rel r with
    | GLOBAL =>
      if memb fid allG then Ok a
      else match rq_len r, rq_tmp r with
           | SCALAR, CONSTANT | VECTOR, CONSTANT => Ok (Ids (lg ++ [fid]) fg lb fb lp fp)
           | SCALAR, TWO_STEP | VECTOR, TWO_STEP => Ok (Ids lg (fg ++ [fid]) lb fb lp fp)
           | _, _ => Err
           end
    | BOND =>
      match rq_len r, rq_tmp r with
      | SCALAR, CONSTANT => Ok (Ids lg fg (lb ++ [fid]) fb lp fp)
      | SCALAR, TWO_STEP => Ok (Ids lg fg lb (fb ++ [fid]) lp fp)
      | _, _ => Err
      end
    | NODE | ELEMENT =>
      match rq_tmp r with
      | CONSTANT => Ok (Ids lg fg lb fb (lp ++ [(fid, rq_len r)]) fp)
      | TWO_STEP => Ok (Ids lg fg lb fb lp (fp ++ [(fid, rq_len r)]))
      | _ => Err
      end
    | UNDEFINED_RELATION => Ok a
    end.

  (** State::allocatePointData called once per length (Peridigm_State.cpp:57-79): a
      length without dimension is an error, and so are two lengths of equal dimension. *)
  Fixpoint lengths_ok (l : list (nat * flength)) : bool :=
    match l with
    | [] => true
    | (_, a) :: t =>
      match variableDimension a with
      | Ok d => forallb (fun p => if flength_eq_dec (snd p) a then true
                                  else match variableDimension (snd p) with
                                       | Ok d' => negb (d' =? d) | _ => true end) t
                && lengths_ok t
      | _ => false
      end
    end.

  (** The fieldIdToDataVector that allocatePointData and allocateBondData build
      (Peridigm_State.cpp:63-67,75-78,86-90,96-99): sized by the largest id. *)
  Definition build_state (m : nat) (ids : list nat) : state :=
    map (fun i => if memb i ids then Some (zero_vec m i) else None)
        (seq 0 (S (list_max ids))).

  (** Peridigm_DataManager.cpp:227-273. *)
  Definition make_state (m : nat) (pts : list (nat * flength)) (bonds : list nat)
    : outcome (option state) :=
    match pts, bonds with
    | [], [] => Ok None
    | _, _ => if lengths_ok pts then Ok (Some (build_state m (map fst pts ++ bonds))) else Err
    end.

  Fixpoint update_nth {A} (l : list A) (i : nat) (f : A -> A) : list A :=
    match l, i with
    | [], _ => []
    | h :: t, O => f h :: t
    | h :: t, S j => h :: update_nth t j f
    end.

  (** DataManager::allocateData, Peridigm_DataManager.cpp:67-274, on manager [m].
      Simplifications: setMaps has been called before; sorting the ids is omitted since
      only the set of ids matters; all four global loops are one map update.  A state
      that exists already is replaced only if there are fields of its kind, as in the
      code. *)
  Definition allocateData (g : registry) (w : world) (m : nat) (fids : list nat)
    : outcome world :=
    let? a := foldM (classify g (allGlobal w)) (Ids [] [] [] [] [] [])
                    (nodup Nat.eq_dec fids) in
    let? mg := at_ub (mgrs w) m in
    let lp := lessPoint mg ++ i_lessPoint a in
    let fp := fulPoint mg ++ i_fulPoint a in
    let lb := lessBond mg ++ i_lessBond a in
    let fb := fulBond mg ++ i_fulBond a in
    let? none := make_state m lp lb in
    let? n := make_state m fp fb in
    let keep old new := match new with Some s => Some s | None => old end in
    let mg' := Mgr lp fp lb fb (keep (sNONE mg) none) (keep (sN mg) n) (keep (sNP1 mg) n) in
    let gd f s :=
      match s with
      | STEP_NONE => if memb f (i_lessGlobal a) then Some (zero_vec m f) else globalData w f s
      | STEP_N | STEP_NP1 =>
        if memb f (i_fulGlobal a) then Some (zero_vec m f) else globalData w f s
      end in
    Ok (World (allGlobal w ++ i_lessGlobal a ++ i_fulGlobal a)
              (fulGlobal w ++ i_fulGlobal a) gd
              (update_nth (mgrs w) m (fun _ => mg'))).

  (** State::getData, Peridigm_State.cpp:123-130: unchecked subscript. *)
  Definition stateGet (s : option state) (f : nat) : outcome (option Vec) :=
    match s with
    | None => UB                      (* dereference of a null RCP *)
    | Some v => at_ub v f
    end.

  Definition pick (mg : manager) (s : step) : option state :=
    match s with STEP_NONE => sNONE mg | STEP_N => sN mg | STEP_NP1 => sNP1 mg end.

  (** DataManager::getData, Peridigm_DataManager.cpp:541-573. *)
  Definition getData (g : registry) (w : world) (m f : nat) (s : step) : outcome Vec :=
    let? glob := isGlobalSpec g f in
    let? d := if glob then Ok (globalData w f s)
              else let? mg := at_ub (mgrs w) m in stateGet (pick mg s) f in
    match d with Some v => Ok v | None => Err end.

  Definition set_state (st : option state) (f : nat) (v : Vec) : option state :=
    match st with Some l => Some (update_nth l f (fun _ => Some v)) | None => None end.

  (** A caller overwrites the contents of the vector it got from getData. *)
  Definition setData (g : registry) (w : world) (m f : nat) (s : step) (v : Vec) : outcome world :=
    let? _ := getData g w m f s in
    let? glob := isGlobalSpec g f in
    if glob then
      Ok (World (allGlobal w) (fulGlobal w)
                (fun f' s' => if (f' =? f) && step_eqb s' s then Some v else globalData w f' s')
                (mgrs w))
    else
      Ok (World (allGlobal w) (fulGlobal w) (globalData w)
           (update_nth (mgrs w) m (fun mg =>
              Mgr (lessPoint mg) (fulPoint mg) (lessBond mg) (fulBond mg)
                  (if step_eqb s STEP_NONE then set_state (sNONE mg) f v else sNONE mg)
                  (if step_eqb s STEP_N then set_state (sN mg) f v else sN mg)
                  (if step_eqb s STEP_NP1 then set_state (sNP1 mg) f v else sNP1 mg)))).

  (** DataManager::updateState, Peridigm_DataManager.hpp:159-175: the stateful global
      data are copied from N+1 to N, the states of this manager are swapped. *)
  Definition updateState (w : world) (m : nat) : world :=
    World (allGlobal w) (fulGlobal w)
          (fun f s => if step_eqb s STEP_N && memb f (fulGlobal w)
                      then globalData w f STEP_NP1 else globalData w f s)
          (update_nth (mgrs w) m (fun mg =>
             Mgr (lessPoint mg) (fulPoint mg) (lessBond mg) (fulBond mg)
                 (sNONE mg) (sNP1 mg) (sN mg))).

  (** A process using its data managers. *)
  Inductive op :=
  | Alloc (m : nat) (fids : list nat)
  | Write (m f : nat) (s : step) (v : Vec)
  | Update (m : nat).

  Definition do_op (g : registry) (w : world) (o : op) : outcome world :=
    match o with
    | Alloc m fids => allocateData g w m fids
    | Write m f s v => setData g w m f s v
    | Update m => Ok (updateState w m)
    end.

  Definition do_ops (g : registry) (w : world) (h : list op) : outcome world :=
    foldM (do_op g) w h.

  (** State::hasData, Peridigm_State.cpp:116-121, on the model's state. *)
  Definition stateHas (s : state) (f : nat) : bool :=
    match nth_error s f with Some (Some _) => true | _ => false end.

  (** DataManager::hasData, Peridigm_DataManager.cpp:513-539. *)
  Definition hasData (w : world) (m f : nat) (s : step) : outcome bool :=
    let? mg := at_ub (mgrs w) m in
    match pick mg s with
    | None => UB
    | Some st => Ok (stateHas st f || match globalData w f s with Some _ => true | None => false end)
    end.

  (** State::getFieldIds called with explicit relation and length, and its default
      arguments UNDEFINED_RELATION, UNDEFINED_LENGTH (Peridigm_State.cpp:102-114,
      Peridigm_State.hpp:113-115). *)
  Definition stateFieldIds (g : registry) (s : state) (rel : relation) (len : flength)
    : outcome (list nat) :=
    foldM (fun acc f =>
             if stateHas s f then
               let? sp := getFieldSpec g (Z.of_nat f) in
               if flength_eq_dec (rq_len (fs_req sp)) len
               then if relation_eq_dec (rq_rel (fs_req sp)) rel then Ok (acc ++ [f]) else Ok acc
               else Ok acc
             else Ok acc) [] (seq 0 (length s)).
  Definition stateFieldIdsDefault (g : registry) (s : state) : outcome (list nat) :=
    stateFieldIds g s UNDEFINED_RELATION UNDEFINED_LENGTH.
End Data.
Arguments World {Vec}. Arguments Mgr {Vec}. Arguments Alloc {Vec}. Arguments Write {Vec}.
Arguments Update {Vec}. Arguments mgrs {Vec}. Arguments globalData {Vec}.
Arguments fulGlobal {Vec}. Arguments allGlobal {Vec}. Arguments getData {Vec}.
Arguments setData {Vec}. Arguments updateState {Vec}. Arguments allocateData {Vec}.
Arguments do_op {Vec}. Arguments do_ops {Vec}. Arguments initial_world {Vec}.
Arguments hasData {Vec}. Arguments stateFieldIds {Vec}. Arguments stateFieldIdsDefault {Vec}.
Arguments stateGet {Vec}. Arguments pick {Vec}. Arguments sN {Vec}. Arguments sNP1 {Vec}.
Arguments sNONE {Vec}. Arguments set_state {Vec}. Arguments stateHas {Vec}.
Arguments lessPoint {Vec}. Arguments fulPoint {Vec}. Arguments lessBond {Vec}. Arguments fulBond {Vec}.
Arguments make_state {Vec}. Arguments build_state {Vec}. Arguments new_manager {Vec}.
