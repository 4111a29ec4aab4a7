(** * Model of copying data between states by global id
      (src/core/Peridigm_State.cpp:132-151,208-233, Peridigm_DataManager.cpp:486-511) *)
From Verif Require Import Base.

(** An Epetra_BlockMap on one processor: for each local id the global id and the
    element size. *)
Definition bmap := list (Z * nat).

(** Epetra_BlockMap::LID(GID): local id of a global id, -1 (here [None]) if absent. *)
Fixpoint lid (m : bmap) (gid : Z) : option nat :=
  match m with
  | [] => None
  | (h, _) :: t => if Z.eqb h gid then Some 0 else option_map S (lid t gid)
  end.

(** Epetra_BlockMap::FirstPointInElement(LID). *)
Definition firstPoint (m : bmap) (k : nat) : nat :=
  fold_right Nat.add 0 (map snd (firstn k m)).

Section Copy.
  Variable V : Type.

  (** Epetra_MultiVector: a map and its vectors (each the values of all elements). *)
  Record multivec := MV { mv_map : bmap; mv_vecs : list (list V) }.

  (** Peridigm_State.cpp:228-230: the values of one element. *)
  Definition copyElement (src : list V) (sfirst : nat) (tgt : list V) (tfirst n : nat)
    : outcome (list V) :=
    foldM (fun t i => let? v := at_ub src (sfirst + i) in upd_ub t (tfirst + i) v) tgt (seq 0 n).

  (** Peridigm_State.cpp:218-231: one vector. *)
  Definition copyVector (sm tm : bmap) (src tgt : list V) : outcome (list V) :=
    foldM (fun t k =>
      let? e := at_ub tm k in
      match lid sm (fst e) with
      | None => Err
      | Some sk =>
        let? se := at_ub sm sk in
        if snd se =? snd e
        then copyElement src (firstPoint sm sk) t (firstPoint tm k) (snd e)
        else Err
      end) tgt (seq 0 (length tm)).

  Fixpoint copyVectors (sm tm : bmap) (ss ts : list (list V)) : outcome (list (list V)) :=
    match ss, ts with
    | [], [] => Ok []
    | s :: ss', t :: ts' => let? t' := copyVector sm tm s t in
                            let? r := copyVectors sm tm ss' ts' in Ok (t' :: r)
    | _, _ => UB
    end.

  (** State::copyLocallyOwnedMultiVectorData, Peridigm_State.cpp:208-233. *)
  Definition copyMultiVector (src tgt : multivec) : outcome multivec :=
    if length (mv_vecs src) =? length (mv_vecs tgt)
    then let? vs := copyVectors (mv_map src) (mv_map tgt) (mv_vecs src) (mv_vecs tgt) in
         Ok (MV (mv_map tgt) vs)
    else Err.

  (** A State as far as the copy sees it: its nine point multivectors (by dimension)
      and the bond multivector, [None] for a null pointer. *)
  Record cstate := CState { c_points : list (option multivec); c_bond : option multivec }.

  (** Peridigm_State.cpp:139-143,146-150. *)
  Definition copyOpt (src tgt : option multivec) : outcome (option multivec) :=
    match tgt with
    | None => Ok None
    | Some t => match src with
                | None => Err
                | Some s => let? r := copyMultiVector s t in Ok (Some r)
                end
    end.

  Fixpoint copyPoints (ss ts : list (option multivec)) : outcome (list (option multivec)) :=
    match ss, ts with
    | _, [] => Ok []
    | s :: ss', t :: ts' => let? t' := copyOpt s t in
                            let? r := copyPoints ss' ts' in Ok (t' :: r)
    | [], _ :: _ => UB
    end.

  (** State::copyLocallyOwnedDataFromState, Peridigm_State.cpp:132-151. *)
  Definition copyState (src tgt : cstate) : outcome cstate :=
    let? ps := copyPoints (c_points src) (c_points tgt) in
    let? b := copyOpt (c_bond src) (c_bond tgt) in
    Ok (CState ps b).

  (** One of the three paragraphs of copyLocallyOwnedDataFromDataManager. *)
  Definition copyStateOpt (src tgt : option cstate) : outcome (option cstate) :=
    match tgt, src with
    | Some t, Some s => let? r := copyState s t in Ok (Some r)
    | None, None => Ok None
    | _, _ => Err
    end.

  (** DataManager::copyLocallyOwnedDataFromDataManager, Peridigm_DataManager.cpp:486-511,
      on the triple (stateNONE, stateN, stateNP1). *)
  Definition copyManager (src tgt : option cstate * option cstate * option cstate)
    : outcome (option cstate * option cstate * option cstate) :=
    let '(s0, s1, s2) := src in
    let '(t0, t1, t2) := tgt in
    let? r0 := copyStateOpt s0 t0 in
    let? r1 := copyStateOpt s1 t1 in
    let? r2 := copyStateOpt s2 t2 in
    Ok (r0, r1, r2).
End Copy.
Arguments MV {V}. Arguments mv_map {V}. Arguments mv_vecs {V}. Arguments copyVector {V}.
Arguments copyElement {V}. Arguments copyVectors {V}. Arguments copyMultiVector {V}.
Arguments copyState {V}. Arguments copyOpt {V}. Arguments copyPoints {V}. Arguments CState {V}.
Arguments c_points {V}. Arguments c_bond {V}. Arguments copyManager {V}. Arguments copyStateOpt {V}.
