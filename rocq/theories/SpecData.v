(** * What one step of history means

    The reference is a pair of boxes per field.  A write goes into the box of its
    step.  An update of a point or bond field exchanges the two boxes; an update of a
    global field copies the N+1 box into the N box. *)
From Verif Require Import Base ModelField ModelData.

Record boxes (V : Type) := Boxes { at_N : V; at_NP1 : V }.
Arguments Boxes {V}. Arguments at_N {V}. Arguments at_NP1 {V}.

(** Effect of an operation on the boxes of the point or bond field [f] of manager [m]. *)
Definition local_effect {V} (m f : nat) (b : boxes V) (o : op V) : boxes V :=
  match o with
  | Write m' f' STEP_N v => if (m' =? m) && (f' =? f) then Boxes v (at_NP1 b) else b
  | Write m' f' STEP_NP1 v => if (m' =? m) && (f' =? f) then Boxes (at_N b) v else b
  | Write _ _ STEP_NONE _ => b
  | Update m' => if m' =? m then Boxes (at_NP1 b) (at_N b) else b
  | Alloc _ _ => b
  end.

(** Effect on the boxes of the global field [f], which all managers share. *)
Definition global_effect {V} (f : nat) (b : boxes V) (o : op V) : boxes V :=
  match o with
  | Write _ f' STEP_N v => if f' =? f then Boxes v (at_NP1 b) else b
  | Write _ f' STEP_NP1 v => if f' =? f then Boxes (at_N b) v else b
  | Write _ _ STEP_NONE _ => b
  | Update _ => Boxes (at_NP1 b) (at_NP1 b)
  | Alloc _ _ => b
  end.

(** Effect on a single-step value. *)
Definition local_none_effect {V} (m f : nat) (b : V) (o : op V) : V :=
  match o with
  | Write m' f' STEP_NONE v => if (m' =? m) && (f' =? f) then v else b
  | _ => b
  end.
Definition global_none_effect {V} (f : nat) (b : V) (o : op V) : V :=
  match o with
  | Write _ f' STEP_NONE v => if f' =? f then v else b
  | _ => b
  end.

Definition no_alloc {V} (o : op V) : Prop := match o with Alloc _ _ => False | _ => True end.

Definition is_update_of {V} (m : nat) (o : op V) : Prop :=
  match o with Update m' => m' = m | _ => False end.
Definition writes {V} (m f : nat) (s : step) (o : op V) : Prop :=
  match o with Write m' f' s' _ => m' = m /\ f' = f /\ s' = s | _ => False end.
