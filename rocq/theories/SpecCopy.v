(** * What "the values of a global id" are *)
From Verif Require Import Base ModelCopy.

(** The values an entity with global id [gid] has in a vector laid out by [m]: the
    vector is cut into consecutive pieces of the sizes given by the map. *)
Fixpoint values_of {V} (m : bmap) (vec : list V) (gid : Z) : option (list V) :=
  match m with
  | [] => None
  | (h, n) :: t => if Z.eqb h gid then Some (firstn n vec)
                   else values_of t (skipn n vec) gid
  end.

(** A vector has the length its map prescribes. *)
Definition fits {V} (m : bmap) (vec : list V) : Prop :=
  length vec = fold_right Nat.add 0 (map snd m).

Definition gids (m : bmap) : list Z := map fst m.

Definition size_of (m : bmap) (gid : Z) : option nat :=
  option_map snd (find (fun e => Z.eqb (fst e) gid) m).

(** The source has every entity of the target, with the same element size. *)
Definition covers (src tgt : bmap) : Prop :=
  forall gid, In gid (gids tgt) -> size_of src gid = size_of tgt gid.

Definition well_formed {V} (mv : multivec V) : Prop :=
  NoDup (gids (mv_map mv)) /\ Forall (fits (mv_map mv)) (mv_vecs mv).

(** [r] is the target [t] after its data have been taken over from [s]. *)
Definition copied {V} (s t r : multivec V) : Prop :=
  mv_map r = mv_map t /\ length (mv_vecs r) = length (mv_vecs s) /\
  forall i vs vr gid, nth_error (mv_vecs s) i = Some vs -> nth_error (mv_vecs r) i = Some vr ->
    In gid (gids (mv_map t)) ->
    exists vals, values_of (mv_map s) vs gid = Some vals /\ values_of (mv_map t) vr gid = Some vals.

(** The same for multivectors that may be absent (null pointers). *)
Definition opt_ok {V} (o : option (multivec V)) : Prop :=
  match o with Some mv => well_formed mv /\ mv_vecs mv <> [] | None => True end.
Definition opt_copied {V} (s t r : option (multivec V)) : Prop :=
  match t, r with
  | None, None => True
  | Some tm, Some rm => exists sm, s = Some sm /\ copied sm tm rm
  | _, _ => False
  end.

(** A whole state, and a state that may be absent. *)
Definition state_ok {V} (s : cstate V) : Prop := Forall opt_ok (c_points s) /\ opt_ok (c_bond s).
Definition state_copied {V} (s t r : cstate V) : Prop :=
  opt_copied (c_bond s) (c_bond t) (c_bond r) /\
  length (c_points r) = length (c_points t) /\
  forall i tp rp, nth_error (c_points t) i = Some tp -> nth_error (c_points r) i = Some rp ->
    exists sp, nth_error (c_points s) i = Some sp /\ opt_copied sp tp rp.
Definition maybe_ok {V} (s : option (cstate V)) : Prop := match s with Some s => state_ok s | None => True end.
Definition maybe_copied {V} (s t r : option (cstate V)) : Prop :=
  match s, t, r with
  | None, None, None => True
  | Some s, Some t, Some r => state_copied s t r
  | _, _, _ => False
  end.
