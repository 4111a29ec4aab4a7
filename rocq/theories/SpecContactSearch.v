(** * The contact search as the user sees it, for C30 *)
From Coq Require Import Reals ZArith Permutation.
From Verif Require Import Base Num ModelNeigh ModelBlock ModelTree ModelFilter ModelParallel ModelContactSearch SpecGeom SpecTree SpecBlock SpecParallel.
Local Open Scope R_scope.

(** The data of one processor say that its i-th point is bonded to the points [nth i nbrs]
    (global ids). *)
Definition keeps (p : cproc) (nbrs : list (list Z)) : Prop :=
  NoDup (cp_overlap p) /\ (exists ghosts, cp_overlap p = cp_owned p ++ ghosts) /\
  length nbrs = length (cp_owned p) /\
  cp_bond p = List.filter (fun e => (0 <? snd e)%Z) (combine (cp_owned p) (map (fun l => Z.of_nat (length l)) nbrs)) /\
  exists ls, cp_list p = flat_form ls /\ Forall2 (Forall2 (names (cp_overlap p))) ls nbrs.
(** All processors; every point is owned once. *)
Definition keep_all (cur : list cproc) (nbrs : list (list (list Z))) : Prop :=
  Forall2 keeps cur nbrs /\ NoDup (concat (map cp_owned cur)).
(** The bond list of point [g]; point [g] is bonded to [h]. *)
Definition bond_list (cur : list cproc) (nbrs : list (list (list Z))) (g : Z) (l : list Z) : Prop :=
  exists q p ns i, nth_error cur q = Some p /\ nth_error nbrs q = Some ns /\
    nth_error (cp_owned p) i = Some g /\ nth_error ns i = Some l.
Definition bonded (cur : list cproc) (nbrs : list (list (list Z))) (g h : Z) : Prop :=
  exists l, bond_list cur nbrs g l /\ In h l.

(** A distribution of the same points over the processors; the search uses one radius. *)
Definition arrangement (r : R) (cur : list cproc) (t : cutting) (ps : list (processor RN)) (assign : range RN -> list nat) : Prop :=
  distributed t (map (with_radius (N:=RN) r) ps) /\ assigns t (length ps) assign /\
  forall g, In g (concat (map cp_owned cur)) <-> exists rank i p, is_point ps rank i p /\ g = Z.of_nat (ModelParallel.gid p i).
(** Every processor receives what is sent to it, in some order, and has a tree. *)
Definition arrives (r : R) (ps : list (processor RN)) (assign : range RN -> list nat)
  (target : list (processor RN * list (message RN) * zoltan_tree RN)) : Prop :=
  map (fun x => fst (fst x)) target = ps /\
  exists sent, all_sends assign (length ps) 0 (map (with_radius (N:=RN) r) ps) = Ok sent /\
  forall rank p received tree, nth_error target rank = Some (p, received, tree) ->
    Permutation received (addressed rank sent) /\ bisects (overlap_x p received) tree.

(** The states after any number of searches, the points having moved in between. *)
Inductive history (r : R) (start : list cproc) : list cproc -> Prop :=
| no_search : history r start start
| one_more cur t ps assign target frequency step new :
    history r start cur -> arrangement r cur t ps assign -> arrives r ps assign target ->
    rebalance_contact (N:=RN) frequency step r cur target = Ok (Some new) -> history r start (map s_proc new).

(** The contact list of processor [rank] is right: its entries are places of the overlap map of
    the processor; they stand, without repetition, for points within the search radius, other than
    the point itself and not bonded to it; all such points closer than the radius are there,
    and if [ties] also those at the radius. *)
Definition contacts_right (r : R) (bond : Z -> Z -> Prop) (ties : Prop) (ps : list (processor RN)) (rank : nat)
  (p : processor RN) (s : searched) : Prop :=
  NoDup (cp_overlap (s_proc s)) /\
  Forall2 (names (cp_overlap (s_proc s))) (s_owned s) (map (fun i => Z.of_nat (ModelParallel.gid p i)) (seq 0 (owned p))) /\
  exists ls, s_contacts s = flat_form ls /\ length ls = owned p /\
  forall i l, nth_error ls i = Some l -> exists ids, Forall2 (names (cp_overlap (s_proc s))) l ids /\ NoDup ids /\
    (forall h, In h ids -> exists r' i' p', is_point ps r' i' p' /\ h = Z.of_nat (ModelParallel.gid p' i')) /\
    forall r' i' p', is_point ps r' i' p' ->
      let candidate := ~ (r' = rank /\ i' = i) /\ ~ bond (Z.of_nat (ModelParallel.gid p i)) (Z.of_nat (ModelParallel.gid p' i')) in
      let d := distance (at_x p' i') (at_x p i) in
      (In (Z.of_nat (ModelParallel.gid p' i')) ids -> candidate /\ d <= r) /\
      (candidate -> d < r \/ d <= r /\ ties -> In (Z.of_nat (ModelParallel.gid p' i')) ids).
