(** * What a restart should do *)
From Coq Require Import String.
From Verif Require Import Base ModelScalar ModelCopy SpecCopy ModelRestart.

Section Spec.
  Context {V : Type} {C : clock}.

  (** The vectors of a run that are saved, and those that are not *)
  Definition saved (s : run V C) : list (list V) :=
    let p := points1 s in let q := points3 s in
    [blockIDs p; horizon p; volume p; density p; deltaTemperature p;
     vec_x q; vec_u q; vec_y q; vec_v q; vec_a q; force q; contactForce q; externalForce q; deltaU q; scratch q].
  Definition lost (s : run V C) : list (list V) :=
    let p := points1 s in [temperature p; fluxDivergence p; concentrationFluxDivergence p; scalarScratch p].

  (** Two runs of the same problem: vectors of the same lengths, the same blocks with the same
      maps and numbers of fields *)
  Definition mv_alike (a b : option (multivec V)) : Prop :=
    match a, b with
    | None, None => True
    | Some a, Some b => well_formed a /\ well_formed b /\ mv_map a = mv_map b /\ length (mv_vecs a) = length (mv_vecs b)
    | _, _ => False
    end.
  Definition state_alike (a b : cstate V) : Prop := Forall2 mv_alike (c_points a) (c_points b) /\ mv_alike (c_bond a) (c_bond b).
  Definition run_alike (a b : run V C) : Prop :=
    map (@length V) (saved a) = map (@length V) (saved b) /\
    Forall2 (fun x y => fst x = fst y /\ state_alike (fst (snd x)) (fst (snd y)) /\ state_alike (snd (snd x)) (snd (snd y))) (block_data a) (block_data b).

  (** Blocks have different names of at most 32 characters, and nine kinds of point data *)
  Definition run_ok (s : run V C) : Prop :=
    NoDup (map fst (block_data s)) /\
    Forall (fun b => (String.length (fst b) <= 32)%nat /\ length (c_points (fst (snd b))) = 9 /\ length (c_points (snd (snd b))) = 9) (block_data s).

  (** [s'] continues [s]: same time, saved vectors and block data *)
  Definition resumed (s s' : run V C) (t : time C) : Prop := now s' = t /\ saved s' = saved s /\ block_data s' = block_data s.

  Definition is_restart (d : dir V C) : bool := String.prefix "restart" (d_name d).

  (** The solvers of a session one after the other, each starting from the state the one before left,
      the time moved on by each; [b] tells them whether a restart was read *)
  Definition solved (b : bool) (solvers : list (time C * time C * (bool -> run V C -> run V C))) (s : run V C) : run V C :=
    fold_left (fun s '(i, f, solve) => let s1 := solve b s in
      {| now := advance C (now s1) i f; points1 := points1 s1; points3 := points3 s1; block_data := block_data s1 |}) solvers s.

  (** File systems after any number of sessions that ended well; the last state written *)
  Inductive history : files V C -> string -> run V C -> Prop :=
  | first_session fs fresh t solvers fs' p s : forallb (fun d => negb (is_restart d)) fs = true -> solvers <> [] ->
      session fs fresh t solvers = Ok (fs', p, s) -> history fs' p s
  | next_session fs p s fresh t solvers fs' p' s' : history fs p s -> solvers <> [] ->
      session fs fresh t solvers = Ok (fs', p', s') -> history fs' p' s'.
End Spec.
