(** * Which compute classes are built, and how they are run

    src/core/Peridigm_ComputeManager.cpp:57-202, src/core/Peridigm.cpp:1076-1111 and 742,
    src/core/Peridigm_ServiceManager.cpp:50-56.  What a compute class does is a parameter: its constructor
    from the parameters given (none: the null pointer), its fields and services. *)
From Coq Require Import String Ascii.
From Verif Require Import Base.
Local Open Scope string_scope.

(** std::replace of spaces by underscores, ComputeManager.cpp:82, 95 and 112 *)
Fixpoint underscored (s : string) : string :=
  match s with
  | EmptyString => EmptyString
  | String c s' => String (if Ascii.eqb c " " then "_"%char else c) (underscored s')
  end.

(** name.find("Output") != npos, Peridigm.cpp:1091 *)
Definition has_output (name : string) : bool := match index 0 "Output" name with Some _ => true | None => false end.

(** the union of the output variables, Peridigm.cpp:1086-1110.  The entries of the input at the top level:
    name, and the names of its "Output Variables" if it is a list (Teuchos adds an empty
    list if there are none); a single value is an error. *)
Fixpoint add_variables (have : list string) (new : list string) : list string :=
  match new with
  | [] => have
  | v :: new' => add_variables (if existsb (String.eqb v) have then have else (have ++ [v])%list) new'
  end.
Fixpoint output_variables (have : list string) (top : list (string * option (list string))) : outcome (list string) :=
  match top with
  | [] => Ok have
  | (name, vars) :: top' =>
      if has_output name then
        match vars with
        | None => Err
        | Some vs => output_variables (add_variables have vs) top'
        end
      else output_variables have top'
  end.

Section Manager.
  Context {D O : Type}.
  (** an entry of "Compute Class Parameters": a single value, or a list with its "Compute Class", if it has
      one, and the list itself *)
  Inductive entry := Single | Params (class : option string) (data : D).

  (** ComputeManager.cpp:71-86: all names of compute classes with parameters; errors 75-79 *)
  Fixpoint class_names (l : list entry) : outcome (list string) :=
    match l with
    | [] => Ok []
    | Single :: _ => Err
    | Params None _ :: _ => Err
    | Params (Some c) _ :: l' => let? ns := class_names l' in Ok (underscored c :: ns)
    end.
  (** 104-116: the second pass; get<string> throws without "Compute Class" *)
  Fixpoint with_parameters (l : list entry) : outcome (list (string * option D)) :=
    match l with
    | [] => Ok []
    | Single :: _ => Err
    | Params None _ :: _ => Err
    | Params (Some c) d :: l' => let? r := with_parameters l' in Ok ((underscored c, Some d) :: r)
    end.
  (** 90-102 *)
  Definition without_parameters (named vars : list string) : list (string * option D) :=
    map (fun v => (v, None)) (filter (fun v => negb (existsb (String.eqb v) named)) (map underscored vars)).
  (** 65-116: [vars] and [params] are the two sublists, if there are *)
  Definition to_build (vars : option (list string)) (params : option (list entry)) : outcome (list (string * option D)) :=
    let? named := match params with None => Ok [] | Some l => class_names l end in
    let first := match vars with None => [] | Some vs => without_parameters named vs end in
    let? second := match params with None => Ok [] | Some l => with_parameters l end in
    Ok (first ++ second)%list.

  (** 118-132: the macro tries every class in turn *)
  Variable known : list string.
  Variable construct : string -> option D -> outcome O.
  Fixpoint try_classes (keys : list string) (b : string * option D) : outcome (list O) :=
    match keys with
    | [] => Ok []
    | k :: keys' =>
        if String.eqb (fst b) k then
          let? o := construct k (snd b) in
          let? r := try_classes keys' b in Ok (o :: r)
        else try_classes keys' b
    end.
  Fixpoint instantiate (bs : list (string * option D)) : outcome (list O) :=
    match bs with
    | [] => Ok []
    | b :: bs' => let? a := try_classes known b in let? r := instantiate bs' in Ok (a ++ r)%list
    end.
  (** the constructor, 57-133 *)
  Definition manager (vars : option (list string)) (params : option (list entry)) : outcome (list O) :=
    let? bs := to_build vars params in instantiate bs.
  (** Peridigm::instantiateComputeManager, Peridigm.cpp:1076-1128 *)
  Definition instantiate_manager (top : list (string * option (list string))) (params : option (list entry)) : outcome (list O) :=
    let? vars := output_variables [] top in manager (Some vars) params.

  (** FieldIds, 135-153: sort, then unique *)
  Variable fields : O -> list nat.
  Fixpoint insert (a : nat) (l : list nat) : list nat :=
    match l with [] => [a] | b :: l' => if Nat.leb a b then a :: l else b :: insert a l' end.
  Fixpoint sorted_ids (l : list nat) : list nat := match l with [] => [] | a :: l' => insert a (sorted_ids l') end.
  Fixpoint unique (l : list nat) : list nat :=
    match l with
    | [] => []
    | a :: l' => match l' with [] => [a] | b :: _ => if Nat.eqb a b then unique l' else a :: unique l' end
    end.
  Definition field_ids (objs : list O) : list nat := unique (sorted_ids (flat_map fields objs)).

  (** Services, 155-167, requestService and isRequested: a set as a list *)
  Variable services : O -> list nat.
  Definition requested (objs : list O) (s : nat) : bool := existsb (Nat.eqb s) (flat_map services objs).

  (** initialize, pre_compute and compute, 173-202: every object on all blocks, in order *)
  Definition run_all {B} (step : O -> B -> outcome B) (objs : list O) (blocks : B) : outcome B := foldM (fun b o => step o b) blocks objs.
End Manager.
Arguments entry : clear implicits.
