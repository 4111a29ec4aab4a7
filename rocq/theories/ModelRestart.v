(** * Restart files

    Models of InitializeRestart, setRestartNames, writeRestart and readRestart (src/core/
    Peridigm.cpp 957-1075, 1281-1288, 4449-4652), DataManager::writeBlocktoDisk and
    readBlockfromDisk (src/core/Peridigm_DataManager.hpp 176-185) and State::writeStateData,
    SetRestartFiles and readStateData (src/core/Peridigm_State.cpp 153-206), on one processor
    and without multiphysics (which is refused at cpp:145).

    The files: EpetraExt writes and reads the values of vectors without loss; one write is one
    step, so a crash leaves some files complete and the others absent; a reader that fails
    (no file, or not of the size of the map) returns an error code, which the code ignores,
    and leaves the pointer it was given as it was.  Modification times differ. *)
From Coq Require Import String Ascii DecimalString Decimal.
From Verif Require Import Base ModelScalar ModelCopy ModelMesh.
Local Open Scope string_scope.
Local Open Scope list_scope.

(** The time: its arithmetic (cpp:4464-4465), its text (cpp:4468), atof of a line, of an empty
    line if there is no file (cpp:4538-4545), and the comparison (cpp:4551) *)
Record clock := { time : Type; line : Type; advance : time -> time -> time -> time;
                  show_time : time -> line; read_time : option line -> time; same_time : time -> time -> bool }.

(** ** Names *)
(** firstNumbersSring, cpp:957-966: the first run of digits *)
Definition is_digit (c : ascii) : bool := let n := nat_of_ascii c in ((48 <=? n) && (n <=? 57))%nat.
Fixpoint digits_of (s : string) : string :=
  match s with String c s' => if is_digit c then String c (digits_of s') else EmptyString | EmptyString => EmptyString end.
Fixpoint first_numbers (s : string) : string :=
  match s with String c s' => if is_digit c then digits_of s else first_numbers s' | EmptyString => EmptyString end.
(** atoi, cpp:4456 *)
Definition number_of (path : string) : N :=
  match NilEmpty.uint_of_string (first_numbers path) with Some d => N.of_uint d | None => 0%N end.
(** sprintf "restart-%06d", cpp:4457 *)
Fixpoint zeros (k : nat) (d : uint) : uint := match k with O => d | S k' => D0 (zeros k' d) end.
Definition pad6 (n : N) : uint := let d := N.to_uint n in zeros (6 - nb_digits d) d.
Definition restart_name (n : N) : string := ("restart-" ++ NilEmpty.string_of_uint (pad6 n))%string.
Definition next_name (path : string) : string := restart_name (number_of path + 1).

Section Restart.
  Context {V : Type} {C : clock}.

  (** ** The state of a run: the vectors of Peridigm.cpp 851-883, and by block its name with
      stateN and stateNP1 *)
  Record ones := { blockIDs : list V; horizon : list V; volume : list V; density : list V; temperature : list V;
                   deltaTemperature : list V; fluxDivergence : list V; concentrationFluxDivergence : list V; scalarScratch : list V }.
  Record threes := { vec_x : list V; vec_u : list V; vec_y : list V; vec_v : list V; vec_a : list V; force : list V;
                     contactForce : list V; externalForce : list V; deltaU : list V; scratch : list V }.
  Record run := { now : time C; points1 : ones; points3 : threes; block_data : list (string * (cstate V * cstate V)) }.

  (** ** The file system *)
  Inductive content := CLine (t : line C) | CMatrix (columns : list (list V)).
  Record dir := { d_name : string; d_files : list (string * content) }.
  (** The directories, the most recently modified first *)
  Definition files := list dir.
  Definition find_dir (fs : files) (p : string) : option dir := find (fun d => String.eqb (d_name d) p) fs.
  Definition find_file (l : list (string * content)) (f : string) : option content := option_map snd (find (fun e => String.eqb (fst e) f) l).

  Inductive op := MkDir (p : string) | Put (p f : string) (c : content).
  (** mkdir of an existing directory and opening a file in a missing one fail; the code does not
      look.  Creating a file modifies its directory, rewriting one does not. *)
  Definition apply_op (fs : files) (o : op) : files :=
    match o with
    | MkDir p => match find_dir fs p with Some _ => fs | None => {| d_name := p; d_files := [] |} :: fs end
    | Put p f c =>
        match find_dir fs p with
        | None => fs
        | Some d =>
            match find_file (d_files d) f with
            | None => {| d_name := p; d_files := d_files d ++ [(f, c)] |} :: filter (fun e => negb (String.eqb (d_name e) p)) fs
            | Some _ => map (fun e => if String.eqb (d_name e) p then {| d_name := p; d_files := map (fun g => if String.eqb (fst g) f then (f, c) else g) (d_files e) |} else e) fs
            end
        end
    end.
  Definition apply_ops (fs : files) (l : list op) : files := fold_left apply_op l fs.

  (** ** Writing *)
  (** cpp:4477-4521, in this order; names of setRestartNames (cpp:1009-1075) *)
  Definition vectors1 (s : ones) : list (string * list V) :=
    [("blockIDs.mat", blockIDs s); ("horizon.mat", horizon s); ("volume.mat", volume s); ("density.mat", density s);
     ("deltaTemperature.mat", deltaTemperature s)].
  Definition vectors3 (s : threes) : list (string * list V) :=
    [("x.mat", vec_x s); ("u.mat", vec_u s); ("y.mat", vec_y s); ("v.mat", vec_v s); ("a.mat", vec_a s); ("force.mat", force s);
     ("contactForce.mat", contactForce s); ("externalForce.mat", externalForce s); ("deltaU.mat", deltaU s); ("scratch.mat", scratch s)].

  (** State.cpp:170-186: the names; VectorName has room for 49 characters and the final zero *)
  Definition vector_name (s : string) : outcome string := if (String.length s <? 50)%nat then Ok s else UB.
  Definition point_file (block state : string) (i : nat) : outcome string :=
    let? n := vector_name (block ++ state ++ "_Element" ++ show_int (Z.of_nat i)) in Ok ("pointData_" ++ n ++ ".mat")%string.
  Definition bond_file (block state : string) : outcome string :=
    let? n := vector_name (block ++ state) in Ok ("BondData_" ++ n ++ ".mat")%string.

  (** State.cpp:153-169 *)
  Fixpoint write_points (block state : string) (i : nat) (l : list (option (multivec V))) : outcome (list (string * content)) :=
    match l with
    | [] => Ok []
    | None :: l' => write_points block state (S i) l'
    | Some mv :: l' =>
        let? f := point_file block state i in
        let? r := write_points block state (S i) l' in
        Ok ((f, CMatrix (mv_vecs mv)) :: r)
    end.
  Definition write_state (block state : string) (s : cstate V) : outcome (list (string * content)) :=
    let? p := write_points block state 0 (c_points s) in
    match c_bond s with
    | None => Ok p
    | Some mv => let? f := bond_file block state in Ok (p ++ [(f, CMatrix (mv_vecs mv))])
    end.
  (** DataManager.hpp:176-180; cpp:4522-4527 *)
  Definition write_block (b : string * (cstate V * cstate V)) : outcome (list (string * content)) :=
    let? n := write_state (fst b) "StateN" (fst (snd b)) in
    let? p := write_state (fst b) "StateNP1" (snd (snd b)) in
    Ok (n ++ p).

  (** All files of a restart, in the order in which they are written *)
  Definition restart_files (s : run) (t : time C) : outcome (list (string * content)) :=
    let? l := mapO write_block (block_data s) in
    Ok (("currentTime.txt", CLine (show_time C t))
        :: map (fun e => (fst e, CMatrix [snd e])) (vectors1 (points1 s) ++ vectors3 (points3 s)) ++ concat l).

  (** writeRestart, cpp:4449-4528: from the present path, the state and the times of the solver,
      the new path, the new time and the operations on the files *)
  Definition write_restart (path : string) (s : run) (initial final : time C) : outcome (string * time C * list op) :=
    let p := next_name path in
    let t := advance C (now s) initial final in
    let? l := restart_files s t in
    Ok (p, t, MkDir p :: map (fun e => Put p (fst e) (snd e)) l).

  (** ** Reading *)
  (** EpetraExt::MatrixMarketFileToVector, MatrixMarketFileToMultiVector: the columns, if the file
      fits a map of [n] points *)
  Definition read_matrix (l : list (string * content)) (f : string) (n : nat) : option (list (list V)) :=
    match find_file l f with
    | Some (CMatrix cols) => if forallb (fun c => (length c =? n)%nat) cols then Some cols else None
    | _ => None
    end.
  Definition read_vector (l : list (string * content)) (f : string) (n : nat) : option (list V) :=
    match read_matrix l f n with Some [v] => Some v | _ => None end.

  (** cpp:4566-4645: each vector in turn.  [ptr] is vectorUpdate, [None] where it points to
      nothing; blas.COPY reads as many values as the old vector has. *)
  Fixpoint read_vectors (l : list (string * content)) (ptr : option (list V)) (todo : list (string * list V)) : outcome (list (list V)) :=
    match todo with
    | [] => Ok []
    | (f, old) :: todo' =>
        let ptr' := match read_vector l f (length old) with Some v => Some v | None => ptr end in
        match ptr' with
        | None => UB
        | Some v =>
            if (length v <? length old)%nat then UB
            else let? r := read_vectors l ptr' todo' in Ok (firstn (length old) v :: r)
        end
    end.

  (** State.cpp:189-206 *)
  Definition read_multi (l : list (string * content)) (f : string) (ptr : option (multivec V)) (mv : multivec V) : outcome (option (multivec V) * multivec V) :=
    let ptr' := match read_matrix l f (list_sum (map snd (mv_map mv))) with Some cols => Some (MV (mv_map mv) cols) | None => ptr end in
    match ptr' with
    | None => UB
    | Some u => let? r := copyMultiVector u mv in Ok (ptr', r)
    end.
  Fixpoint read_points (l : list (string * content)) (block state : string) (i : nat) (ptr : option (multivec V)) (todo : list (option (multivec V))) : outcome (option (multivec V) * list (option (multivec V))) :=
    match todo with
    | [] => Ok (ptr, [])
    | None :: todo' => let? r := read_points l block state (S i) ptr todo' in Ok (fst r, None :: snd r)
    | Some mv :: todo' =>
        let? f := point_file block state i in
        let? a := read_multi l f ptr mv in
        let? r := read_points l block state (S i) (fst a) todo' in
        Ok (fst r, Some (snd a) :: snd r)
    end.
  Definition read_state (l : list (string * content)) (block state : string) (s : cstate V) : outcome (cstate V) :=
    let? p := read_points l block state 0 None (c_points s) in
    match c_bond s with
    | None => Ok (CState (snd p) None)
    | Some mv => let? f := bond_file block state in let? b := read_multi l f (fst p) mv in Ok (CState (snd p) (Some (snd b)))
    end.
  (** DataManager.hpp:181-185; cpp:4647-4650 *)
  Definition read_block (l : list (string * content)) (b : string * (cstate V * cstate V)) : outcome (string * (cstate V * cstate V)) :=
    let? n := read_state l (fst b) "StateN" (fst (snd b)) in
    let? p := read_state l (fst b) "StateNP1" (snd (snd b)) in
    Ok (fst b, (n, p)).

  (** readRestart, cpp:4530-4652.  The pointer is reset before externalForce (cpp:4626-4628). *)
  Definition read_restart (d : dir) (s : run) (initial : time C) : outcome run :=
    let l := d_files d in
    let t := read_time C (match find_file l "currentTime.txt" with Some (CLine x) => Some x | _ => None end) in
    if same_time C t initial then
      let old := vectors1 (points1 s) ++ vectors3 (points3 s) in
      let? a := read_vectors l None (firstn 12 old) in
      let? b := read_vectors l None (skipn 12 old) in
      match a ++ b with
      | [bi; ho; vo; de; dT; x; u; y; v; ac; f; cf; ef; dU; sc] =>
          let? blocks := mapO (read_block l) (block_data s) in
          Ok {| now := t;
                points1 := {| blockIDs := bi; horizon := ho; volume := vo; density := de; temperature := temperature (points1 s);
                              deltaTemperature := dT; fluxDivergence := fluxDivergence (points1 s);
                              concentrationFluxDivergence := concentrationFluxDivergence (points1 s); scalarScratch := scalarScratch (points1 s) |};
                points3 := {| vec_x := x; vec_u := u; vec_y := y; vec_v := v; vec_a := ac; force := f; contactForce := cf; externalForce := ef; deltaU := dU; scratch := sc |};
                block_data := blocks |}
      | _ => UB
      end
    else Err.

  (** InitializeRestart, cpp:969-1007: the path, the state and analysisHasReadRestart.  The
      directory is the newest one whose name begins with restart. *)
  Definition initialize (fs : files) (s : run) (initial : time C) : outcome (string * run * bool) :=
    match find_dir fs (restart_name 1) with
    | Some _ =>
        match find (fun d => String.prefix "restart" (d_name d)) fs with
        | Some d => let? s' := read_restart d s initial in Ok (d_name d, s', true)
        | None => Err
        end
    | None => Ok (restart_name 0, {| now := initial; points1 := points1 s; points3 := points3 s; block_data := block_data s |}, false)
    end.

  (** executeSolvers, cpp:1281-1288: one solver after the other, each followed by a restart.
      [solve] is what the solver does to the state, given analysisHasReadRestart. *)
  Fixpoint execute_solvers (fs : files) (path : string) (has_read : bool) (s : run) (solvers : list (time C * time C * (bool -> run -> run))) : outcome (files * string * run) :=
    match solvers with
    | [] => Ok (fs, path, s)
    | ((i, f), solve) :: rest =>
        let s1 := solve has_read s in
        let? w := write_restart path s1 i f in
        let '((p, t), ops) := w in
        execute_solvers (apply_ops fs ops) p has_read {| now := t; points1 := points1 s1; points3 := points3 s1; block_data := block_data s1 |} rest
    end.
  Definition session (fs : files) (fresh : run) (initial : time C) (solvers : list (time C * time C * (bool -> run -> run))) : outcome (files * string * run) :=
    let? r := initialize fs fresh initial in
    let '((p, s), b) := r in
    execute_solvers fs p b s solvers.
End Restart.
Arguments run : clear implicits. Arguments ones : clear implicits. Arguments threes : clear implicits.
Arguments dir : clear implicits. Arguments files : clear implicits. Arguments content : clear implicits. Arguments op : clear implicits.
