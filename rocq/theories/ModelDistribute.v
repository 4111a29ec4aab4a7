(** * Distribution of the mesh by processor 0

    getDiscretization(rank, cellIter), src/io/mesh_input/quick_grid/QuickGrid.cxx 1854-1962,
    and the part of MPI it uses: blocking standard sends and blocking receives with source and
    tag.  MPI leaves open whether a standard send waits for the receiver or is buffered, so both
    are steps of the model, chosen anew for every send.  A receive takes the first message of
    its source with its tag; messages between two processors with one tag do not overtake each
    other. *)
From Verif Require Import Base Num ModelGrid.

Section Distribute.
  Context {N : Num}.

  (** What is sent *)
  Inductive message :=
  | MCount (n : nat) | MAck | MGlobal (n : nat) | MSize (n : nat)
  | MIds (l : list nat) | MPoints (l : list (V3 N)) | MVolumes (l : list N) | MList (l : list nat) | MPtr (l : list nat).

  (** A program of one processor.  [Failed]: an MPI error or exit. *)
  Inductive program :=
  | Done (r : option (grid_data N))
  | Failed
  | Send (to tag : nat) (m : message) (k : program)
  | Recv (from tag : nat) (k : message -> program).

  (** Processor 0, QuickGrid.cxx 1871-1914: [first] is its own share, [rest] the shares of processors 1, 2, ...
      The tags are those of lines 1857-1866. *)
  Fixpoint send_acks (n proc : nat) (k : program) : program :=
    match n with O => k | S n' => Send proc 0 MAck (send_acks n' (S proc) k) end.
  Fixpoint send_shares (proc : nat) (rest : list (grid_data N)) (k : program) : program :=
    match rest with
    | [] => k
    | d :: rest' =>
        Send proc 1 (MCount (gd_num d))
        (Recv proc 0 (fun _ =>
         Send proc 4 (MGlobal (gd_global d))
        (Send proc 5 (MSize (gd_size d))
        (Send proc 2 (MIds (gd_ids d))
        (Send proc 3 (MPoints (gd_points d))
        (Send proc 7 (MVolumes (gd_volumes d))
        (Send proc 6 (MList (gd_list d))
        (Send proc 8 (MPtr (gd_ptr d)) (send_shares (S proc) rest' k)))))))))
    end.
  Definition root (first : grid_data N) (rest : list (grid_data N)) : program :=
    send_shares 1 rest (send_acks (length rest) 1 (Done (Some first))).

  (** The other processors, QuickGrid.cxx 1916-1960.  A message longer than the buffer it is
      received into is an error (MPI_ERR_TRUNCATE).  The final acknowledgement is never negative. *)
  Definition fits {A} (l : list A) (n : nat) (k : program) : program := if (length l <=? n)%nat then k else Failed.
  Definition worker : program :=
    Recv 0 1 (fun m => match m with
    | MCount n =>
        if (0 <? n)%nat then
          Send 0 0 MAck
         (Recv 0 4 (fun m => match m with MGlobal global =>
          Recv 0 5 (fun m => match m with MSize size =>
          Recv 0 2 (fun m => match m with MIds ids => fits ids n (
          Recv 0 3 (fun m => match m with MPoints points => fits points n (
          Recv 0 7 (fun m => match m with MVolumes volumes => fits volumes n (
          Recv 0 6 (fun m => match m with MList list => fits list size (
          Recv 0 8 (fun m => match m with MPtr ptr => fits ptr n (
          Recv 0 0 (fun _ =>
            Done (Some {| gd_global := global; gd_num := n; gd_ids := ids; gd_points := points; gd_volumes := volumes;
                          gd_size := size; gd_list := list; gd_ptr := ptr |}))) | _ => Failed end)) | _ => Failed end)) | _ => Failed end))
          | _ => Failed end)) | _ => Failed end) | _ => Failed end) | _ => Failed end))
        else Send 0 0 MAck (Recv 0 0 (fun _ => Done None))
    | _ => Failed
    end).

  (** All processors and the messages under way (source, destination) *)
  Record system := { prog : nat -> program; chan : nat -> nat -> list (nat * message) }.
  Definition set_prog (f : nat -> program) (p : nat) (x : program) : nat -> program := fun q => if Nat.eqb q p then x else f q.
  Definition set_chan (f : nat -> nat -> list (nat * message)) (p q : nat) (l : list (nat * message)) : nat -> nat -> list (nat * message) :=
    fun a b => if (Nat.eqb a p && Nat.eqb b q)%bool then l else f a b.

  (** The first message with the tag, and the others *)
  Fixpoint take (tag : nat) (l : list (nat * message)) : option (message * list (nat * message)) :=
    match l with
    | [] => None
    | (t, m) :: l' => if Nat.eqb t tag then Some (m, l') else match take tag l' with Some (m', l'') => Some (m', (t, m) :: l'') | None => None end
    end.

  (** A message is received from those under way, or handed over directly by a waiting sender. *)
  Inductive delivery : system -> system -> Prop :=
  | from_channel s p q t k m rest : prog s q = Recv p t k -> take t (chan s p q) = Some (m, rest) ->
      delivery s {| prog := set_prog (prog s) q (k m); chan := set_chan (chan s) p q rest |}
  | hand_over s p q t k m k' : prog s p = Send q t m k' -> prog s q = Recv p t k -> take t (chan s p q) = None ->
      delivery s {| prog := set_prog (set_prog (prog s) p k') q (k m); chan := chan s |}.
  (** A sender goes on without waiting. *)
  Inductive buffering : system -> system -> Prop :=
  | send_ahead s p q t m k : prog s p = Send q t m k ->
      buffering s {| prog := set_prog (prog s) p k; chan := set_chan (chan s) p q (chan s p q ++ [(t, m)]) |}.
  Definition step (s s' : system) : Prop := delivery s s' \/ buffering s s'.

  Definition start (first : grid_data N) (rest : list (grid_data N)) : system :=
    {| prog := fun p => if Nat.eqb p 0 then root first rest else if (p <=? length rest)%nat then worker else Done None;
       chan := fun _ _ => [] |}.

  Inductive steps : nat -> system -> system -> Prop :=
  | steps_0 s : steps 0 s s
  | steps_S n s s1 s2 : steps n s s1 -> step s1 s2 -> steps (S n) s s2.
End Distribute.
Arguments message : clear implicits.
Arguments program : clear implicits.
Arguments system : clear implicits.
