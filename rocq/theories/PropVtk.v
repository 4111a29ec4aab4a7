(** * C69: the bonds drawn in the VTK file are the bonds of the processor *)
From Coq Require Import String ZArith.
From Verif Require Import Base Num ModelNeigh ModelVtk ProofVtk SpecVtk.

(** Every processor has one list of bonds to draw ... *)
Theorem C69_bonds : forall (N : Num) node (bs : list (vblock N)) nbrss, Forall2 holds bs nbrss -> exists lines, all_bonds node bs nbrss lines.
Proof. intros N node bs nbrss H. now apply all_bonds_ex. Qed.
Print Assumptions C69_bonds.

(** ... and the file is written, is well-formed, and shows exactly these bonds, in order, as
    lines between the positions of their ends. *)
Theorem C69_picture : forall (N : Num) node (bs : list (vblock N)) nbrss lines,
  Forall2 holds bs nbrss -> consistent bs -> all_bonds node bs nbrss lines ->
  exists file pts cells types, bond_file node bs = Ok file /\ read_vtk file = Some (pts, cells, types) /\
    picture pts cells types (map (fun pq => (snd (fst pq), snd (snd pq))) lines).
Proof.
  intros N node bs nbrss lines H C A. destruct (file_ok node bs nbrss lines H C A) as (file & pts & cells & types & ids & E1 & E2 & E3 & _).
  exists file, pts, cells, types. auto.
Qed.
Print Assumptions C69_picture.

(** The points of the file are the ends of these bonds, each once. *)
Theorem C69_points : forall (N : Num) node (bs : list (vblock N)) nbrss lines file pts cells types,
  Forall2 holds bs nbrss -> consistent bs -> all_bonds node bs nbrss lines ->
  bond_file node bs = Ok file -> read_vtk file = Some (pts, cells, types) ->
  exists ids, NoDup ids /\ (forall g, In g ids <-> exists pq, In pq lines /\ (g = fst (fst pq) \/ g = fst (snd pq))) /\
    Forall2 (fun g x => exists b i, In b bs /\ named_at b i (g, x)) ids pts.
Proof.
  intros N node bs nbrss lines file pts cells types H C A E1 E2.
  destruct (file_ok node bs nbrss lines H C A) as (file' & pts' & cells' & types' & ids & E1' & E2' & _ & ND & I & F).
  rewrite E1 in E1'. injection E1' as <-. rewrite E2 in E2'. injection E2' as <- <- <-. exists ids. auto.
Qed.
Print Assumptions C69_points.

(** ** A case: two blocks; the second sees a point of the first *)
Section Case.
  Context {N : Num}.
  Context (A B C D : V3 N).
  Definition two_blocks : list (vblock N) :=
    [ VBlock [7; 2; 5]%Z [A; B; C] 2 (encode [[1; 2]; [0]]); VBlock [5; 7; 4]%Z [C; A; D] 1 (encode [[1; 2]]) ].
  Example C69_holds_met : Forall2 holds two_blocks [[[1; 2]; [0]]; [[1; 2]]].
  Proof. repeat constructor. Qed.
  Example C69_consistent_met : consistent two_blocks.
  Proof.
    intros b b' i i' [g x] [h y] [<-|[<-|[]]] [<-|[<-|[]]] [E1 E2] [E3 E4] E; cbn in *; subst h;
    destruct i as [|[|[|[|i]]]]; cbn in E1, E2; try discriminate; destruct i' as [|[|[|[|i']]]]; cbn in E3, E4; try discriminate; congruence.
  Qed.
  Example C69_bonds_met : all_bonds None two_blocks [[[1; 2]; [0]]; [[1; 2]]]
    [((7, A), (2, B)); ((7, A), (5, C)); ((2, B), (7, A)); ((5, C), (7, A)); ((5, C), (4, D))]%Z.
  Proof.
    exists [[((7, A), (2, B)); ((7, A), (5, C)); ((2, B), (7, A))]; [((5, C), (7, A)); ((5, C), (4, D))]]%Z. split; [|reflexivity].
    constructor; [|constructor; [|constructor]]; cbn [fst snd].
    - apply (bb_take None _ 0 [1; 2] [[0]] [(2, B); (5, C)]%Z [((2, B), (7, A))]%Z (7, A)%Z); [split; reflexivity|exact I|repeat constructor|].
      apply (bb_take None _ 1 [0] [] [(7, A)]%Z [] (2, B)%Z); [split; reflexivity|exact I|repeat constructor|constructor].
    - apply (bb_take None _ 0 [1; 2] [] [(7, A); (4, D)]%Z [] (5, C)%Z); [split; reflexivity|exact I|repeat constructor|constructor].
  Qed.
  (** "Node Id: 3" is the point with global id 2 *)
  Example C69_node_met : all_bonds (Some 3%Z) two_blocks [[[1; 2]; [0]]; [[1; 2]]] [((2, B), (7, A))]%Z.
  Proof.
    exists [[((2, B), (7, A))]; []]%Z. split; [|reflexivity].
    constructor; [|constructor; [|constructor]]; cbn [fst snd].
    - apply (bb_skip _ _ 0 _ _ _ (7, A)%Z); [split; reflexivity|cbn; lia|].
      apply (bb_take _ _ 1 [0] [] [(7, A)]%Z [] (2, B)%Z); [split; reflexivity|reflexivity|repeat constructor|constructor].
    - apply (bb_skip _ _ 0 _ _ _ (5, C)%Z); [split; reflexivity|cbn; lia|constructor].
  Qed.
End Case.
