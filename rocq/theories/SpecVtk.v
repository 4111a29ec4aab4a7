(** * What a reader of VTK files sees

    A reader of the "legacy" VTK format for unstructured grids of points and lines,
    written from the description of the format. *)
From Coq Require Import String ZArith.
From Verif Require Import Base Num ModelNeigh ModelVtk.

Section Reader.
  Context {N : Num}.
  Local Open Scope string_scope.

  (** [n] triples of numbers *)
  Fixpoint read_points (n : nat) (t : list (token N)) : option (list (V3 N) * list (token N)) :=
    match n with
    | O => Some ([], t)
    | S k =>
        match t with
        | Dbl x :: Dbl y :: Dbl z :: t' =>
            match read_points k t' with Some (l, r) => Some (v3 x y z :: l, r) | None => None end
        | _ => None
        end
    end.
  (** [n] cells, each with the number of its points first *)
  Fixpoint read_ints (n : nat) (t : list (token N)) : option (list Z * list (token N)) :=
    match n with
    | O => Some ([], t)
    | S k =>
        match t with
        | Int z :: t' => match read_ints k t' with Some (l, r) => Some (z :: l, r) | None => None end
        | _ => None
        end
    end.
  Fixpoint read_cells (n : nat) (t : list (token N)) : option (list (list Z) * list (token N)) :=
    match n with
    | O => Some ([], t)
    | S k =>
        match t with
        | Int m :: t' =>
            match read_ints (Z.to_nat m) t' with
            | Some (c, t'') => match read_cells k t'' with Some (l, r) => Some (c :: l, r) | None => None end
            | None => None
            end
        | _ => None
        end
    end.
  (** The points, the cells and the types of the cells.  The first two lines are free text
      after the identifier; the third number after CELLS is the number of integers of the
      cell list. *)
  Definition read_vtk (file : list (list (token N))) : option (list (V3 N) * list (list Z) * list Z) :=
    match file with
    | [Word "#"; Word "vtk"; Word "DataFile"; Word "Version"; Word _] :: _ :: [Word "ASCII"] ::
      [Word "DATASET"; Word "UNSTRUCTURED_GRID"] :: body =>
        match concat body with
        | Word "POINTS" :: Int n :: Word "float" :: t =>
            match read_points (Z.to_nat n) t with
            | Some (pts, Word "CELLS" :: Int m :: Int size :: t1) =>
                match read_cells (Z.to_nat m) t1 with
                | Some (cells, Word "CELL_TYPES" :: Int k :: t2) =>
                    match read_ints (Z.to_nat k) t2 with
                    | Some (types, []) =>
                        if Z.eqb k m && Z.eqb size (Z.of_nat (fold_right Nat.add 0 (map (fun c => S (length c)) cells)))%nat
                        then Some (pts, cells, types) else None
                    | _ => None
                    end
                | _ => None
                end
            | _ => None
            end
        | _ => None
        end
    | _ => None
    end.
End Reader.

(** A line (VTK type 3) between two positions. *)
Definition draws {N : Num} (pts : list (V3 N)) (c : list Z) (ty : Z) (ab : V3 N * V3 N) : Prop :=
  ty = 3%Z /\ exists i j, c = [Z.of_nat i; Z.of_nat j] /\ nth_error pts i = Some (fst ab) /\ nth_error pts j = Some (snd ab).
(** The cells of the picture are the given lines, in order. *)
Fixpoint picture {N : Num} (pts : list (V3 N)) (cells : list (list Z)) (types : list Z) (lines : list (V3 N * V3 N)) : Prop :=
  match cells, types, lines with
  | [], [], [] => True
  | c :: cells', ty :: types', ab :: lines' => draws pts c ty ab /\ picture pts cells' types' lines'
  | _, _, _ => False
  end.

(** One point of a block: its global id and position. *)
Definition named {N : Num} : Type := (Z * V3 N)%type.
Definition named_at {N : Num} (b : vblock N) (i : nat) (p : named (N:=N)) : Prop :=
  nth_error (vb_gids b) i = Some (fst p) /\ nth_error (vb_x b) i = Some (snd p).
(** The bonds of the owned points of a block: those of the wanted point only, if one is
    wanted (its number counts from one). *)
Definition wanted (node : option Z) (g : Z) : Prop := match node with None => True | Some k => k = (g + 1)%Z end.
Inductive bonds_of_block {N : Num} (node : option Z) (b : vblock N) : nat -> list (list nat) -> list (named (N:=N) * named (N:=N)) -> Prop :=
  | bb_nil i : bonds_of_block node b i [] []
  | bb_skip i js nbrs l p : named_at b i p -> ~ wanted node (fst p) -> bonds_of_block node b (S i) nbrs l ->
      bonds_of_block node b i (js :: nbrs) l
  | bb_take i js nbrs qs l p : named_at b i p -> wanted node (fst p) -> Forall2 (named_at b) js qs -> bonds_of_block node b (S i) nbrs l ->
      bonds_of_block node b i (js :: nbrs) (map (pair p) qs ++ l).
(** ... and of all blocks *)
Definition all_bonds {N : Num} (node : option Z) (bs : list (vblock N)) (nbrss : list (list (list nat))) (l : list (named (N:=N) * named (N:=N))) : Prop :=
  exists ls, Forall2 (fun bn l => bonds_of_block node (fst bn) 0 (snd bn) l) (combine bs nbrss) ls /\ l = concat ls.

(** The block holds these neighbourhoods and its arrays fit. *)
Definition holds {N : Num} (b : vblock N) (nbrs : list (list nat)) : Prop :=
  length (vb_x b) = length (vb_gids b) /\ vb_owned b = length nbrs /\ vb_flat b = encode nbrs /\
  length nbrs <= length (vb_gids b) /\ Forall (Forall (fun j => j < length (vb_gids b))) nbrs.
(** A point has one position, whatever block it is seen in. *)
Definition consistent {N : Num} (bs : list (vblock N)) : Prop :=
  forall b b' i i' p p', In b bs -> In b' bs -> named_at b i p -> named_at b' i' p' -> fst p = fst p' -> snd p = snd p'.
