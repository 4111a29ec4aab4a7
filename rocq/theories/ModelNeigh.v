(** * Flat neighbourhood lists

    All kernels walk an [int] array laid out as
      numNeighbours(0), ids of point 0, numNeighbours(1), ids of point 1, ...
    (Peridigm_NeighborhoodData.hpp; for instance the loops of
    Peridigm_CriticalStretchDamageModel.cpp:136-164).  [decode] is that walk; the
    kernels of the model take its result, so an ill-formed array is undefined
    behaviour before the kernel starts instead of in its middle. *)
From Verif Require Import Base.

Fixpoint decode (numOwned : nat) (flat : list nat) : outcome (list (list nat)) :=
  match numOwned with
  | O => Ok []
  | S k =>
    match flat with
    | [] => UB
    | n :: rest =>
      if length rest <? n then UB
      else let? t := decode k (skipn n rest) in Ok (firstn n rest :: t)
    end
  end.

(** The array that lists the given neighbourhoods. *)
Definition encode (nbrs : list (list nat)) : list nat :=
  flat_map (fun l => length l :: l) nbrs.

(** The bonds in the order in which the running bond index visits them. *)
Definition bonds_of (owned : list nat) (nbrs : list (list nat)) : list (nat * nat) :=
  flat_map (fun p => map (pair (fst p)) (snd p)) (combine owned nbrs).
