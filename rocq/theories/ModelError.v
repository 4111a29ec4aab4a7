(** * The Error output

    Model of src/compute/Peridigm_Compute_Error.cpp: the squared difference between the
    displacement of every point and a fixed displacement field, integrated over the
    hexahedral element the point stands for, and the sum over all points.  pow with the
    exponents 3 and 5 is written as a product; the text of the error messages is left
    out. *)
From Coq Require Import ZArith.
From Verif Require Import Base Num ModelScalar ModelPlastic ModelGlobal.

Section Error.
  Context {N : Num}.
  Local Open Scope num_scope.

  (** cpp:130-150: the limits of integration in one direction *)
  Definition lower_limit (c : V3 N -> N) (nodes : list (V3 N)) : N :=
    fold_left (fun acc p => if c p <? acc then c p else acc) nodes dbl_max.
  Definition upper_limit (c : V3 N -> N) (nodes : list (V3 N)) : N :=
    fold_left (fun acc p => if acc <? c p then c p else acc) nodes (- dbl_max).

  (** cpp:153-171: the number of nodes on one limit *)
  Definition on_limit (c : V3 N -> N) (a : N) (nodes : list (V3 N)) : nat :=
    fold_left (fun k p => if nabs (c p - a) <? lit 1 (10 ^ 10) then S k else k) nodes 0%nat.

  (** cpp:172 *)
  Definition is_rectangular (x1 x2 y1 y2 z1 z2 : N) (nodes : list (V3 N)) : bool :=
    Nat.eqb (on_limit vx x1 nodes) 4 && Nat.eqb (on_limit vx x2 nodes) 4 &&
    Nat.eqb (on_limit vy y1 nodes) 4 && Nat.eqb (on_limit vy y2 nodes) 4 &&
    Nat.eqb (on_limit vz z1 nodes) 4 && Nat.eqb (on_limit vz z2 nodes) 4.

  Definition cube (a : N) : N := a * a * a.
  Definition fifth (a : N) : N := a * a * a * a * a.

  (** computeError_1, cpp:218-265 *)
  Definition computeError_1 (uh : V3 N) (x1 x2 y1 y2 z1 z2 : N) : outcome N :=
    let U11 := 1 in
    let h := x2 - x1 in
    if ofZ (10 ^ 12) <? nabs (y2 - y1 - h) then Err
    else if ofZ (10 ^ 12) <? nabs (z2 - z1 - h) then Err
    else
      let x := x1 + lit 1 2 * (x2 - x1) in
      Ok ((vx uh * vx uh + vy uh * vy uh + vz uh * vz uh) * h * h * h
          - 2 / 3 * vx uh * U11 * (cube (x + h / 2) - cube (x - h / 2)) * h * h
          + lit 1 5 * U11 * U11 * (fifth (x + h / 2) - fifth (x - h / 2)) * h * h).

  (** cpp:116-207: one point, with the eight nodes of its element *)
  Definition element_error (nodes : list (V3 N)) (X Y : V3 N) : outcome N :=
    let x1 := lower_limit vx nodes in let x2 := upper_limit vx nodes in
    let y1 := lower_limit vy nodes in let y2 := upper_limit vy nodes in
    let z1 := lower_limit vz nodes in let z2 := upper_limit vz nodes in
    if is_rectangular x1 x2 y1 y2 z1 z2 nodes
    then computeError_1 (vsub Y X) x1 x2 y1 y2 z1 z2
    else Err.

  (** What one processor holds of one block: the number of owned points (they come first),
      reference and current coordinates, and the eight node fields Exodus_Node_1, ...,
      Exodus_Node_8. *)
  Record eblock := EBlock { eb_n : nat; eb_x : list (V3 N); eb_y : list (V3 N); eb_nodes : list (list (V3 N)) }.

  (** cpp:116-211: the errors of the points of one block *)
  Definition block_errors (b : eblock) : outcome (list N) :=
    mapO (fun i =>
            let? nodes := mapO (fun a => at_ub a i) (eb_nodes b) in
            let? X := at_ub (eb_x b) i in
            let? Y := at_ub (eb_y b) i in
            element_error nodes X Y) (seq 0 (eb_n b)).

  (** cpp:94-221: the fields Error of all processors and the value Global_Error *)
  Definition error_output (w : list (list eblock)) : outcome (list (list (list N)) * N) :=
    let? e := mapO (mapO block_errors) w in
    let? g := all_reduce add (map (fun r => fold_left (fun s l => fold_left add l s) r 0) e) in
    Ok (e, g).
End Error.
Arguments eblock N : clear implicits.
