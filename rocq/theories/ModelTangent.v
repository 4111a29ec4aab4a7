(** * The tangent matrix

    Peridigm::allocateJacobian and allocateBlockDiagonalJacobian (src/core/Peridigm.cpp:4018-4174),
    SerialMatrix (src/core/Peridigm_SerialMatrix.cpp), ScratchMatrix, Material::computeFiniteDifferenceJacobian
    (src/materials/Peridigm_Material.cpp:70-335) and ElasticMaterial::computeAutomaticDifferentiationJacobian
    (src/materials/Peridigm_ElasticMaterial.cpp:259-385).

    Not modelled: FORWARD_DIFFERENCE (never chosen, Material.cpp:67), the parameter test on the probe length, and in
    the Epetra matrix the split of rows among processors (a processor adds its contributions to rows of other
    processors in GlobalAssemble, Peridigm.cpp:1826; here every row is reached directly). *)
From Coq Require Import ZArith.
From Verif Require Import Base Num ModelForce.

(** Epetra map lookups [GID(lid)] of every id in a list *)
Fixpoint gather {A} (l : list A) (ids : list nat) : outcome (list A) :=
  match ids with
  | [] => Ok []
  | i :: ids => let? a := at_ub l i in let? r := gather l ids in Ok (a :: r)
  end.
(** Global indices of points: Peridigm.cpp:4064-4075, Material.cpp:200-207, ElasticMaterial.cpp:321-327 *)
Definition indices (nd : nat) (gids : list nat) : list nat := flat_map (fun g => map (fun d => nd * g + d) (seq 0 nd)) gids.

(** ** Sparsity *)
(** What allocateJacobian reads of a processor: the global ids of its overlap points, the owned points first, and the
    neighbours (local ids) of the owned points *)
Record part := Part { p_gids : list nat; p_nbrs : list (list nat) }.
(** Peridigm.cpp:4048-4084: rows and columns of the dense blocks of the points *)
Fixpoint allocate_points (nd : nat) (gids : list nat) (p : nat) (nbrs : list (list nat)) : outcome (list (nat * nat)) :=
  match nbrs with
  | [] => Ok []
  | js :: rest =>
      let? gs := gather gids (p :: js) in
      let? r := allocate_points nd gids (1 + p) rest in
      Ok (list_prod (indices nd gs) (indices nd gs) ++ r)
  end.
(** Peridigm.cpp:4018-4107 on all processors; the entries inserted in the matrix *)
Fixpoint allocate (nd : nat) (parts : list part) : outcome (list (nat * nat)) :=
  match parts with
  | [] => Ok []
  | P :: rest => let? a := allocate_points nd (p_gids P) 0 (p_nbrs P) in let? r := allocate nd rest in Ok (a ++ r)
  end.
(** allocateBlockDiagonalJacobian, Peridigm.cpp:4130-4165: [owned] are the global ids of the owned points *)
Definition allocate_diagonal (owned : list nat) : list (nat * nat) :=
  flat_map (fun row => map (fun e => (row, e)) [3 * (row / 3); 3 * (row / 3) + 1; 3 * (row / 3) + 2]) (indices 3 owned).

Section Tangent.
  Context {N : Num} (finite : N -> bool).
  Local Open Scope num_scope.

  (** ** The matrix: Epetra_FECrsMatrix with a fixed set of entries *)
  Record matrix := Matrix { entries : list (nat * nat); value : nat -> nat -> N }.
  (** the matrix after allocation (zeros inserted) and after PutScalar(0.0), Peridigm.cpp:1823 *)
  Definition zeroed (es : list (nat * nat)) : matrix := Matrix es (fun _ _ => 0).
  Definition same_entry (a b : nat * nat) : bool := (Nat.eqb (fst a) (fst b) && Nat.eqb (snd a) (snd b))%bool.
  (** SumIntoMyValues and SumIntoGlobalValues for one entry: an error code, which ends the run
      (SerialMatrix.cpp:98, 104, 167, 173), when the matrix has no such entry *)
  Definition sum_into (M : matrix) (r c : nat) (a : N) : outcome matrix :=
    if existsb (same_entry (r, c)) (entries M)
    then Ok (Matrix (entries M) (fun r' c' => if same_entry (r', c') (r, c) then value M r c + a else value M r' c'))
    else Err.

  (** ** The scratch matrix, Peridigm_ScratchMatrix.hpp: [None] is an entry not yet written *)
  Record scratch := Scratch { s_dim : nat; s_data : nat -> nat -> option N }.
  Definition resize (dim : nat) : scratch := Scratch dim (fun _ _ => None).
  Definition s_in (S : scratch) (r c : nat) : bool := (Nat.ltb r (s_dim S) && Nat.ltb c (s_dim S))%bool.
  Definition s_read (S : scratch) (r c : nat) : outcome N :=
    if s_in S r c then match s_data S r c with Some a => Ok a | None => UB end else UB.
  Definition s_write (S : scratch) (r c : nat) (a : N) : outcome scratch :=
    if s_in S r c
    then Ok (Scratch (s_dim S) (fun r' c' => if same_entry (r', c') (r, c) then Some a else s_data S r' c'))
    else UB.
  (** Material.cpp:197-198, ElasticMaterial.cpp:318-319 *)
  Definition make_room (S : scratch) (dim : nat) : scratch := if Nat.ltb (s_dim S) dim then resize dim else S.

  (** SerialMatrix::addValues, SerialMatrix.cpp:82-107.  The column test of line 89 is part of [sum_into]. *)
  Definition numbered {A} (l : list A) : list (nat * A) := combine (seq 0 (length l)) l.
  Definition add_values (M : matrix) (idx : list nat) (S : scratch) : outcome matrix :=
    foldM (fun M ig => foldM (fun M jg => let? a := s_read S (fst ig) (fst jg) in sum_into M (snd ig) (snd jg) a) M (numbered idx))
      M (numbered idx).
  (** inverseMap of addBlockDiagonalValues, SerialMatrix.cpp:118-127: the last position of an index *)
  Definition last_position (idx : list nat) (e : nat) : option nat :=
    fold_left (fun acc ig => if Nat.eqb (snd ig) e then Some (fst ig) else acc) (numbered idx) None.
  (** SerialMatrix::addBlockDiagonalValues, SerialMatrix.cpp:110-176 *)
  Definition add_block_diagonal (M : matrix) (idx : list nat) (S : scratch) : outcome matrix :=
    foldM (fun M ig =>
      let elem := (snd ig / 3)%nat in
      match last_position idx (3 * elem)%nat, last_position idx (3 * elem + 1)%nat, last_position idx (3 * elem + 2)%nat with
      | Some i1, Some i2, Some i3 =>
          let? a1 := s_read S (fst ig) i1 in
          let? a2 := s_read S (fst ig) i2 in
          let? a3 := s_read S (fst ig) i3 in
          let? M := sum_into M (snd ig) (3 * elem)%nat a1 in
          let? M := sum_into M (snd ig) (3 * elem + 1)%nat a2 in
          sum_into M (snd ig) (3 * elem + 2)%nat a3
      | _, _, _ => Err
      end) M (numbered idx).
  (** jacobianType, Material.hpp:170 *)
  Inductive jacobian_type := Full | Block_diagonal.
  Definition load (jt : jacobian_type) (M : matrix) (idx : list nat) (S : scratch) : outcome matrix :=
    match jt with Full => add_values M idx S | Block_diagonal => add_block_diagonal M idx S end.

  (** ** Finite differences *)
  (** DegreesOfFreedomManager: all, displacement and temperature degrees of freedom and the offsets, Material.cpp:113-119 *)
  Record layout := Layout { l_all : nat; l_disp : nat; l_disp_off : nat; l_temp : option nat }.
  (** The temporary data manager of a point, Material.cpp:131-192: the arrays of the point (local id 0) and of its
      neighbours (1, 2, ...), component by component, and computeForce and computeFluxDivergence on it as functions of
      what is perturbed *)
  Record local := Local { l_y : list N; l_v : list N; l_T : list N; l_vol : list N;
    force_of : list N -> list N -> outcome (list N); flux_of : list N -> outcome (list N) }.
  (** the points in the order of Material.cpp:226-232, 259-264: the neighbours, then the point itself *)
  Definition order (n : nat) : list nat := seq 1 n ++ [O].
  (** Material.cpp:267-269 with the factor 0.5 of CENTRAL_DIFFERENCE *)
  Definition slope (eps : N) (fp fm : list N) (i : nat) : outcome N :=
    let? a := at_ub fp i in let? b := at_ub fm i in Ok ((a - b) / eps * lit 1 2).
  (** Material.cpp:234-273: displacement [dof] of local point [q] *)
  Definition fd_displacement (L : layout) (eps dt : N) (n : nat) (U : local) (q dof : nat) (S : scratch) : outcome scratch :=
    let i := (l_all L * q + dof)%nat in
    let? oldY := at_ub (l_y U) i in
    let? oldV := at_ub (l_v U) i in
    let? ym := upd_ub (l_y U) i (oldY - eps) in
    let? vm := upd_ub (l_v U) i (oldV - eps / dt) in
    let? fm := force_of U ym vm in
    let? yp := upd_ub (l_y U) i (oldY + eps) in
    let? vp := upd_ub (l_v U) i (oldV + eps / dt) in
    let? fp := force_of U yp vp in
    foldM (fun S id => foldM (fun S d =>
        let? a := slope eps fp fm (l_all L * id + d)%nat in
        s_write S (l_all L * id + l_disp_off L + d)%nat (l_all L * q + l_disp_off L + dof)%nat a) S (seq 0 (l_all L)))
      S (order n).
  (** Material.cpp:275-307: temperature of local point [q] *)
  Definition fd_temperature (L : layout) (off : nat) (eps : N) (n : nat) (U : local) (q : nat) (S : scratch) : outcome scratch :=
    let? old := at_ub (l_T U) q in
    let? tm := upd_ub (l_T U) q (old - eps) in
    let? fm := flux_of U tm in
    let? tp := upd_ub (l_T U) q (old + eps) in
    let? fp := flux_of U tp in
    foldM (fun S id => let? a := slope eps fp fm id in s_write S (l_all L * id + off)%nat (l_all L * q + off)%nat a) S (order n).
  (** Material.cpp:224-308 *)
  Definition fd_columns (L : layout) (eps dt : N) (n : nat) (U : local) (S : scratch) : outcome scratch :=
    foldM (fun S q =>
      let? S := foldM (fun S dof => fd_displacement L eps dt n U q dof S) S (seq 0 (l_disp L)) in
      match l_temp L with Some off => fd_temperature L off eps n U q S | None => Ok S end) S (order n).
  (** Material.cpp:310-315: every entry times the volume of its row *)
  Definition times_volume (nd dim : nat) (vol : list N) (S : scratch) : outcome scratch :=
    foldM (fun S r => foldM (fun S c => let? a := s_read S r c in let? w := at_ub vol (r / nd)%nat in s_write S r c (a * w)) S (seq 0 dim))
      S (seq 0 dim).
  (** Material.cpp:317-322 *)
  Definition all_finite (dim : nat) (S : scratch) : outcome unit :=
    foldM (fun _ r => foldM (fun _ c => let? a := s_read S r c in if finite a then Ok tt else Err) tt (seq 0 dim)) tt (seq 0 dim).
  (** One point of computeFiniteDifferenceJacobian, Material.cpp:130-333: [gids] are the global ids of the point and of
      its neighbours.  Epetra_BlockMap refuses the element size 0, so that a point without neighbours ends the run in
      line 147. *)
  Definition fd_point (jt : jacobian_type) (L : layout) (eps dt : N) (gids : list nat) (U : local) (SM : scratch * matrix)
    : outcome (scratch * matrix)%type :=
    let n := (length gids - 1)%nat in
    if Nat.eqb n 0 then Err else
    let dim := (l_all L * (n + 1))%nat in
    let S := make_room (fst SM) dim in
    let? S := fd_columns L eps dt n U S in
    let? S := times_volume (l_all L) dim (l_vol U) S in
    let? _ := all_finite dim S in
    let? M := load jt (snd SM) (indices (l_all L) gids) S in
    Ok (S, M).

  (** ** Automatic differentiation, Peridigm_ElasticMaterial.cpp:274-384

      [dx col] are the derivatives of all force components with respect to component [col] of the coordinates of the
      point and its neighbours, [force_AD[row].dx(col)]. *)
  Definition ad_point (jt : jacobian_type) (gids : list nat) (vol : list N) (dx : nat -> outcome (list N)) (SM : scratch * matrix)
    : outcome (scratch * matrix)%type :=
    let n := (length gids - 1)%nat in
    if Nat.eqb n 0 then Err else
    let dim := (3 * (n + 1))%nat in
    let S := make_room (fst SM) dim in
    let? S := foldM (fun S row => foldM (fun S col =>
        let? ds := dx col in
        let? d := at_ub ds row in
        let? w := at_ub vol (row / 3)%nat in
        let a := d * w in
        if finite a then s_write S row col a else Err) S (seq 0 dim)) S (seq 0 dim) in
    let? M := load jt (snd SM) (indices 3 gids) S in
    Ok (S, M).

  (** The point loop of a material: the scratch matrix is a member of the material and keeps its content *)
  Definition points {A : Type} (step : list nat -> A -> scratch * matrix -> outcome (scratch * matrix)%type)
    (work : list (list nat * A)) (SM : scratch * matrix) : outcome (scratch * matrix)%type :=
    foldM (fun SM w => step (fst w) (snd w) SM) SM work.
  (** All materials on all processors (ModelEvaluator::evalJacobian, src/core/Peridigm_ModelEvaluator.cpp:134-160), each with its own scratch matrix *)
  Definition materials {A : Type} (step : list nat -> A -> scratch * matrix -> outcome (scratch * matrix)%type)
    (works : list (scratch * list (list nat * A))) (M : matrix) : outcome matrix :=
    foldM (fun M w => let? (_, M) := points step (snd w) (fst w, M) in Ok M) M works.
End Tangent.
Arguments matrix : clear implicits. Arguments scratch : clear implicits. Arguments local : clear implicits.

(** ** Dual numbers: a value and its derivative in one direction, Sacado::Fad::DFad<double>, which carries the derivatives in
    all directions side by side; the rules are those of every component.  Comparisons look at the value. *)
Section Dual.
  Context (N : Num).
  Local Open Scope num_scope.
  Definition dual : Num := {|
    T := (N * N)%type;
    add := fun a b => (fst a + fst b, snd a + snd b);
    sub := fun a b => (fst a - fst b, snd a - snd b);
    mul := fun a b => (fst a * fst b, fst a * snd b + snd a * fst b);
    div := fun a b => (fst a / fst b, (snd a * fst b - fst a * snd b) / (fst b * fst b));
    opp := fun a => (opp (fst a), opp (snd a));
    sqr_root := fun a => (sqr_root (fst a), snd a / (2 * sqr_root (fst a)));
    ltb := fun a b => fst a <? fst b;
    leb := fun a b => leb (fst a) (fst b);
    eqb := fun a b => fst a =? fst b;
    ofZ := fun z => (ofZ z, 0);
    lit := fun p q => (lit p q, 0);
    pi := (pi, 0) |}.
  (** a double used where a DFad is expected, and an independent variable ([diff(i,n)], [val()]) *)
  Definition const (a : N) : dual := (a, 0).
  Definition vconst (a : V3 N) : V3 dual := @v3 dual (const (vx a)) (const (vy a)) (const (vz a)).
  (** the coordinates with component [col] seeded, ElasticMaterial.cpp:344-347 *)
  Definition seeded (col : nat) (y : list N) : list dual := map (fun ia => (snd ia, if Nat.eqb (fst ia) col then 1 else 0)) (numbered y).
End Dual.

(** ** Elastic material on a temporary data manager *)
(** coordinates component by component and point by point *)
Fixpoint triples {A : Num} (l : list A) : outcome (list (V3 A)) :=
  match l with
  | [] => Ok []
  | a :: b :: c :: r => let? t := triples r in Ok (v3 a b c :: t)
  | _ => UB
  end.
Definition flat {A : Num} (l : list (V3 A)) : list A := flat_map (fun a => [vx a; vy a; vz a]) l.

Section ElasticBlock.
  Context {N : Num} (omega : N -> N -> N) (K MU h alpha : N).
  Local Open Scope num_scope.
  (** ElasticMaterial::computeForce, Peridigm_ElasticMaterial.cpp:141-172 without thermal strains and partial stress:
      dilatations, then forces from zero *)
  Definition elastic_force (x y : list (V3 N)) (v m dmg : list N) (nbrs : list (list nat)) : outcome (list (V3 N)) :=
    let? th := dilatations (dilatation omega h alpha None x y v dmg None m) 0 0 nbrs in
    let? (f, _) := run_kernel (lps omega K MU h alpha None x y v m th dmg None) nbrs (repeat vzero (length x)) in
    Ok f.
  (** the arrays of a data manager: reference coordinates, current coordinates, velocities, volumes, weighted volumes of
      all its points, bond damage of the bonds of the owned points *)
  Record block := Block { b_x : list (V3 N); b_y : list (V3 N); b_vel : list (V3 N); b_vol : list N; b_m : list N; b_dmg : list N }.
  (** the temporary data manager filled by copyLocallyOwnedDataFromDataManager (Peridigm_State.cpp:208-233, see C03): the
      point and its neighbours, and its bonds, the first of which is bond [k] of the block *)
  Definition restrict (B : block) (p k : nat) (js : list nat) : outcome block :=
    let? x := gather (b_x B) (p :: js) in
    let? y := gather (b_y B) (p :: js) in
    let? u := gather (b_vel B) (p :: js) in
    let? v := gather (b_vol B) (p :: js) in
    let? m := gather (b_m B) (p :: js) in
    let? d := gather (b_dmg B) (seq k (length js)) in
    Ok (Block x y u v m d).
  (** computeForce on it, with the neighbourhood list 1, 2, ... of Material.cpp:136-142 *)
  Definition block_local (b : block) : local N :=
    Local (flat (b_y b)) (flat (b_vel b)) [] (b_vol b)
      (fun y _ => let? y := triples y in
                  let? f := elastic_force (b_x b) y (b_vol b) (b_m b) (b_dmg b) [seq 1 (length (b_x b) - 1)] in Ok (flat f))
      (fun _ => Err).
  (** global ids and temporary data managers of the points of a block *)
  Fixpoint neighbourhoods (gids : list nat) (B : block) (p k : nat) (nbrs : list (list nat)) : outcome (list (list nat * block)%type) :=
    match nbrs with
    | [] => Ok []
    | js :: rest =>
        let? gs := gather gids (p :: js) in
        let? b := restrict B p k js in
        let? r := neighbourhoods gids B (1 + p)%nat (length js + k)%nat rest in
        Ok ((gs, b) :: r)
    end.
End ElasticBlock.
Arguments block : clear implicits.

(** derivatives of the force of a temporary data manager by dual numbers, ElasticMaterial.cpp:360-361: everything but the
    current coordinates is a double *)
Definition elastic_dx {N : Num} (omega : N -> N -> N) (K MU h alpha : N) (b : block N) (col : nat) : outcome (list N) :=
  let D := dual N in
  let? yd := triples (A:=D) (seeded N col (flat (b_y b))) in
  let? f := elastic_force (N:=D) (fun d e => const N (omega (fst d) (fst e))) (const N K) (const N MU) (const N h) (const N alpha)
              (map (vconst N) (b_x b)) yd (map (const N) (b_vol b)) (map (const N) (b_m b)) (map (const N) (b_dmg b))
              [seq 1 (length (b_x b) - 1)] in
  Ok (map snd (flat f)).
(** ElasticMaterial::computeJacobian, Peridigm_ElasticMaterial.cpp:238-256 with automatic differentiation, on the blocks
    of all processors *)
Definition elastic_tangent {N : Num} (finite : N -> bool) (omega : N -> N -> N) (K MU h alpha : N) (jt : jacobian_type)
  (works : list (scratch N * list (list nat * block N))) (M : matrix N) : outcome (matrix N) :=
  materials (fun gs b => ad_point finite jt gs (b_vol b) (elastic_dx omega K MU h alpha b)) works M.
(** the same by finite differences, PeridigmNS::Material::computeJacobian, Peridigm_Material.cpp:58-68 *)
Definition elastic_tangent_fd {N : Num} (finite : N -> bool) (omega : N -> N -> N) (K MU h alpha : N) (jt : jacobian_type) (eps dt : N)
  (works : list (scratch N * list (list nat * block N))) (M : matrix N) : outcome (matrix N) :=
  materials (fun gs b => fd_point finite jt (Layout 3 3 0 None) eps dt gs (block_local omega K MU h alpha b)) works M.
(** computeJacobian of the elastic-plastic materials (Peridigm_ElasticPlasticMaterial.cpp:191-198 and
    Peridigm_ElasticPlasticHardeningMaterial.cpp:202-209) does not pass on [jacobianType], whose default is FULL_MATRIX
    (ElasticPlasticMaterial.hpp:117, Material.hpp:180).  [dx]: the derivatives of their forces, a parameter here. *)
Definition plastic_point {N : Num} (finite : N -> bool) (jt : jacobian_type) (gids : list nat) (vol : list N) (dx : nat -> outcome (list N))
  (SM : scratch N * matrix N) : outcome (scratch N * matrix N) := ad_point finite Full gids vol dx SM.
