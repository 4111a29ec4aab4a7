(** * Stored elastic energy

    src/materials/Peridigm_ElasticMaterial.cpp:175-236 and Peridigm_MultiphysicsElasticMaterial.cpp:264-328
    (computeStoredElasticEnergyDensity), src/compute/Peridigm_Compute_Stored_Elastic_Energy.cpp and
    Peridigm_Compute_Energy.cpp.

    The dilatation read by them is the field written by the last force evaluation
    (ModelForce.v). *)
From Coq Require Import ZArith.
From Verif Require Import Base Num ModelNeigh ModelForce ModelDiffusion ModelGlobal.

Section Energy.
  Context {N : Num}.
  Local Open Scope num_scope.

  (** ElasticMaterial.cpp:215-233: the bonds of a point; distance(...) subtracts the neighbour from the node *)
  Definition energy_bond (omega : N -> N -> N) (h alphaT : N) (dT : option N) (theta : N) (X XP Y YP : V3 N) (b vj : N) : N :=
    let initial := vlen (vsub X XP) in
    let current := thermal (vlen (vsub Y YP)) alphaT dT initial in
    let dev := current - initial - theta * initial / 3 in
    (1 - b) * omega initial h * dev * dev * vj.
  Fixpoint energy_sum (omega : N -> N -> N) (h alphaT : N) (dT : option N) (x y : list (V3 N)) (v dmg : list N)
    (X Y : V3 N) (theta : N) (k : nat) (js : list nat) (acc : N) {struct js} : outcome N :=
    match js with
    | [] => Ok acc
    | j :: js' =>
      let? b := at_ub dmg k in
      let? XP := at_ub x j in
      let? YP := at_ub y j in
      let? vj := at_ub v j in
      energy_sum omega h alphaT dT x y v dmg X Y theta (1 + k) js' (acc + energy_bond omega h alphaT dT theta X XP Y YP b vj)
    end.
  (** ElasticMaterial.cpp:200-235; [scf] are the surface correction factors of the multiphysics material
      (MultiphysicsElasticMaterial.cpp:306).  The owned points are the points 0, 1, ... *)
  Definition energy_density (omega : N -> N -> N) (K MU h alphaT : N) (deltaT : option (list N)) (x y : list (V3 N))
    (v m theta dmg : list N) (scf : option (list N)) (p k : nat) (js : list nat) : outcome N :=
    let? X := at_ub x p in
    let? Y := at_ub y p in
    let? th := at_ub theta p in
    let? mp := at_ub m p in
    let? s := opt_at scf p in
    let? dT := opt_at deltaT p in
    let alpha := match s with None => ofZ 15 * MU / mp | Some c => ofZ 15 * MU / mp * c end in
    let? temp := energy_sum omega h alphaT dT x y v dmg X Y th k js 0 in
    Ok (lit 1 2 * K * th * th + lit 1 2 * alpha * temp).

  (** ElasticMaterial::computeForce (Peridigm_ElasticMaterial.cpp:141-172 without partial stress) followed by
      computeStoredElasticEnergyDensity: forces, energy densities and dilatations *)
  Definition elastic_evaluation (omega : N -> N -> N) (K MU h alphaT : N) (deltaT : option (list N)) (x y : list (V3 N))
    (v m dmg : list N) (nbrs : list (list nat)) : outcome (list (V3 N) * list N * list N) :=
    let? th := dilatations (dilatation omega h alphaT deltaT x y v dmg None m) 0 0 nbrs in
    let? (f, _) := run_kernel (lps omega K MU h alphaT deltaT x y v m th dmg None) nbrs (repeat vzero (length x)) in
    let? W := dilatations (energy_density omega K MU h alphaT deltaT x y v m th dmg None) 0 0 nbrs in
    Ok (f, W, th).
  (** MultiphysicsElasticMaterial::computeForce (Peridigm_MultiphysicsElasticMaterial.cpp:195-241) followed by
      computeStoredElasticEnergyDensity: the same *)
  Definition multiphysics_evaluation (omega : N -> N -> N) (K MU h alphaT : N) (deltaT : option (list N)) (x y : list (V3 N))
    (pr v m scf dmg : list N) (nbrs : list (list nat)) : outcome (list (V3 N) * list N * list N) :=
    let? th := dilatations (dilatation omega h alphaT deltaT x y v dmg None m) 0 0 nbrs in
    let? (f, _) := run_kernel (coupled omega K MU h alphaT deltaT x y pr v m th scf dmg) nbrs (repeat vzero (length x)) in
    let? W := dilatations (energy_density omega K MU h alphaT deltaT x y v m th dmg (Some scf)) 0 0 nbrs in
    Ok (f, W, th).

  (** Peridigm_Compute_Stored_Elastic_Energy.cpp:91-97 *)
  Fixpoint stored_energies (W v : list N) {struct W} : outcome (list N) :=
    match W, v with
    | [], _ => Ok []
    | w :: W', a :: v' => let? r := stored_energies W' v' in Ok (w * a :: r)
    | _, [] => UB
    end.

  (** ** Compute class "Energy", Peridigm_Compute_Energy.cpp:90-219 *)

  (** lines 162-186: the bonds of point [i] of the loop, whose local id is [ID]; the coordinates of the point itself
      are read at [i], its dilatation at [ID] *)
  Definition output_bond (theta : N) (X XP Y YP : V3 N) (vj : N) : N :=
    let x := vlen (vsub XP X) in
    let e := vlen (vsub YP Y) - x in
    1 * (e - theta * x / 3) * vj.
  Definition output_sum (x y : list (V3 N)) (v theta : list N) (i ID : nat) (js : list nat) : outcome N :=
    foldM (fun We j =>
             let? vj := at_ub v j in
             let? XP := at_ub x j in let? X := at_ub x i in
             let? YP := at_ub y j in let? Y := at_ub y i in
             let? th := at_ub theta ID in
             Ok (We + output_bond th X XP Y YP vj)) 0 js.
  (** lines 154-197: strain energy density, strain energy and kinetic energy of the point *)
  Definition output_point (K MU rho : N) (x y vel : list (V3 N)) (v m theta : list N) (i ID : nat) (js : list nat)
    : outcome (N * N * N) :=
    let? vol := at_ub v ID in
    let? mp := at_ub m ID in
    let? u := at_ub vel ID in
    let? We := output_sum x y v theta i ID js in
    let? th := at_ub theta ID in
    let W := lit 1 2 * K * th * th + lit 1 2 * (ofZ 15 * MU / mp) * We in
    Ok (W, vol * W, lit 1 2 * vol * rho * (vx u * vx u + vy u * vy u + vz u * vz u)).
  Fixpoint output_points (K MU rho : N) (x y vel : list (V3 N)) (v m theta : list N) (i : nat) (owned : list nat)
    (nbrs : list (list nat)) {struct owned} : outcome (list (N * N * N)) :=
    match owned, nbrs with
    | [], _ => Ok []
    | ID :: owned', js :: nbrs' =>
      let? a := output_point K MU rho x y vel v m theta i ID js in
      let? r := output_points K MU rho x y vel v m theta (1 + i) owned' nbrs' in
      Ok (a :: r)
    | _, [] => UB
    end.
  (** the running totals SE and KE of lines 191-196 *)
  Definition output_totals (l : list (N * N * N)) : N * N :=
    (fold_left (fun s a => s + snd (fst a)) l 0, fold_left (fun s a => s + snd a) l 0).
  (** lines 200-216: the processors' totals of each block are summed, then the blocks' *)
  Definition output_global (w : list (list (N * N))) : outcome (N * N) :=
    let? g := all_reduce (zip_with (fun a b => (fst a + fst b, snd a + snd b))) w in
    Ok (fold_left (fun s a => s + fst a) g 0, fold_left (fun s a => s + snd a) g 0).
End Energy.
