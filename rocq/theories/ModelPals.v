(** * Position-aware linear solid

    src/materials/pals.h, pals.cxx and Peridigm_Pals_Model.cpp:136-393.

    The six multipliers of a point are a list here (in the code six arrays over the points).  The factorisation and
    solution of the 6x6 systems by LAPACK (pals.cxx:145-170) is an argument [solve]; it fails when INFO is not zero, which
    the code turns into an exception.  The matrices are symmetric, so that columns and rows need not be told apart.  The
    sums [m] and [sum_dev] of pals.cxx:334-337 are never used and left out, as are the functions no material calls
    (solve_symmetric_3x3, compute_normalizing_constant_point, computeNormalizedWeightedVolume, computeDilatation). *)
From Coq Require Import ZArith.
From Verif Require Import Base Num ModelNeigh ModelForce ModelGlobal ModelTangent.

Section Pals.
  Context {N : Num}.
  Local Open Scope num_scope.

  (** extension times bond length of the six matching deformations, pals.cxx:280-290 *)
  Definition probes (d : V3 N) : list N :=
    let a := vx d in let b := vy d in let c := vz d in
    [a * a; b * b; c * c; 2 * (a * b); 2 * (a * c); 2 * (b * c)].
  (** their deviatoric parts, pals.cxx:308-311 and pals.h:54-59 *)
  Definition dev_probes (d : V3 N) : list N :=
    let a := vx d in let b := vy d in let c := vz d in
    let r := sqr_root (a * a + b * b + c * c) in
    let avg := r / 3 in
    [a * a / r - avg; b * b / r - avg; c * c / r - avg; 2 * (a * b) / r; 2 * (a * c) / r; 2 * (b * c) / r].

  (** ** Influence functions, pals.h:43-91 *)
  Definition dilatation_eval (w : list N) (d : V3 N) : outcome N :=
    let a := vx d in let b := vy d in let c := vz d in
    match w with
    | [w0; w1; w2; w3; w4; w5] =>
      Ok (w0 * a * a + w1 * b * b + w2 * c * c + 2 * (w3 * a * b + w4 * a * c + w5 * b * c))
    | _ => UB
    end.
  Definition deviatoric_eval (w : list N) (d : V3 N) : outcome N :=
    match w, dev_probes d with
    | [w0; w1; w2; w3; w4; w5], [e0; e1; e2; e3; e4; e5] =>
      Ok (w0 * e0 * e0 + w1 * e1 * e1 + w2 * e2 * e2 + w3 * e3 * e3 + w4 * e4 * e4 + w5 * e5 * e5)
    | _, _ => UB
    end.
  Definition influence (eval : list N -> V3 N -> outcome N) (I0 : N -> N -> N) (normalize : N) (w : list N) (d : V3 N) (h : N)
    : outcome N :=
    let? e := eval w d in Ok (normalize * (I0 (vlen d) h + e)).

  (** ** Multipliers of one point, pals.cxx:218-452 *)
  Definition outer (e : list N) (vol : N) : list (list N) := map (fun ei => map (fun ej => ei * ej * vol) e) e.
  Definition madd (a b : list (list N)) : list (list N) := zip_with (zip_with add) a b.
  Record system := System { s_k : list (list N); s_kdev : list (list N); s_dil : list N; s_dev : list N }.
  Definition zero_system : system := System (repeat (repeat 0 6) 6) (repeat (repeat 0 6) 6) (repeat 0 6) (repeat 0 6).
  (** pals.cxx:274-346, one neighbour *)
  Definition add_bond (omega0 sigma0 : N -> N -> N) (h : N) (d : V3 N) (vol : N) (s : system) : system :=
    let e := probes d in
    let eps := dev_probes d in
    let eps2 := map (fun a => a * a) eps in
    let o := omega0 (vlen d) h in
    let g := sigma0 (vlen d) h in
    System (madd (s_k s) (outer e vol)) (madd (s_kdev s) (outer eps2 vol))
           (zip_with add (s_dil s) (map (fun ei => o * ei * vol) e))
           (zip_with add (s_dev s) (map (fun a => g * a * a * vol) eps)).
  Definition gather_system (omega0 sigma0 : N -> N -> N) (h : N) (x : list (V3 N)) (v : list N) (X : V3 N) (js : list nat) : outcome system :=
    foldM (fun s j =>
             let? q := at_ub x j in
             let? vol := at_ub v j in
             Ok (add_bond omega0 sigma0 h (vsub q X) vol s)) zero_system js.
  (** pals.cxx:353-368 *)
  Definition finalize (s : system) : system :=
    System (s_k s) (s_kdev s)
           (zip_with (fun t a => t - 1 * a) [1; 1; 1; 0; 0; 0] (s_dil s))
           (zip_with (fun t a => t - 1 * a) [2 / 3; 2 / 3; 2 / 3; 2; 2; 2] (s_dev s)).
  (** pals.cxx:376-404 *)
  Definition diagonal (k : list (list N)) : list N := map (fun ir => nth (fst ir) (snd ir) 0) (numbered k).
  Definition unit_row (i : nat) (k : list (list N)) : list (list N) :=
    map (fun rr => map (fun ca => if Nat.eqb (fst rr) i then (if Nat.eqb (fst ca) i then 1 else 0)
                                  else if Nat.eqb (fst ca) i then 0 else snd ca) (numbered (snd rr))) (numbered k).
  Definition zero_at (i : nat) (l : list N) : list N := map (fun ca => if Nat.eqb (fst ca) i then 0 else snd ca) (numbered l).
  Definition drop_probe (s : system) (i : nat) : system :=
    System (unit_row i (s_k s)) (unit_row i (s_kdev s)) (zero_at i (s_dil s)) (zero_at i (s_dev s)).
  (** which probes have no bonds to speak of; the test reads the diagonal entry of the probe, which the treatment of the
      other probes leaves alone; a point whose bonds have no length at all divides zero by zero here *)
  Definition dead (k : list (list N)) (i : nat) : bool :=
    let trace := fold_left add (diagonal k) 0 in
    nth i (diagonal k) 0 / trace <? lit 1 (10 ^ 15).
  Definition drop_dead (s : system) : system :=
    fold_left (fun t i => if dead (s_k s) i then drop_probe t i else t) (seq 0 6) s.
  (** pals.cxx:408-420: solutions for the dilatation and the deviatoric part *)
  Definition multipliers (solve : list (list N) -> list N -> outcome (list N)) (omega0 sigma0 : N -> N -> N) (h : N)
    (x : list (V3 N)) (v : list N) (p : nat) (js : list nat) : outcome (list N * list N) :=
    let? X := at_ub x p in
    let? s := gather_system omega0 sigma0 h x v X js in
    let s := drop_dead (finalize s) in
    let? lam := solve (s_k s) (s_dil s) in
    let? tau := solve (s_kdev s) (s_dev s) in
    Ok (lam, tau).
  (** the walk over the owned points, pals.cxx:172-215 *)
  Fixpoint multipliers_all (solve : list (list N) -> list N -> outcome (list N)) (omega0 sigma0 : N -> N -> N) (h : N)
    (x : list (V3 N)) (v : list N) (p : nat) (nbrs : list (list nat)) : outcome (list (list N * list N)) :=
    match nbrs with
    | [] => Ok []
    | js :: rest =>
      let? a := multipliers solve omega0 sigma0 h x v p js in
      let? r := multipliers_all solve omega0 sigma0 h x v (1 + p) rest in
      Ok (a :: r)
    end.
  (** computeWeightedVolume, pals.cxx:563-609; the normalizing constants are 1.0 (pals.cxx:449-450) *)
  Definition sigma_volume (sigma0 : N -> N -> N) (h : N) (x : list (V3 N)) (v : list N) (ms : list (list N * list N)) (p k : nat) (js : list nat)
    : outcome N :=
    let? X := at_ub x p in
    let? lt := at_ub ms p in
    foldM (fun m j =>
             let? vj := at_ub v j in
             let? XP := at_ub x j in
             let d := vsub XP X in
             let? s := influence deviatoric_eval sigma0 1 (snd lt) d h in
             Ok (m + s * vdot d d * vj)) 0 js.
  (** Pals_Model::initialize, Peridigm_Pals_Model.cpp:136-224 *)
  Definition pals_initialize (solve : list (list N) -> list N -> outcome (list N)) (omega0 sigma0 : N -> N -> N) (h : N)
    (x : list (V3 N)) (v : list N) (nbrs : list (list nat)) : outcome (list (list N * list N) * list N) :=
    let? ms := multipliers_all solve omega0 sigma0 h x v 0 nbrs in
    let? m := dilatations (sigma_volume sigma0 h x v ms) 0 0 nbrs in
    Ok (ms, m).

  (** ** Dilatation and pressure, pals.cxx:668-744 *)
  Fixpoint pals_sums (omega0 sigma0 : N -> N -> N) (MU h : N) (x y : list (V3 N)) (v : list N) (X Y : V3 N) (lt : list N * list N)
    (js : list nat) (theta p : N) {struct js} : outcome (N * N) :=
    match js with
    | [] => Ok (theta, p)
    | j :: js' =>
      let? vj := at_ub v j in
      let? XP := at_ub x j in
      let? YP := at_ub y j in
      let d := vsub XP X in
      let xi := vlen d in
      let e := vlen (vsub YP Y) - xi in
      let? o := influence dilatation_eval omega0 1 (fst lt) d h in
      let? s := influence deviatoric_eval sigma0 1 (snd lt) d h in
      pals_sums omega0 sigma0 MU h x y v X Y lt js' (theta + o * xi * e * vj) (p + - (2 * MU * (s * xi) / 3) * e * vj)
    end.
  Definition pals_pressure (omega0 sigma0 : N -> N -> N) (K MU h : N) (x y : list (V3 N)) (v m : list N) (ms : list (list N * list N))
    (p : nat) (js : list nat) : outcome (N * N) :=
    let? X := at_ub x p in
    let? Y := at_ub y p in
    let? lt := at_ub ms p in
    let? mp := at_ub m p in
    let? (theta, pr) := pals_sums omega0 sigma0 MU h x y v X Y lt js 0 0 in
    Ok (theta, pr + (K + 2 * MU * mp / ofZ 9) * theta).
  Fixpoint pals_pressures (omega0 sigma0 : N -> N -> N) (K MU h : N) (x y : list (V3 N)) (v m : list N) (ms : list (list N * list N))
    (p : nat) (nbrs : list (list nat)) {struct nbrs} : outcome (list (N * N)) :=
    match nbrs with
    | [] => Ok []
    | js :: rest =>
      let? a := pals_pressure omega0 sigma0 K MU h x y v m ms p js in
      let? r := pals_pressures omega0 sigma0 K MU h x y v m ms (1 + p) rest in
      Ok (a :: r)
    end.

  (** ** Force, pals.cxx:746-844 *)
  Definition pals (omega0 sigma0 : N -> N -> N) (MU h : N) (x y : list (V3 N)) (v : list N) (ms : list (list N * list N))
    (tp : list (N * N)) : kernel N (V3 N * V3 N * (list N * list N) * (N * N)) unit :=
    Kernel _ _
      (fun p k js => let? X := at_ub x p in let? Y := at_ub y p in let? lt := at_ub ms p in let? a := at_ub tp p in
                     Ok (X, Y, lt, a))
      (fun d p k j =>
         let '(X, Y, lt, (theta, pr)) := d in
         let? XP := at_ub x j in let? YP := at_ub y j in
         let b := vsub XP X in
         let xi := vlen b in
         let dY := vlen (vsub YP Y) in
         let e := dY - xi in
         let eps := e - theta * xi / 3 in
         let? o := influence dilatation_eval omega0 1 (fst lt) b h in
         let? s := influence deviatoric_eval sigma0 1 (snd lt) b h in
         Ok (along (pr * o * xi + 2 * MU * s * eps) (vsub YP Y) dY, tt))
      (cell_volumes v).
  (** ** Energy density, Peridigm_Pals_Model.cpp:345-393 *)
  Definition pals_energy (sigma0 : N -> N -> N) (K MU h : N) (x y : list (V3 N)) (v : list N) (ms : list (list N * list N))
    (tp : list (N * N)) (p k : nat) (js : list nat) : outcome N :=
    let? X := at_ub x p in
    let? Y := at_ub y p in
    let? lt := at_ub ms p in
    let? (theta, _) := at_ub tp p in
    let? sum := foldM (fun s j =>
             let? vj := at_ub v j in
             let? XP := at_ub x j in
             let? YP := at_ub y j in
             let b := vsub XP X in
             let xi := vlen b in
             let e := vlen (vsub YP Y) - xi in
             let eps := e - xi * theta / 3 in
             let? sg := influence deviatoric_eval sigma0 1 (snd lt) b h in
             Ok (s + sg * eps * eps * vj)) 0 js in
    Ok (lit 1 2 * K * theta * theta + MU * sum).

  (** Pals_Model::computeForce (Peridigm_Pals_Model.cpp:227-305) and computeStoredElasticEnergyDensity: forces, energy
      densities and dilatations.  The bond damage is among the fields of the material, but never read. *)
  Definition pals_evaluation (omega0 sigma0 : N -> N -> N) (K MU h : N) (x y : list (V3 N)) (v m : list N)
    (ms : list (list N * list N)) (dmg : list N) (nbrs : list (list nat)) : outcome (list (V3 N) * list N * list N) :=
    let? tp := pals_pressures omega0 sigma0 K MU h x y v m ms 0 nbrs in
    let? (f, _) := run_kernel (pals omega0 sigma0 MU h x y v ms tp) nbrs (repeat vzero (length x)) in
    let? W := dilatations (pals_energy sigma0 K MU h x y v ms tp) 0 0 nbrs in
    Ok (f, W, map fst tp).
End Pals.
