(** * Nonlocal diffusion

    src/materials/nonlocal_diffusion.cxx, Peridigm_DiffusionMaterial.cpp,
    Peridigm_SpeciesConcentrationMaterial.cpp, Peridigm_VectorPoissonMaterial.cpp.
    The exponential is an argument, pow(dY, 4) is a product of four factors; the automatic
    differentiation scalar and the unused "DeadSimple" variants (nonlocal_diffusion.cxx:240-380,
    558-643) are left out.  Neighbour lists are decoded (ModelNeigh). *)
From Coq Require Import ZArith.
From Verif Require Import Base Num ModelNeigh ModelForce.

Section Diffusion.
  Context {N : Num}.
  Local Open Scope num_scope.

  (** ** Fluid flow, nonlocal_diffusion.cxx:55-188 *)
  (** Material parameters, Peridigm_MultiphysicsElasticMaterial.cpp:76-85 *)
  Record fluid := Fluid { permeability : N; fluid_density : N; viscosity : N; inflection : N; curve : N;
                          max_permeability : N; flow_horizon : N; reynolds : N }.
  (** 125-128 *)
  Definition viscosity_at (expf : N -> N) (c : fluid) (dT : option N) : N :=
    match dT with None => viscosity c | Some t => viscosity c * expf (reynolds c * t) end.
  (** 114, 156-163: the diagonal of the nonlocal permeability, K - 0.25 * 3K *)
  Definition nonlocal (c : fluid) : N := permeability c - lit 1 4 * (3 * permeability c).
  (** 146-148: bondComponents *)
  Definition component (d : V3 N) (i : nat) : N := match i with O => vx d | S O => vy d | _ => vz d end.
  (** 167-172 *)
  Definition effective (c : fluid) (d : V3 N) : N :=
    fold_left (fun acc row => fold_left (fun acc col =>
        acc + component d row * (if Nat.eqb row col then nonlocal c else 0) * component d col)
      (seq 0 3) acc) (seq 0 3) 0.
  (** 177 *)
  Definition damaged (expf : N -> N) (c : fluid) (eff dmg : N) : N :=
    eff + (max_permeability c - eff) * (1 / (1 + expf (curve c * (dmg - inflection c)))).
  (** 181 *)
  Definition flux (expf : N -> N) (c : fluid) (mu dmg : N) (d : V3 N) (dP : N) : N :=
    let dY := vlen d in
    (fluid_density c / mu) * (ofZ 4 / (pi * flow_horizon c * flow_horizon c)) *
    (damaged expf c (effective c d) dmg / (dY * dY * dY * dY)) * dP.

  (** [flow[i] += a] and [-= a] *)
  Definition plus_at (f : list N) (i : nat) (a : N) : outcome (list N) :=
    let? b := at_ub f i in upd_ub f i (b + a).
  Definition minus_at (f : list N) (i : nat) (a : N) : outcome (list N) :=
    let? b := at_ub f i in upd_ub f i (b - a).

  Section Flow.
    Context (expf : N -> N) (c : fluid) (y : list (V3 N)) (pr v dmg : list N) (deltaT : option (list N)).
    (** 130-186 *)
    Fixpoint flow_bonds (Y : V3 N) (P mu self : N) (p k : nat) (js : list nat) (f : list N) {struct js} : outcome (list N) :=
      match js with
      | [] => Ok f
      | j :: js' =>
        let? vj := at_ub v j in let? PN := at_ub pr j in let? YP := at_ub y j in let? b := at_ub dmg k in
        let q := flux expf c mu b (vsub YP Y) (PN - P) in
        let? f := plus_at f p (q * vj) in
        let? f := minus_at f j (q * self) in
        flow_bonds Y P mu self p (1 + k) js' f
      end.
    (** 118-187 *)
    Fixpoint flow_points (p k : nat) (nbrs : list (list nat)) (f : list N) {struct nbrs} : outcome (list N) :=
      match nbrs with
      | [] => Ok f
      | js :: rest =>
        let? self := at_ub v p in let? Y := at_ub y p in let? P := at_ub pr p in let? dT := opt_at deltaT p in
        let? f := flow_bonds Y P (viscosity_at expf c dT) self p k js f in
        flow_points (1 + p) (length js + k) rest f
      end.
    (** Peridigm_MultiphysicsElasticMaterial.cpp:202 and 243-260: the flow starts from zero *)
    Definition fluid_flow (nbrs : list (list nat)) : outcome (list N) := flow_points 0 0 nbrs (map (fun _ => 0) v).
  End Flow.

  (** ** Force of the solid coupled with the fluid, nonlocal_diffusion.cxx:428-511 *)
  Definition coupled_t (omega : N -> N -> N) (K MU h alphaT : N) (dT : option N) (m theta dsf pressure dmg zeta dY : N) : N :=
    let alpha := ofZ 15 * MU / m * dsf in
    let e := thermal (dY - zeta) alphaT dT zeta in
    let w := omega zeta h in
    let c1 := w * theta * (3 * K / m - alpha / 3) - 3 * w / m * 1 * pressure in
    (1 - dmg) * (c1 * zeta + (1 - dmg) * w * alpha * e).
  Definition coupled (omega : N -> N -> N) (K MU h alphaT : N) (deltaT : option (list N)) (x y : list (V3 N))
    (pr v m theta dsf dmg : list N) : kernel N (V3 N * V3 N * (N * N * N * N) * option N)%type unit :=
    Kernel _ _
      (fun p k js => let? X := at_ub x p in let? Y := at_ub y p in let? mp := at_ub m p in let? th := at_ub theta p in
                     let? s := at_ub dsf p in let? P := at_ub pr p in let? dT := opt_at deltaT p in
                     Ok (X, Y, (mp, th, s, P), dT))
      (fun d p k j => let '(X, Y, (mp, th, s, P), dT) := d in
                      let? XP := at_ub x j in let? YP := at_ub y j in let? b := at_ub dmg k in
                      let zeta := vlen (vsub XP X) in
                      let dY := vlen (vsub YP Y) in
                      Ok (along (coupled_t omega K MU h alphaT dT mp th s P b zeta dY) (vsub YP Y) dY, tt))
      (cell_volumes v).

  (** ** Vector Poisson material, Peridigm_VectorPoissonMaterial.cpp:88-150.  The test for NaN (138-139)
      is left out. *)
  Definition poisson (h : N) (x y : list (V3 N)) (v : list N) : kernel N (V3 N * V3 N)%type unit :=
    Kernel _ _
      (fun p k js => let? X := at_ub x p in let? Y := at_ub y p in Ok (X, Y))
      (fun d p k j => let '(X, Y) := d in
                      let? XP := at_ub x j in let? YP := at_ub y j in
                      let kern := 3 / (pi * h * h * h * h * vlen (vsub X XP)) in
                      Ok (vmulr (vsub (vsub YP XP) (vsub Y X)) kern, tt))
      (cell_volumes v).

  (** ** Flux divergence, Peridigm_DiffusionMaterial.cpp:139-196 and
      Peridigm_SpeciesConcentrationMaterial.cpp:90-132.

      [contribution i j k] is what neighbour j (bond number k) adds to point i; a contribution that is
      not finite ends the run.  The result is for the owned points, the others keep the zero of 149 (98). *)
  Section Divergence.
    Context (finite : N -> bool) (contribution : nat -> nat -> nat -> outcome N).
    Fixpoint divergence_at (i k : nat) (js : list nat) (acc : N) {struct js} : outcome N :=
      match js with
      | [] => Ok acc
      | j :: js' =>
        let? a := contribution i j k in
        if finite a then divergence_at i (1 + k) js' (acc + a) else Err
      end.
    Fixpoint divergence (i k : nat) (nbrs : list (list nat)) {struct nbrs} : outcome (list N) :=
      match nbrs with
      | [] => Ok []
      | js :: rest =>
        let? a := divergence_at i k js 0 in
        let? r := divergence (1 + i) (length js + k) rest in
        Ok (a :: r)
      end.
  End Divergence.

  (** Peridigm_DiffusionMaterial.cpp:175-192; [weights] are the bond weights of the improved quadrature *)
  Definition heat (coef h : N) (x : list (V3 N)) (temp v : list N) (weights : option (list N)) (i j k : nat) : outcome N :=
    let? Ti := at_ub temp i in let? X := at_ub x i in
    let? vj := at_ub v j in let? w := match weights with None => Ok vj | Some l => at_ub l k end in
    let? XP := at_ub x j in let? Tj := at_ub temp j in
    let kern := ofZ 6 / (pi * h * h * h * h * vlen (vsub X XP)) in
    Ok (coef * kern * (Tj - Ti) * w).
  Definition heat_divergence (finite : N -> bool) (coef h : N) (x : list (V3 N)) (temp v : list N) (weights : option (list N))
    (nbrs : list (list nat)) : outcome (list N) := divergence finite (heat coef h x temp v weights) 0 0 nbrs.

  (** Peridigm_SpeciesConcentrationMaterial.cpp:113-129 *)
  Definition species (coef : N) (x : list (V3 N)) (temp conc v : list N) (i j k : nat) : outcome N :=
    let? Ci := at_ub conc i in let? X := at_ub x i in let? Ti := at_ub temp i in
    let? vj := at_ub v j in let? XP := at_ub x j in let? Cj := at_ub conc j in
    let c := coef * (1 + lit 1 10000 * Ti) in
    Ok (1 * c * ((Cj - Ci) / vlen (vsub X XP)) * vj).
  Definition species_divergence (finite : N -> bool) (coef : N) (x : list (V3 N)) (temp conc v : list N)
    (nbrs : list (list nat)) : outcome (list N) := divergence finite (species coef x temp conc v) 0 0 nbrs.
End Diffusion.
Arguments fluid N : clear implicits.
