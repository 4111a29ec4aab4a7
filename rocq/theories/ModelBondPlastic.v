(** * Plastic bond-associated correspondence materials

    Peridigm_ElasticPlasticBondAssociatedCorrespondenceMaterial.cpp:91-238,
    Peridigm_IsotropicHardeningPlasticBondAssociatedCorrespondenceMaterial.cpp:110-324,
    elastic_plastic_correspondence.cxx:920-1192 and isotropic_hardening_correspondence.cxx:1097-1369.
    What one bond does is what one point does (ModelJ2); the overloads with a flag for flying
    points (626-918; 722-1095) are not called.  The stress update at the points, for output
    only, is not modelled: with hardening it may end the run as well (MPI_Abort). *)
From Coq Require Import ZArith.
From Verif Require Import Base Num ModelNeigh ModelForce ModelCorr ModelPlastic ModelGlobal ModelJ2 ModelBondAssoc.

Section Plastic.
  Context {N : Num}.
  Local Open Scope num_scope.

  (** what a material does with a bond: time step, unrotated rate of deformation, old stress, old
      plastic strain; and the triaxiality it stores, from what is in the new stress field
      beforehand and the result *)
  Record bond_law := Law { l_step : N -> M3 N -> M3 N -> N -> outcome (J2 N); l_tri : M3 N -> J2 N -> N }.
  (** updateBondLevelElasticPerfectlyPlasticCauchyStress, elastic_plastic_correspondence.cxx:1033-1190 *)
  Definition perfect_bond (K G Y : N) : bond_law := Law (fun dt d s e => Ok (perfect K G Y dt d s e)) (fun _ r => triaxiality r).
  (** updateBondLevelElasticIsotropicPowerlawHardeningPlasticCauchyStress, isotropic_hardening_correspondence.cxx:1199-1230 *)
  Definition power_bond (powf : N -> N -> N) (K G Y eps0 n : N) : bond_law :=
    Law (radial_return (power_stress powf Y eps0 n) (power_slope powf Y eps0 n) K G) (fun _ r => triaxiality r).
  (** updateBondLevelElasticIsotropicSaturationExponentialHardeningPlasticCauchyStress, 1340-1367: the
      triaxiality (1361-1362) is computed before the new stress is stored (1364-1366) *)
  Definition satexp_bond (expf : N -> N) (K G Y Ysat c lin : N) : bond_law :=
    Law (radial_return (satexp_stress expf Y Ysat c lin) (satexp_slope expf Y Ysat c lin) K G)
        (fun kept r => trace kept / (3 * nmax floor20 (j_vm r))).

  (** the triaxialities of all bonds, in the loops above *)
  Fixpoint triaxialities (tri : M3 N -> J2 N -> N) (kept : list (M3 N)) (js : list (J2 N)) : outcome (list N) :=
    match kept, js with
    | [], [] => Ok []
    | a :: kept, r :: js => let? l := triaxialities tri kept js in Ok (tri a r :: l)
    | _, _ => UB
    end.

  (** computeForce, BondAssociatedCorrespondenceMaterial.cpp:571-1025, with computeCauchyStress of a
      plastic material: [sN], [eN] are stress and plastic strain at STEP_N, [kept] is what the
      stress field holds at STEP_NP1 beforehand.  New bond states, results and triaxialities of
      the bonds, force densities. *)
  Definition ba_plastic_force (sinf cosf : N -> N) (law : bond_law) (dt : N) (x y vel : list (V3 N)) (v : list N) (nbrs : list (list nat))
    (s : ba_state) (Fs Gs : list (M3 N)) (st : list bst) (sN kept : list (M3 N)) (eN : list N)
    : outcome (list bst * list (J2 N) * list N * list (V3 N))%type :=
    if negb (Z.eqb (node_code Fs) 0) then Err else
    let? kin := bond_kinematics sinf cosf dt x y vel Fs Gs (s_wt s) st 0 0 nbrs in
    let? js := each_point (l_step law dt) (map snd kin) sN eN in
    let? tri := triaxialities (l_tri law) kept js in
    let P := map (fun c => bond_piola (fst (fst c)) (j_stress (snd c))) (combine kin js) in
    let? Is := integrals x v (s_w0 s) (s_wt s) P 0 0 nbrs in
    let? (f, _) := run_kernel (ba_force x v (s_w0 s) (s_wt s) P Is) nbrs (repeat vzero (length y)) in
    Ok (map fst kin, js, tri, f).

  (** initialize, 110-112 and 129-131: no plastic strain *)
  Definition ba_plastic_strains (nbrs : list (list nat)) : list N := repeat 0 (length (concat nbrs)).
End Plastic.
Arguments bond_law : clear implicits.
