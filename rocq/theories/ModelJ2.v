(** * Stress updates of the correspondence materials

    src/materials/elastic_correspondence.cxx, elastic_plastic_correspondence.cxx and
    isotropic_hardening_correspondence.cxx: the functions that turn the unrotated rate of
    deformation of a point into its new unrotated Cauchy stress.  The state of a point is
    its stress, its equivalent plastic strain and what is reported with them.  exp and pow
    are arguments. *)
From Coq Require Import ZArith.
From Verif Require Import Base Num ModelForce ModelCorr ModelPlastic ModelGlobal.

Section J2.
  Context {N : Num}.
  Local Open Scope num_scope.

  (** the same number added to or taken from entries 0, 4 and 8, e.g. elastic_correspondence.cxx:95-97, 111-113 *)
  Definition diag_add (a : M3 N) (k : N) : M3 N := m3 (m0 a + k) (m1 a) (m2 a) (m3_ a) (m4 a + k) (m5 a) (m6 a) (m7 a) (m8 a + k).
  Definition diag_sub (a : M3 N) (k : N) : M3 N := m3 (m0 a - k) (m1 a) (m2 a) (m3_ a) (m4 a - k) (m5 a) (m6 a) (m7 a) (m8 a - k).
  (** every entry divided, elastic_plastic_correspondence.cxx:211-217 *)
  Definition mdivr (a : M3 N) (k : N) : M3 N :=
    m3 (m0 a / k) (m1 a / k) (m2 a / k) (m3_ a / k) (m4 a / k) (m5 a / k) (m6 a / k) (m7 a / k) (m8 a / k).
  (** the contraction loops, e.g. elastic_plastic_correspondence.cxx:134-140: the sum runs over the entries 0..8 from 0.0 *)
  Definition contract (a b : M3 N) : N :=
    0 + m0 a * m0 b + m1 a * m1 b + m2 a * m2 b + m3_ a * m3_ b + m4 a * m4 b + m5 a * m5 b + m6 a * m6 b + m7 a * m7 b + m8 a * m8 b.

  (** elastic_plastic_correspondence.cxx:102-115: the strain increment, its trace and its deviator *)
  Definition strain_inc (dt : N) (d : M3 N) : M3 N := mmulr d dt.
  Definition dilatation_inc (dt : N) (d : M3 N) : N := trace (strain_inc dt d).
  Definition dev_inc (dt : N) (d : M3 N) : M3 N := diag_sub (strain_inc dt d) (dilatation_inc dt d / 3).
  (** elastic_plastic_correspondence.cxx:117-123; elastic_correspondence.cxx:108-114 *)
  Definition hooke (K G : N) (s e : M3 N) (dil : N) : M3 N := diag_add (madd s (mmulr (mmulr e 2) G)) (K * dil).

  (** updateElasticCauchyStress for one point, elastic_correspondence.cxx:57-116.  [temps] are the
      temperature changes at steps N and N+1 when both pointers are set. *)
  Definition elastic (K G alpha dt : N) (temps : option (N * N)) (d s : M3 N) : M3 N :=
    let dil := dilatation_inc dt d in
    let dil := match temps with Some (tN, tNP1) => dil - 3 * (alpha * tNP1 - alpha * tN) | None => dil end in
    hooke K G s (dev_inc dt d) dil.

  (** elastic_plastic_correspondence.cxx:117-132: the trial stress with its spherical part and its deviator *)
  Definition trial (K G dt : N) (d s : M3 N) : M3 N := hooke K G s (dev_inc dt d) (dilatation_inc dt d).
  Definition spherical (s : M3 N) : N := trace s / 3.
  Definition deviator (s : M3 N) : M3 N := diag_sub s (spherical s).
  (** elastic_plastic_correspondence.cxx:142 *)
  Definition von_mises (dev : M3 N) : N := sqr_root (3 / 2 * contract dev dev).
  (** 1.0e-20 *)
  Definition floor20 : N := lit 1 (10 ^ 20).
  (** std::max(1.0e-20,sqrt(tempScalar)), elastic_plastic_correspondence.cxx:151, 209 *)
  Definition magnitude (dev : M3 N) : N := nmax floor20 (sqr_root (contract dev dev)).

  (** elastic_plastic_correspondence.cxx:191-231: the new equivalent plastic strain of a plastic step,
      from the strain increment, the new deviator, the magnitude the trial deviator had, the old stress *)
  Definition eqps_update (G eN : N) (e dev : M3 N) (mag : N) (s : M3 N) : N :=
    let devN := deviator s in
    let magN := magnitude devN in
    let tempA := msub e (mdivr (mdivr (msub dev devN) 2) G) in
    let tempB := mdivr (madd (mdivr dev mag) (mdivr devN magN)) 2 in
    eN + nmax 0 (sqr_root (2 / 3) * contract tempA tempB).

  (** new stress, reported von Mises stress, new equivalent plastic strain *)
  Record J2 := j2 { j_stress : M3 N; j_vm : N; j_eqps : N }.

  (** elastic_plastic_correspondence.cxx:150-231: the trial deviator scaled to the surface [Y] *)
  Definition radial (G Y eN : N) (e s dev : M3 N) (sph mag : N) : J2 :=
    let dev' := mmulr dev (sqr_root (2 / 3) * Y / mag) in
    j2 (diag_add dev' sph) (von_mises dev') (eqps_update G eN e dev' mag s).

  (** updateElasticPerfectlyPlasticCauchyStress for one point, elastic_plastic_correspondence.cxx:57-238 *)
  Definition perfect (K G Y dt : N) (d s : M3 N) (eN : N) : J2 :=
    let tr := trial K G dt d s in
    let dev := deviator tr in
    let vm := von_mises dev in
    if Y <? vm then radial G Y eN (dev_inc dt d) s dev (spherical tr) (magnitude dev)
    else j2 tr vm eN.

  (** std::max(1.0e-20,*vmStress) and the triaxiality, elastic_plastic_correspondence.cxx:431 *)
  Definition triaxiality (r : J2) : N := trace (j_stress r) / (3 * nmax floor20 (j_vm r)).
  (** the second overload, elastic_plastic_correspondence.cxx:242-434: a point flying away keeps what is stored *)
  Definition perfect_tri (K G Y dt : N) (flag : N) (d s : M3 N) (eN : N) (stored : J2 * N) : (J2 * N)%type :=
    if flag <? 0 then let r := perfect K G Y dt d s eN in (r, triaxiality r) else stored.

  (** isotropic_hardening_correspondence.cxx:165-178: the yield stress reduced around a flaw *)
  Definition reduced (expf : N -> N) (Y : N) (flaw : option (V3 N * N * N)) (X : V3 N) : N :=
    match flaw with
    | Some (c, size, mag) =>
        Y * (1 - mag * expf (((- (vx X - vx c)) * (vx X - vx c) - (vy X - vy c) * (vy X - vy c) - (vz X - vz c) * (vz X - vz c)) / size / size))
    | None => Y
    end.
  (** isotropic_hardening_correspondence.cxx:192-226: the plastic multiplier from the trial deviator *)
  Definition delta_lambda (G H y : N) (e dev : M3 N) (mag : N) (s : M3 N) : N :=
    let devN := deviator s in
    (ofZ 6 * (contract dev e / mag) * G + 3 * sqr_root (contract devN devN) - sqr_root (ofZ 6) * y) / (2 * (H + 3 * G)).
  (** updateElasticIsotropicHardeningPlasticCauchyStress for one point whose reduced yield stress is [Y],
      isotropic_hardening_correspondence.cxx:57-326 *)
  Definition hardening (K G Y H dt : N) (d s : M3 N) (eN : N) : J2 :=
    let e := dev_inc dt d in
    let tr := trial K G dt d s in
    let dev := deviator tr in
    let mag := magnitude dev in
    let vm := von_mises dev in
    if vm <? Y then j2 tr vm eN
    else
      let surface := Y + H * (eN + sqr_root (2 / 3) * delta_lambda G H Y e dev mag s) in
      if surface <? vm then radial G surface eN e s dev (spherical tr) mag
      else j2 tr vm eN.

  (** isotropic_hardening_correspondence.cxx:492-493, 506-507 with the two terms in the order written there *)
  Definition delta_lambda2 (G H y : N) (e dev : M3 N) (mag : N) (s : M3 N) : N :=
    let devN := deviator s in
    (ofZ 6 * (contract dev e / mag) * G - sqr_root (ofZ 6) * y + 3 * sqr_root (contract devN devN)) / (2 * (H + 3 * G)).
  (** updateElasticIsotropicPowerlawHardeningPlasticCauchyStress with the flying point flag,
      isotropic_hardening_correspondence.cxx:329-614.  The triaxiality is computed inside the
      else branch of "elastic it is" (609-611): a definitely elastic step leaves what is stored. *)
  Definition power_law (powf : N -> N -> N) (K G Y eps0 n dt : N) (flag : N) (d s : M3 N) (eN : N) (stored : J2 * N) : (J2 * N)%type :=
    if flag <? 0 then
      let e := dev_inc dt d in
      let tr := trial K G dt d s in
      let dev := deviator tr in
      let mag := magnitude dev in
      let vm := von_mises dev in
      let surfaceN := Y * powf (1 + eN / eps0) n in
      if vm <? surfaceN then (j2 tr vm eN, snd stored)
      else
        let modulus ep := Y * n / eps0 * powf (1 + ep / eps0) (n - 1) in
        let dl := delta_lambda2 G (modulus eN) surfaceN e dev mag s in
        let ep := eN + sqr_root (2 / 3) * dl in
        let h := lit 1 2 * (modulus eN + modulus ep) in
        let dl := delta_lambda2 G h surfaceN e dev mag s in
        let surface := Y * powf (1 + (eN + sqr_root (2 / 3) * dl) / eps0) n in
        let r := if surface <? vm then radial G surface eN e s dev (spherical tr) mag else j2 tr vm eN in
        (r, triaxiality r)
    else stored.

  (** ** The Newton return, radialReturnPowerlaw and radialReturnSaturationExponential,
      isotropic_hardening_correspondence.cxx:1372-1530 and 1533-1690.  [law] is the hardened yield
      stress at an equivalent plastic strain and [slope] the modulus the code uses with it. *)
  (** the loop 1489-1525 ([budget] iterations are still allowed; then MPI_Abort): the stress, the plastic
      strain and the plastic increment when it ends *)
  Fixpoint newton (law slope : N -> N) (G tol vm : N) (flow : M3 N) (budget : nat) (f : N) (s : M3 N) (ep p : N) : outcome (M3 N * N * N)%type :=
    if tol <? nabs f then
      match budget with
      | O => Err
      | S budget =>
          let dp := f / (3 * G + slope ep) in
          let p := p + dp in
          let ep := ep + dp in
          let s := msub s (mscale (sqr_root (ofZ 6) * G * dp) flow) in
          newton law slope G tol vm flow budget (vm - 3 * G * p - law ep) s ep p
      end
    else Ok (s, ep, p).
  Definition max_iterations : nat := 100.
  Definition radial_return (law slope : N -> N) (K G dt : N) (d s : M3 N) (eN : N) : outcome J2 :=
    let tr := trial K G dt d s in
    let dev := deviator tr in
    let mag := magnitude dev in
    let vm := von_mises dev in
    let f := vm - law eN in
    if f <? 0 then Ok (j2 tr vm eN)
    else
      let? (s', ep, p) := newton law slope G (lit 1 (10 ^ 16) * K) vm (mdivr dev mag) max_iterations f tr eN 0 in
      Ok (j2 s' (vm - 3 * G * p) ep).

  (** the yield stress and the modulus of the two hardening laws: 1463, 1499; 1624, 1660 *)
  Definition power_stress (powf : N -> N -> N) (Y eps0 n : N) (e : N) : N := Y * powf (1 + e / eps0) n.
  Definition power_slope (powf : N -> N -> N) (Y eps0 n : N) (e : N) : N := Y * n / eps0 * powf (1 + e / eps0) (n - 1).
  Definition satexp_stress (expf : N -> N) (Y Ysat c lin : N) (e : N) : N := Y + (Ysat - Y) * (1 - expf (- c * e)) + lin * e.
  Definition satexp_slope (expf : N -> N) (Y Ysat c lin : N) (e : N) : N := c * (Ysat - Y) * expf (- c * e) + lin.

  (** the loops over the points, e.g. elastic_plastic_correspondence.cxx:99-100: every array has the
      entries of as many points *)
  Fixpoint each_point (step : M3 N -> M3 N -> N -> outcome J2) (ds ss : list (M3 N)) (es : list N) : outcome (list J2) :=
    match ds, ss, es with
    | [], [], [] => Ok []
    | d :: ds, s :: ss, e :: es =>
        let? r := step d s e in
        let? rs := each_point step ds ss es in
        Ok (r :: rs)
    | _, _, _ => UB
    end.

  (** the states one point goes through: before every step what was computed at N+1 becomes what is
      stored at N (State.cpp, updateState), then the stress update runs with the time step and the
      rate of that step *)
  Fixpoint history (step : N -> M3 N -> M3 N -> N -> outcome J2) (steps : list (N * M3 N)) (s : M3 N) (e : N) : outcome (list J2) :=
    match steps with
    | [] => Ok []
    | (dt, d) :: steps =>
        let? r := step dt d s e in
        let? rs := history step steps (j_stress r) (j_eqps r) in
        Ok (r :: rs)
    end.
End J2.
Arguments J2 : clear implicits.
