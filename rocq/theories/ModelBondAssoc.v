(** * Bond-associated correspondence material

    src/materials/correspondence.cxx:560-600 and 3040-4480, and
    Peridigm_BondAssociatedCorrespondenceMaterial.cpp.  The influence function, sin and cos
    and the singular value decomposition (dsvd, correspondence.cxx:282-556) are arguments.
    Bond fields are lists in the order of the bonds; the nine or three scalar fields of one
    tensor or vector are kept together, and so are the influence state and the gradient
    weights of a bond.  The Green-Lagrange strain and the node level rotation and stress,
    which are output only, are not modelled, except for the return code of the rotation. *)
From Coq Require Import ZArith.
From Verif Require Import Base Num ModelNeigh ModelForce ModelCorr.

Section Weights.
  Context {N : Num} (omega : N -> N -> N).
  Local Open Scope num_scope.

  (** ** Monomials *)

  (** the exponents of one order, correspondence.cxx:3102-3109: the x-power runs from the
      order down to 0, the y-power from what is left down to 0 *)
  Definition powers_of (o : nat) : list (nat * nat * nat) :=
    flat_map (fun i => map (fun j => (o - i, i - j, j)%nat) (seq 0 (S i))) (seq 0 (S o)).
  (** all orders from 1 to the accuracy order, 3101; a negative order gives none *)
  Definition powers (order : Z) : list (nat * nat * nat) := flat_map powers_of (seq 1 (Z.to_nat order)).
  (** [for(i=0; i<n; i++) q *= a], 3159-3164 *)
  Fixpoint times (n : nat) (a q : N) : N := match n with O => q | S m => times m a (q * a) end.
  (** one entry of Q, 3158-3164 *)
  Definition monomial (delta : N) (xi : V3 N) (e : nat * nat * nat) : N :=
    let '(p1, p2, p3) := e in
    times p3 (vz xi / delta) (times p2 (vy xi / delta) (times p1 (vx xi / delta) 1)).

  (** ** Moment matrix and its inverse *)

  (** what the two neighbour loops use of a bond: bond vector, influence state, neighbour volume *)
  Record bdat := Bdat { b_xi : V3 N; b_om : N; b_vol : N }.
  (** entry (i, j) is accumulated over the bonds, 3174-3177 *)
  Definition moment_matrix (delta : N) (ps : list (nat * nat * nat)) (bs : list bdat) : list (list N) :=
    map (fun ei => map (fun ej =>
      fold_left (fun s b => s + b_om b * b_vol b * monomial delta (b_xi b) ei * monomial delta (b_xi b) ej) bs 0) ps) ps.
  (** invertAndCond, 560-600: return code and pseudo-inverse; [svd] gives u, w and v *)
  Definition invert_cond (svd : list (list N) -> list (list N) * list N * list (list N)) (thres : N) (M : list (list N))
    : (Z * list (list N))%type :=
    let '(u, w, v) := svd M in
    (0%Z, map (fun vi => map (fun uj =>
            fold_left (fun s c => let '(wk, (vik, ujk)) := c in if thres <? wk then s + vik * 1 / wk * ujk else s)
              (combine w (combine vi uj)) 0) u) v).

  (** ** Gradient weights of one point, 3126-3247 *)

  (** the first neighbour loop, 3136-3172: influence times (1 - bond damage) *)
  Fixpoint gather (x : list (V3 N)) (v dmg : list N) (delta : N) (X : V3 N) (k : nat) (js : list nat) : outcome (list bdat) :=
    match js with
    | [] => Ok []
    | j :: js' =>
      let? XP := at_ub x j in
      let? vj := at_ub v j in
      let? d := at_ub dmg k in
      let xi := vsub XP X in
      let? r := gather x v dmg delta X (1 + k) js' in
      Ok (Bdat xi (omega (vlen xi) delta * (1 - d)) vj :: r)
    end.
  (** one gradient weight, 3222-3237: [row] is the row of the inverse.  When the accuracy
      order is below one there are no rows and no monomials, and the loop does nothing. *)
  Definition phi (delta : N) (ps : list (nat * nat * nat)) (row : list N) (b : bdat) : N :=
    fold_left (fun s c => s + 1 * b_om b * fst c * monomial delta (b_xi b) (snd c) / delta) (combine row ps) 0.
  (** the fields of a bond: Influence_State and Gradient_Weight_X, Y, Z *)
  Record bw := Bw { w_om : N; w_phi : V3 N }.
  (** return code of the inversion, and the bonds' new fields *)
  Definition point_weights svd (order : Z) (x : list (V3 N)) (v hs dmg : list N) (p k : nat) (js : list nat)
    : outcome (Z * list bw)%type :=
    let? delta := at_ub hs p in
    let? X := at_ub x p in
    let? bs := gather x v dmg delta X k js in
    let ps := powers order in
    let thres := lit 1 1000000 * delta * delta * delta in
    let '(rc, Minv) := invert_cond svd thres (moment_matrix delta ps bs) in
    let row a := nth a Minv [] in
    Ok (rc, map (fun b => Bw (b_om b) (v3 (phi delta ps (row 0%nat) b) (phi delta ps (row 1%nat) b) (phi delta ps (row 2%nat) b))) bs).

  (** the [n] entries of a bond field from number [k] on, which stay as they are, 3249-3257 *)
  Definition slice {A} (l : list A) (k n : nat) : outcome (list A) :=
    if (k + n <=? length l)%nat then Ok (firstn n (skipn k l)) else UB.
  (** computeLagrangianGradientWeights, 3062-3261: return code, bond fields, flags *)
  Fixpoint weights_from svd (order : Z) (x : list (V3 N)) (v hs dmg : list N) (p k : nat) (nbrs : list (list nat))
    (flags : list N) (old : list bw) (code : Z) : outcome (Z * list bw * list N)%type :=
    match nbrs with
    | [] => Ok (code, [], [])
    | js :: rest =>
      let? flag := at_ub flags p in
      let? (code, bws, flag) :=
        if flag <? lit 1 2 then
          let? (rc, l) := point_weights svd order x v hs dmg p k js in
          Ok (if (0 <? rc)%Z then rc else code, l, 1)
        else let? l := slice old k (length js) in Ok (code, l, flag) in
      let? (code, r, fs) := weights_from svd order x v hs dmg (1 + p) (length js + k) rest flags old code in
      Ok (code, bws ++ r, flag :: fs)
    end.
  Definition gradient_weights svd order x v hs dmg nbrs flags old := weights_from svd order x v hs dmg 0 0 nbrs flags old 0%Z.

  (** updateGradientWeightEvaluationFlag, 3040-3059 *)
  Definition update_flag (dN dNP1 flag : N) : N := if lit 1 1000000000000000 <? dNP1 - dN then 0 else flag.
  Fixpoint update_flags (dN dNP1 flags : list N) : outcome (list N) :=
    match flags with
    | [] => Ok []
    | f :: fs =>
      match dN, dNP1 with
      | a :: dN', b :: dNP1' => let? r := update_flags dN' dNP1' fs in Ok (update_flag a b f :: r)
      | _, _ => UB
      end
    end.

  (** ** Deformation gradient and weighted volume *)

  (** [*(defGrad+3i+c) += a_i * b_c * k], 3335-3342 *)
  Definition outer_r (a b : V3 N) (k : N) : M3 N :=
    m3 (vx a * vx b * k) (vx a * vy b * k) (vx a * vz b * k)
       (vy a * vx b * k) (vy a * vy b * k) (vy a * vz b * k)
       (vz a * vx b * k) (vz a * vy b * k) (vz a * vz b * k).
  (** the neighbour loop of 3321-3344 for one of the two fields, displacement or velocity *)
  Fixpoint grad_sum (v : list N) (u : list (V3 N)) (wt : list bw) (U : V3 N) (k : nat) (js : list nat) (acc : M3 N) : outcome (M3 N) :=
    match js with
    | [] => Ok acc
    | j :: js' =>
      let? vj := at_ub v j in
      let? UP := at_ub u j in
      let? w := at_ub wt k in
      grad_sum v u wt U (1 + k) js' (madd acc (outer_r (vsub UP U) (w_phi w) vj))
    end.
  (** computeDeformationGradient, 3273-3355, one of the two tensors: [start] is the unit
      tensor for the displacement and zero for the velocity *)
  Fixpoint gradients (start : M3 N) (v : list N) (u : list (V3 N)) (wt : list bw) (p k : nat) (nbrs : list (list nat)) : outcome (list (M3 N)) :=
    match nbrs with
    | [] => Ok []
    | js :: rest =>
      let? U := at_ub u p in
      let? F := grad_sum v u wt U k js start in
      let? r := gradients start v u wt (1 + p) (length js + k) rest in
      Ok (F :: r)
    end.
  Definition deformation_gradients v u wt nbrs := gradients mone v u wt 0 0 nbrs.
  Definition velocity_gradients v u wt nbrs := gradients mzero v u wt 0 0 nbrs.

  (** computeWeightedVolume, 3360-3386 *)
  Fixpoint volume_sum (v : list N) (wt : list bw) (k : nat) (js : list nat) (acc : N) : outcome N :=
    match js with
    | [] => Ok acc
    | j :: js' =>
      let? w := at_ub wt k in
      let? vj := at_ub v j in
      volume_sum v wt (1 + k) js' (acc + w_om w * vj)
    end.
  Fixpoint weighted_volumes (v : list N) (wt : list bw) (k : nat) (nbrs : list (list nat)) : outcome (list N) :=
    match nbrs with
    | [] => Ok []
    | js :: rest =>
      let? w := volume_sum v wt k js 0 in
      let? r := weighted_volumes v wt (length js + k) rest in
      Ok (w :: r)
    end.

  (** ** initialize and precompute, BondAssociatedCorrespondenceMaterial.cpp:360-569 and 1027-1116 *)

  (** bond fields, evaluation flags, weighted volumes *)
  Record ba_state := Ba { s_wt : list bw; s_flags : list N; s_w0 : list N }.
  Definition ba_initialize svd (order : Z) (x : list (V3 N)) (v hs : list N) (nbrs : list (list nat)) : outcome ba_state :=
    let nb := length (concat nbrs) in
    let zero := repeat (Bw 0 vzero) nb in
    let? (code, wt, flags) := gradient_weights svd order x v hs (repeat 0 nb) nbrs (repeat 0 (length nbrs)) zero in
    if negb (Z.eqb code 0) then Err else
    let? w0 := weighted_volumes v wt 0 nbrs in
    Ok (Ba wt flags w0).
  (** [dN], [dNP1] are the Damage field at the two steps, [dmg] is Bond_Damage at STEP_NP1 *)
  Definition ba_precompute svd (order : Z) (x : list (V3 N)) (v hs : list N) (nbrs : list (list nat)) (dN dNP1 dmg : list N)
    (u vel : list (V3 N)) (s : ba_state) : outcome (ba_state * list (M3 N) * list (M3 N))%type :=
    let? flags := update_flags dN dNP1 (s_flags s) in
    let? (code, wt, flags) := gradient_weights svd order x v hs dmg nbrs flags (s_wt s) in
    if negb (Z.eqb code 0) then Err else
    let? F := deformation_gradients v u wt nbrs in
    let? G := velocity_gradients v vel wt nbrs in
    Ok (Ba wt flags (s_w0 s), F, G).
End Weights.

Section Forces.
  Context {N : Num} (sinf cosf : N -> N).
  Local Open Scope num_scope.

  (** ** Bond level kinematics, correspondence.cxx:3616-4090 *)

  (** average of the gradients of the two ends, 3863-3870 *)
  Definition mean (a b : M3 N) : M3 N := mscale (lit 1 2) (madd a b).
  (** the row of the bond gradient for one component: [s] is the mean gradient applied to
      the bond, [d] the component of the deformed bond (or relative velocity), 3872-3900 *)
  Definition bond_gradient (a : M3 N) (xi d : V3 N) : M3 N :=
    let l2 := vx xi * vx xi + vy xi * vy xi + vz xi * vz xi in
    let s0 := m0 a * vx xi + m1 a * vy xi + m2 a * vz xi in
    let s1 := m3_ a * vx xi + m4 a * vy xi + m5 a * vz xi in
    let s2 := m6 a * vx xi + m7 a * vy xi + m8 a * vz xi in
    m3 (m0 a + (vx d - s0) * vx xi / l2) (m1 a + (vx d - s0) * vy xi / l2) (m2 a + (vx d - s0) * vz xi / l2)
       (m3_ a + (vy d - s1) * vx xi / l2) (m4 a + (vy d - s1) * vy xi / l2) (m5 a + (vy d - s1) * vz xi / l2)
       (m6 a + (vz d - s2) * vx xi / l2) (m7 a + (vz d - s2) * vy xi / l2) (m8 a + (vz d - s2) * vz xi / l2).
  (** what is kept of a bond between steps: left stretch, rotation; determinant and inverse
      of the bond gradient, which a bond without influence keeps from earlier *)
  Record bst := Bst { b_V : M3 N; b_R : M3 N; b_J : N; b_Finv : M3 N }.
  (** one bond, 3835-4086: new state and unrotated rate of deformation.  A singular bond
      gradient ends the run (MPI_Abort). *)
  Definition bond_step (dt : N) (om : N) (xi dY dU : V3 N) (F FP G GP : M3 N) (s : bst) : outcome (bst * M3 N)%type :=
    if 0 <? om then
      let Fb := bond_gradient (mean F FP) xi dY in
      let Gb := bond_gradient (mean G GP) xi dU in
      let '(rc, J, Finv) := invert Fb in
      if (0 <? rc)%Z then Err else
      let L := matmul false false 1 Gb Finv in
      let '(V1, R1, d) := rotation_step sinf cosf dt L (b_V s) (b_R s) in
      Ok (Bst V1 R1 J Finv, d)
    else Ok (Bst (b_V s) (b_R s) (b_J s) (b_Finv s), mzero).
  Fixpoint bond_steps (dt : N) (x y vel : list (V3 N)) (Fs Gs : list (M3 N)) (wt : list bw) (st : list bst)
    (X Y U : V3 N) (F G : M3 N) (k : nat) (js : list nat) : outcome (list (bst * M3 N)) :=
    match js with
    | [] => Ok []
    | j :: js' =>
      let? w := at_ub wt k in
      let? s := at_ub st k in
      let? o :=
        if 0 <? w_om w then
          let? XP := at_ub x j in
          let? YP := at_ub y j in
          let? UP := at_ub vel j in
          let? FP := at_ub Fs j in
          let? GP := at_ub Gs j in
          bond_step dt (w_om w) (vsub XP X) (vsub YP Y) (vsub UP U) F FP G GP s
        else bond_step dt (w_om w) vzero vzero vzero F F G G s in
      let? r := bond_steps dt x y vel Fs Gs wt st X Y U F G (1 + k) js' in
      Ok (o :: r)
    end.
  Fixpoint bond_kinematics (dt : N) (x y vel : list (V3 N)) (Fs Gs : list (M3 N)) (wt : list bw) (st : list bst)
    (p k : nat) (nbrs : list (list nat)) : outcome (list (bst * M3 N)) :=
    match nbrs with
    | [] => Ok []
    | js :: rest =>
      let? X := at_ub x p in
      let? Y := at_ub y p in
      let? U := at_ub vel p in
      let? F := at_ub Fs p in
      let? G := at_ub Gs p in
      let? l := bond_steps dt x y vel Fs Gs wt st X Y U F G k js in
      let? r := bond_kinematics dt x y vel Fs Gs wt st (1 + p) (length js + k) rest in
      Ok (l ++ r)
    end.

  (** ** Stress *)

  (** Hooke's law, elastic_correspondence.cxx:277-425, one bond (the von Mises stress is not modelled) *)
  Definition hooke (K mu dt : N) (d s : M3 N) : M3 N :=
    let e := mmulr d dt in
    let tr := m0 e + m4 e + m8 e in
    let dev := m3 (m0 e - tr / 3) (m1 e) (m2 e) (m3_ e) (m4 e - tr / 3) (m5 e) (m6 e) (m7 e) (m8 e - tr / 3) in
    let s' := madd s (mmulr (mmulr dev 2) mu) in
    m3 (m0 s' + K * tr) (m1 s') (m2 s') (m3_ s') (m4 s' + K * tr) (m5 s') (m6 s') (m7 s') (m8 s' + K * tr).
  (** rotateBondLevelCauchyStress and computeBondLevelPiolaStress, 4147-4245 and 4250-4371, one bond *)
  Definition bond_piola (s : bst) (sigma : M3 N) : M3 N :=
    matmul false true (b_J s) (rotate_stress (b_R s) sigma) (b_Finv s).

  (** computeStressIntegral, 4377-4480 *)
  Definition off_axis (xi : V3 N) : M3 N :=
    let l2 := vx xi * vx xi + vy xi * vy xi + vz xi * vz xi in
    let t1 := opp (vx xi) * vy xi / l2 in
    let t2 := opp (vx xi) * vz xi / l2 in
    let t5 := opp (vy xi) * vz xi / l2 in
    m3 (1 - vx xi * vx xi / l2) t1 t2 t1 (1 - vy xi * vy xi / l2) t5 t2 t5 (1 - vz xi * vz xi / l2).
  Fixpoint integral_sum (x : list (V3 N)) (v w0 : list N) (wt : list bw) (P : list (M3 N)) (X : V3 N) (w : N) (k : nat) (js : list nat)
    (acc : M3 N) : outcome (M3 N) :=
    match js with
    | [] => Ok acc
    | j :: js' =>
      let? b := at_ub wt k in
      let? acc :=
        if 0 <? w_om b then
          let? vj := at_ub v j in
          let? XP := at_ub x j in
          let? wj := at_ub w0 j in
          let? s := at_ub P k in
          let i := matmul false false 1 s (off_axis (vsub XP X)) in
          Ok (madd acc (mscale (w_om b * (lit 1 2 / w + lit 1 2 / wj) * vj) i))
        else Ok acc in
      integral_sum x v w0 wt P X w (1 + k) js' acc
    end.
  Fixpoint integrals (x : list (V3 N)) (v w0 : list N) (wt : list bw) (P : list (M3 N)) (p k : nat) (nbrs : list (list nat)) : outcome (list (M3 N)) :=
    match nbrs with
    | [] => Ok []
    | js :: rest =>
      let? X := at_ub x p in
      let? w := at_ub w0 p in
      let? s := integral_sum x v w0 wt P X w k js mzero in
      let? r := integrals x v w0 wt P (1 + p) (length js + k) rest in
      Ok (s :: r)
    end.

  (** ** Force, BondAssociatedCorrespondenceMaterial.cpp:976-1024

      The bonds without influence, which the source skips, add a zero force here. *)
  Definition ba_force (x : list (V3 N)) (v w0 : list N) (wt : list bw) (P Is : list (M3 N)) : kernel N (V3 N * N * M3 N)%type unit :=
    Kernel _ _
      (fun p k js =>
         let? X := at_ub x p in
         let? w := at_ub w0 p in
         let? Si := at_ub Is p in
         Ok (X, w, Si))
      (fun d p k j =>
         let '(X, w, Si) := d in
         let? b := at_ub wt k in
         if 0 <? w_om b then
           let? XP := at_ub x j in
           let? s := at_ub P k in
           let xi := vsub XP X in
           let l2 := vx xi * vx xi + vy xi * vy xi + vz xi * vz xi in
           let q := mapply s xi in
           let t := v3 (w_om b / w * vx q / l2) (w_om b / w * vy q / l2) (w_om b / w * vz q / l2) in
           Ok (vadd t (mapply Si (w_phi b)), tt)
         else Ok (vzero, tt))
      (cell_volumes v).

  (** what initialize puts into the bond fields, 415-470 and 505-515: unit stretch, rotation,
      determinant and inverse; no stress *)
  Definition ba_bonds (nbrs : list (list nat)) : list bst := repeat (Bst mone mone 1 mone) (length (concat nbrs)).
  Definition ba_stresses (nbrs : list (list nat)) : list (M3 N) := repeat mzero (length (concat nbrs)).

  (** Return code of the node level rotation, correspondence.cxx:3391-3610.  The stretches and
      rotations themselves are for output only (697) and are not modelled; the code of the
      second inversion is not looked at (3515). *)
  Definition node_code (Fs : list (M3 N)) : Z :=
    fold_left (fun rc F => let '(c, _, _) := invert F in if Z.ltb 0 c then c else rc) Fs 0%Z.

  (** computeForce, 571-1025, with the stress update of one bond as an argument ([hooke] for
      the elastic material): new bond states, new unrotated stresses, force densities.  The
      forces start from zero (line 578). *)
  Definition ba_compute_force (cauchy : N -> M3 N -> M3 N -> M3 N) (dt : N) (x y vel : list (V3 N)) (v : list N) (nbrs : list (list nat))
    (s : ba_state) (Fs Gs : list (M3 N)) (st : list bst) (sN : list (M3 N)) : outcome (list bst * list (M3 N) * list (V3 N))%type :=
    if negb (Z.eqb (node_code Fs) 0) then Err else
    let? kin := bond_kinematics dt x y vel Fs Gs (s_wt s) st 0 0 nbrs in
    let s1 := map (fun c => cauchy dt (snd (fst c)) (snd c)) (combine kin sN) in
    let P := map (fun c => bond_piola (fst (fst c)) (snd c)) (combine kin s1) in
    let? Is := integrals x v (s_w0 s) (s_wt s) P 0 0 nbrs in
    let? (f, _) := run_kernel (ba_force x v (s_w0 s) (s_wt s) P Is) nbrs (repeat vzero (length y)) in
    Ok (map fst kin, s1, f).
End Forces.
