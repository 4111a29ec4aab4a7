(** * Correspondence materials: tensors, deformation gradient, rotation, force

    src/materials/correspondence.cxx and Peridigm_CorrespondenceMaterial.cpp.  A tensor is
    the nine numbers of one point, row by row.  The influence function, sin and cos are
    arguments.  The bond damage placeholder of the source, which is the constant 0.0, is
    written as the factor (1.0 - 0.0) it contributes. *)
From Coq Require Import ZArith.
From Verif Require Import Base Num ModelNeigh ModelForce.

Section Tensor.
  Context {N : Num}.
  Local Open Scope num_scope.

  (** entries 0..8 of the array *)
  Record M3 := m3 { m0 : N; m1 : N; m2 : N; m3_ : N; m4 : N; m5 : N; m6 : N; m7 : N; m8 : N }.
  (** zeroed storage, e.g. correspondence.cxx:853-858 *)
  Definition mzero : M3 := m3 0 0 0 0 0 0 0 0 0.
  (** setOnesOnDiagonalFullTensor on zeroed storage, correspondence.cxx:62-71 *)
  Definition mone : M3 := m3 1 0 0 0 1 0 0 0 1.
  (** entry by entry, e.g. correspondence.cxx:1165-1170 *)
  Definition madd (a b : M3) : M3 :=
    m3 (m0 a + m0 b) (m1 a + m1 b) (m2 a + m2 b) (m3_ a + m3_ b) (m4 a + m4 b) (m5 a + m5 b) (m6 a + m6 b) (m7 a + m7 b) (m8 a + m8 b).
  Definition msub (a b : M3) : M3 :=
    m3 (m0 a - m0 b) (m1 a - m1 b) (m2 a - m2 b) (m3_ a - m3_ b) (m4 a - m4 b) (m5 a - m5 b) (m6 a - m6 b) (m7 a - m7 b) (m8 a - m8 b).
  Definition mscale (k : N) (a : M3) : M3 :=
    m3 (k * m0 a) (k * m1 a) (k * m2 a) (k * m3_ a) (k * m4 a) (k * m5 a) (k * m6 a) (k * m7 a) (k * m8 a).
  (** every entry times a factor on the right, e.g. correspondence.cxx:194-204 *)
  Definition mmulr (a : M3) (k : N) : M3 :=
    m3 (m0 a * k) (m1 a * k) (m2 a * k) (m3_ a * k) (m4 a * k) (m5 a * k) (m6 a * k) (m7 a * k) (m8 a * k).
  (** TransposeMatrix, correspondence.cxx:122-143 *)
  Definition mtrans (a : M3) : M3 := m3 (m0 a) (m3_ a) (m6 a) (m1 a) (m4 a) (m7 a) (m2 a) (m5 a) (m8 a).

  (** Invert3by3Matrix, correspondence.cxx:74-119: return code, determinant, inverse *)
  Definition invert (a : M3) : (Z * N * M3)%type :=
    let minor0 := m4 a * m8 a - m5 a * m7 a in
    let minor1 := m3_ a * m8 a - m5 a * m6 a in
    let minor2 := m3_ a * m7 a - m4 a * m6 a in
    let minor3 := m1 a * m8 a - m2 a * m7 a in
    let minor4 := m0 a * m8 a - m6 a * m2 a in
    let minor5 := m0 a * m7 a - m1 a * m6 a in
    let minor6 := m1 a * m5 a - m2 a * m4 a in
    let minor7 := m0 a * m5 a - m2 a * m3_ a in
    let minor8 := m0 a * m4 a - m1 a * m3_ a in
    let det := m0 a * minor0 - m1 a * minor1 + m2 a * minor2 in
    if det =? 0 then (1%Z, det, mzero)
    else (0%Z, det,
          m3 (minor0 / det) (opp 1 * minor3 / det) (minor6 / det)
             (opp 1 * minor1 / det) (minor4 / det) (opp 1 * minor7 / det)
             (minor2 / det) (opp 1 * minor5 / det) (minor8 / det)).

  (** MatrixMultiply, correspondence.cxx:146-217 *)
  Definition mul_nn (a b : M3) : M3 :=
    m3 (m0 a * m0 b + m1 a * m3_ b + m2 a * m6 b) (m0 a * m1 b + m1 a * m4 b + m2 a * m7 b) (m0 a * m2 b + m1 a * m5 b + m2 a * m8 b)
       (m3_ a * m0 b + m4 a * m3_ b + m5 a * m6 b) (m3_ a * m1 b + m4 a * m4 b + m5 a * m7 b) (m3_ a * m2 b + m4 a * m5 b + m5 a * m8 b)
       (m6 a * m0 b + m7 a * m3_ b + m8 a * m6 b) (m6 a * m1 b + m7 a * m4 b + m8 a * m7 b) (m6 a * m2 b + m7 a * m5 b + m8 a * m8 b).
  Definition mul_tn (a b : M3) : M3 :=
    m3 (m0 a * m0 b + m3_ a * m3_ b + m6 a * m6 b) (m0 a * m1 b + m3_ a * m4 b + m6 a * m7 b) (m0 a * m2 b + m3_ a * m5 b + m6 a * m8 b)
       (m1 a * m0 b + m4 a * m3_ b + m7 a * m6 b) (m1 a * m1 b + m4 a * m4 b + m7 a * m7 b) (m1 a * m2 b + m4 a * m5 b + m7 a * m8 b)
       (m2 a * m0 b + m5 a * m3_ b + m8 a * m6 b) (m2 a * m1 b + m5 a * m4 b + m8 a * m7 b) (m2 a * m2 b + m5 a * m5 b + m8 a * m8 b).
  Definition mul_nt (a b : M3) : M3 :=
    m3 (m0 a * m0 b + m1 a * m1 b + m2 a * m2 b) (m0 a * m3_ b + m1 a * m4 b + m2 a * m5 b) (m0 a * m6 b + m1 a * m7 b + m2 a * m8 b)
       (m3_ a * m0 b + m4 a * m1 b + m5 a * m2 b) (m3_ a * m3_ b + m4 a * m4 b + m5 a * m5 b) (m3_ a * m6 b + m4 a * m7 b + m5 a * m8 b)
       (m6 a * m0 b + m7 a * m1 b + m8 a * m2 b) (m6 a * m3_ b + m7 a * m4 b + m8 a * m5 b) (m6 a * m6 b + m7 a * m7 b + m8 a * m8 b).
  Definition mul_tt (a b : M3) : M3 :=
    m3 (m0 a * m0 b + m3_ a * m1 b + m6 a * m2 b) (m0 a * m3_ b + m3_ a * m4 b + m6 a * m5 b) (m0 a * m6 b + m3_ a * m7 b + m6 a * m8 b)
       (m1 a * m0 b + m4 a * m1 b + m7 a * m2 b) (m1 a * m3_ b + m4 a * m4 b + m7 a * m5 b) (m1 a * m6 b + m4 a * m7 b + m7 a * m8 b)
       (m2 a * m0 b + m5 a * m1 b + m8 a * m2 b) (m2 a * m3_ b + m5 a * m4 b + m8 a * m5 b) (m2 a * m6 b + m5 a * m7 b + m8 a * m8 b).
  Definition matmul (ta tb : bool) (alpha : N) (a b : M3) : M3 :=
    let r := if ta then (if tb then mul_tt a b else mul_tn a b) else (if tb then mul_nt a b else mul_nn a b) in
    if alpha =? 1 then r else mmulr r alpha.

  (** [*(temp+3i+j) += k * a_i * b_j], e.g. correspondence.cxx:881-899 *)
  Definition outer (k : N) (a b : V3 N) : M3 :=
    m3 (k * vx a * vx b) (k * vx a * vy b) (k * vx a * vz b)
       (k * vy a * vx b) (k * vy a * vy b) (k * vy a * vz b)
       (k * vz a * vx b) (k * vz a * vy b) (k * vz a * vz b).
  (** matrix times bond, e.g. Peridigm_CorrespondenceMaterial.cpp:342-344 *)
  Definition mapply (a : M3) (b : V3 N) : V3 N :=
    v3 (m0 a * vx b + m1 a * vy b + m2 a * vz b) (m3_ a * vx b + m4 a * vy b + m5 a * vz b) (m6 a * vx b + m7 a * vy b + m8 a * vz b).
End Tensor.
Arguments M3 : clear implicits.

Section Corr.
  Context {N : Num} (omega : N -> N -> N) (sinf cosf : N -> N).
  Local Open Scope num_scope.

  (** ** Shape tensor and deformation gradient, correspondence.cxx:810-915 *)

  (** the neighbour loop, 861-900: the pair of sums *)
  Definition shape_sums (x y : list (V3 N)) (v : list N) (h : N) (X Y : V3 N) (js : list nat) : outcome (M3 N * M3 N)%type :=
    foldM (fun acc j =>
      let? vj := at_ub v j in
      let? XP := at_ub x j in
      let? YP := at_ub y j in
      let dX := vsub XP X in
      let dY := vsub YP Y in
      let temp := (1 - 0) * omega (vlen dX) h * vj in
      Ok (madd (fst acc) (outer temp dX dX), madd (snd acc) (outer temp dY dX))) (mzero, mzero) js.
  (** one point, 850-911: return code of the inversion, inverse shape tensor, deformation gradient *)
  Definition shape_point (x y : list (V3 N)) (v hs : list N) (p : nat) (js : list nat) : outcome (Z * M3 N * M3 N)%type :=
    let? h := at_ub hs p in
    let? X := at_ub x p in
    let? Y := at_ub y p in
    let? (K, F1) := shape_sums x y v h X Y js in
    let '(rc, _, Kinv) := invert K in
    Ok (rc, Kinv, matmul false false 1 F1 Kinv).
  (** the point loop, with the return code that starts as 0 and is overwritten by a
      positive one (905-907) *)
  Fixpoint shape_points (x y : list (V3 N)) (v hs : list N) (p : nat) (nbrs : list (list nat)) (code : Z)
    : outcome (Z * list (M3 N * M3 N))%type :=
    match nbrs with
    | [] => Ok (code, [])
    | js :: rest =>
      let? (rc, Kinv, F) := shape_point x y v hs p js in
      let? (c, r) := shape_points x y v hs (1 + p) rest (if (0 <? rc)%Z then rc else code) in
      Ok (c, (Kinv, F) :: r)
    end.
  Definition deformation (x y : list (V3 N)) (v hs : list N) (nbrs : list (list nat)) := shape_points x y v hs 0 nbrs 0%Z.

  (** ** Rotation and unrotated rate of deformation, correspondence.cxx:918-1184 *)

  (** the neighbour loop for Fdot, 1001-1033 *)
  Definition rate_sums (x vel : list (V3 N)) (v : list N) (h : N) (X U : V3 N) (js : list nat) : outcome (M3 N) :=
    foldM (fun acc j =>
      let? vj := at_ub v j in
      let? XP := at_ub x j in
      let? UP := at_ub vel j in
      let dX := vsub XP X in
      let dU := vsub UP U in
      Ok (madd acc (outer ((1 - 0) * omega (vlen dX) h * vj) dU dX))) mzero js.
  (** the literal 0.5 *)
  Definition half : N := lit 1 2.
  (** D and W, 1047-1067 *)
  Definition rate_of_deformation (L : M3 N) : M3 N :=
    let d1 := half * (m1 L + m3_ L) in
    let d2 := half * (m2 L + m6 L) in
    let d5 := half * (m5 L + m7 L) in
    m3 (m0 L) d1 d2 d1 (m4 L) d5 d2 d5 (m8 L).
  Definition spin_of (L : M3 N) : M3 N :=
    let s1 := half * (m1 L - m3_ L) in
    let s2 := half * (m2 L - m6 L) in
    let s5 := half * (m5 L - m7 L) in
    m3 0 s1 s2 (opp 1 * s1) 0 s5 (opp 1 * s2) (opp 1 * s5) 0.
  (** z, 1079-1088 *)
  Definition zvec (V D : M3 N) : V3 N :=
    v3 (opp (m2 V) * m3_ D - m5 V * m4 D - m8 V * m5 D + m1 V * m6 D + m4 V * m7 D + m7 V * m8 D)
       (m2 V * m0 D + m5 V * m1 D + m8 V * m2 D - m0 V * m6 D - m3_ V * m7 D - m6 V * m8 D)
       (opp (m1 V) * m0 D - m4 V * m1 D - m7 V * m2 D + m0 V * m3_ D + m3_ V * m4 D + m6 V * m5 D).
  (** w, 1091-1093 *)
  Definition wvec (W : M3 N) : V3 N :=
    v3 (half * (m7 W - m5 W)) (half * (m2 W - m6 W)) (half * (m3_ W - m1 W)).
  (** trace(V) I - V, 1096-1107 *)
  Definition trace (a : M3 N) : N := m0 a + m4 a + m8 a.
  Definition trace_minus (V : M3 N) : M3 N :=
    let t := trace V in
    m3 (t - m0 V) (opp (m1 V)) (opp (m2 V)) (opp (m3_ V)) (t - m4 V) (opp (m5 V)) (opp (m6 V)) (opp (m7 V)) (t - m8 V).
  (** Omega tensor, 1120-1128 *)
  Definition hat (w : V3 N) : M3 N := m3 0 (opp (vz w)) (vy w) (vz w) 0 (opp (vx w)) (opp (vy w)) (vx w) 0.
  (** Q, 1137-1162 *)
  Definition qmatrix (dt : N) (w : V3 N) : M3 N :=
    let OmegaSq := vx w * vx w + vy w * vy w + vz w * vz w in
    let Omega := sqr_root OmegaSq in
    if lit 1 1000000000000000000000000000000 <? OmegaSq then
      let s1 := sinf (dt * Omega) / Omega in
      let s2 := opp (1 - cosf (dt * Omega)) / OmegaSq in
      let O := hat w in
      let O2 := matmul false false 1 O O in
      m3 (1 + s1 * m0 O + s2 * m0 O2) (s1 * m1 O + s2 * m1 O2) (s1 * m2 O + s2 * m2 O2)
         (s1 * m3_ O + s2 * m3_ O2) (1 + s1 * m4 O + s2 * m4 O2) (s1 * m5 O + s2 * m5 O2)
         (s1 * m6 O + s2 * m6 O2) (s1 * m7 O + s2 * m7 O2) (1 + s1 * m8 O + s2 * m8 O2)
    else mone.
  (** everything a point computes from its velocity gradient, 1045-1180: the angular
      velocity, the new rotation and stretch and the unrotated rate of deformation.  The
      return code of the inversion in line 1110 is not looked at by the source, which
      tests the older one again. *)
  Definition angular (L V : M3 N) : V3 N :=
    let D := rate_of_deformation L in
    let z := zvec V D in
    let w := wvec (spin_of L) in
    let '(_, _, ti) := invert (trace_minus V) in
    v3 (vx w + m0 ti * vx z + m1 ti * vy z + m2 ti * vz z)
       (vy w + m3_ ti * vx z + m4 ti * vy z + m5 ti * vz z)
       (vz w + m6 ti * vx z + m7 ti * vy z + m8 ti * vz z).
  Definition rotation_step (dt : N) (L V R : M3 N) : (M3 N * M3 N * M3 N)%type :=
    let D := rate_of_deformation L in
    let w := angular L V in
    let Q := qmatrix dt w in
    let R1 := matmul false false 1 Q R in
    let rate := msub (matmul false false 1 L V) (matmul false false 1 V (hat w)) in
    let V1 := madd V (mscale dt rate) in
    let temp := matmul false false 1 D R1 in
    (V1, R1, matmul true false 1 R1 temp).
  (** one point, 984-1181: return code of the inversion of the deformation gradient, new
      stretch, new rotation, unrotated rate of deformation *)
  Definition rate_point (dt : N) (x vel : list (V3 N)) (v hs : list N) (p : nat) (js : list nat) (Kinv F V R : M3 N)
    : outcome (Z * (M3 N * M3 N * M3 N))%type :=
    let? h := at_ub hs p in
    let? X := at_ub x p in
    let? U := at_ub vel p in
    let? Fd1 := rate_sums x vel v h X U js in
    let Fdot := matmul false false 1 Fd1 Kinv in
    let '(rc, _, Finv) := invert F in
    let L := matmul false false 1 Fdot Finv in
    Ok (rc, rotation_step dt L V R).
  (** the point loop; [geo] holds inverse shape tensor and deformation gradient of the
      points, [st] their stretch and rotation at step N *)
  Fixpoint rate_points (dt : N) (x vel : list (V3 N)) (v hs : list N) (p : nat) (nbrs : list (list nat))
    (geo st : list (M3 N * M3 N)) (code : Z) : outcome (Z * list (M3 N * M3 N * M3 N))%type :=
    match nbrs with
    | [] => Ok (code, [])
    | js :: rest =>
      match geo, st with
      | (Kinv, F) :: geo', (V, R) :: st' =>
        let? (rc, o) := rate_point dt x vel v hs p js Kinv F V R in
        let? (c, r) := rate_points dt x vel v hs (1 + p) rest geo' st' (if (0 <? rc)%Z then rc else code) in
        Ok (c, o :: r)
      | _, _ => UB
      end
    end.
  Definition rates (dt : N) (x vel : list (V3 N)) (v hs : list N) (nbrs : list (list nat)) (geo st : list (M3 N * M3 N)) :=
    rate_points dt x vel v hs 0 nbrs geo st 0%Z.

  (** Successive steps: the two calls of computeForce, Peridigm_CorrespondenceMaterial.cpp:211-253,
      with the coordinates and velocities of each step, where STEP_NP1 of one step is STEP_N
      of the next; a non-zero return code ends the run. *)
  Definition rotation_history (dt : N) (x : list (V3 N)) (v hs : list N) (nbrs : list (list nat))
    (steps : list (list (V3 N) * list (V3 N))) (st : list (M3 N * M3 N)) : outcome (list (M3 N * M3 N)) :=
    foldM (fun st yv =>
      let? (code, geo) := deformation x (fst yv) v hs nbrs in
      if negb (Z.eqb code 0) then Err else
      let? (code, rs) := rates dt x (snd yv) v hs nbrs geo st in
      if negb (Z.eqb code 0) then Err else Ok (map fst rs)) st steps.
  (** CorrespondenceMaterial::initialize, Peridigm_CorrespondenceMaterial.cpp:150-153 *)
  Definition unrotated (nbrs : list (list nat)) : list (M3 N * M3 N) := map (fun _ => (mone, mone)) nbrs.

  (** rotateCauchyStress, correspondence.cxx:1354-1376, one point *)
  Definition rotate_stress (R s : M3 N) : M3 N :=
    let temp := matmul false true 1 s R in matmul false false 1 R temp.

  (** ** Force, Peridigm_CorrespondenceMaterial.cpp:307-370 *)

  (** first Piola-Kirchhoff stress, 314-320; a non-zero return code ends the run *)
  Definition piola (F s : M3 N) : outcome (M3 N) :=
    let '(rc, J, Finv) := invert F in
    if Z.eqb rc 0 then Ok (matmul false true J s Finv) else Err.
  (** One bond of lines 329-369.  [dmg] is the bond damage field, which the material
      declares (Peridigm_CorrespondenceMaterial.cpp:89) and never reads. *)
  Definition corr_force (x : list (V3 N)) (v hs : list N) (geo : list (M3 N * M3 N)) (stress : list (M3 N)) (dmg : list N)
    : kernel N (V3 N * N * M3 N)%type (M3 N) :=
    Kernel _ _
      (fun p k js =>
         let? h := at_ub hs p in
         let? g := at_ub geo p in
         let? s := at_ub stress p in
         let? P := piola (snd g) s in
         let? X := at_ub x p in
         Ok (X, h, matmul false false 1 P (fst g)))
      (fun d p k j =>
         let '(X, h, temp) := d in
         let? XP := at_ub x j in
         let dX := vsub XP X in
         let w := omega (vlen dX) h in
         let b := mapply temp dX in
         let t := v3 (w * vx b) (w * vy b) (w * vz b) in
         let? vj := at_ub v j in
         Ok (t, m3 (vx t * vx dX * vj) (vx t * vy dX * vj) (vx t * vz dX * vj)
                   (vy t * vx dX * vj) (vy t * vy dX * vj) (vy t * vz dX * vj)
                   (vz t * vx dX * vj) (vz t * vy dX * vj) (vz t * vz dX * vj)))
      (cell_volumes v).
  (** partial stress of a point: its bonds' contributions added up, 359-368 *)
  Definition partial_stress (contrib : list (M3 N)) : M3 N := fold_left madd contrib mzero.

  (** ** Hourglass force, correspondence.cxx:1252-1350 *)
  Definition hourglass (bulk coef : N) (x y : list (V3 N)) (v hs : list N) (geo : list (M3 N * M3 N))
    : kernel N (V3 N * V3 N * M3 N * N)%type unit :=
    let first := ofZ 18 * coef * bulk / pi in
    Kernel _ _
      (fun p k js =>
         let? h := at_ub hs p in
         let? g := at_ub geo p in
         let? X := at_ub x p in
         let? Y := at_ub y p in
         Ok (X, Y, snd g, first / (h * h * h * h)))
      (fun d p k j =>
         let '(X, Y, F, constant) := d in
         let? XP := at_ub x j in
         let? YP := at_ub y j in
         let dX := vsub XP X in
         let dY := vsub YP Y in
         let expected := v3 (vx Y + m0 F * vx dX + m1 F * vy dX + m2 F * vz dX)
                            (vy Y + m3_ F * vx dX + m4 F * vy dX + m5 F * vz dX)
                            (vz Y + m6 F * vx dX + m7 F * vy dX + m8 F * vz dX) in
         let hg := vsub expected YP in
         let dot := vdot hg dY * opp 1 in
         let magnitude := (1 - 0) * constant * (dot / vlen dX) * (1 / vlen dY) in
         Ok (v3 (magnitude * vx dY) (magnitude * vy dY) (magnitude * vz dY), tt))
      (cell_volumes v).

  (** ** CorrespondenceMaterial::computeForce, Peridigm_CorrespondenceMaterial.cpp:187-397

      [cauchy] is computeCauchyStress of the derived class: from the unrotated rates of
      deformation and the unrotated stresses at step N to the unrotated stresses at step
      N+1.  The result is the force density, the new stretch and rotation of every point,
      the new unrotated stresses and the partial stresses. *)
  Definition update (a b : list (V3 N)) : list (V3 N) :=
    map (fun ab => vadd (vscale 1 (fst ab)) (vscale 1 (snd ab))) (combine a b).
  Definition correspondence (cauchy : list (M3 N) -> list (M3 N) -> outcome (list (M3 N))) (bulk coef dt : N)
    (x y vel : list (V3 N)) (v hs : list N) (nbrs : list (list nat)) (st : list (M3 N * M3 N)) (sN : list (M3 N)) (dmg : list N)
    : outcome (list (V3 N) * list (M3 N * M3 N) * list (M3 N) * list (M3 N))%type :=
    let? (code, geo) := deformation x y v hs nbrs in
    if negb (Z.eqb code 0) then Err else
    let? (code, rs) := rates dt x vel v hs nbrs geo st in
    if negb (Z.eqb code 0) then Err else
    let? sNP1 := cauchy (map snd rs) sN in
    let rotated := map (fun rs => rotate_stress (snd (fst (fst rs))) (snd rs)) (combine rs sNP1) in
    let? (f, out) := run_kernel (corr_force x v hs geo rotated dmg) nbrs (repeat vzero (length x)) in
    let? (g, _) := run_kernel (hourglass bulk coef x y v hs geo) nbrs (repeat vzero (length x)) in
    Ok (update g f, map fst rs, sNP1, map (fun o => partial_stress (snd o)) out).
End Corr.
