(** * Pairwise internal force kernels

    src/materials: elastic.cxx, elastic_pv.cxx, elastic_bond_based.cxx, viscoelastic.cxx,
    elastic_plastic.cxx, elastic_plastic_hardening.cxx, linear_lps_pv.cxx and the
    weighted volume and dilatation of material_utilities.cxx.

    All of them walk the owned points p = 0, 1, ... and for each point its bonds, compute
    a force density per bond and add it to both ends.  [point_loop] is that walk, over
    the decoded neighbour list (ModelNeigh.v); a kernel supplies what is computed per
    point and per bond.  Bond arrays (damage, plastic extension, ...) are addressed by the
    running bond index.  The optional partial stress output of elastic.cxx:125-135 is
    not modelled, nor is the automatic differentiation scalar. *)
From Coq Require Import ZArith.
From Verif Require Import Base Num ModelNeigh.

Section Kernels.
  Context {N : Num}.
  Local Open Scope num_scope.

  (** component * factor, as in [fx*cellVolume] *)
  Definition vmulr (a : V3 N) (k : N) : V3 N := v3 (vx a * k) (vy a * k) (vz a * k).
  Definition vdivr (a : V3 N) (k : N) : V3 N := v3 (vx a / k) (vy a / k) (vz a / k).

  (** [fInternalOverlap[3*i+c] += v_c] and [-= v_c] *)
  Definition add_at (f : list (V3 N)) (i : nat) (v : V3 N) : outcome (list (V3 N)) :=
    let? a := at_ub f i in upd_ub f i (vadd a v).
  Definition sub_at (f : list (V3 N)) (i : nat) (v : V3 N) : outcome (list (V3 N)) :=
    let? a := at_ub f i in upd_ub f i (vsub a v).

  (** What a kernel computes: [pre p k js] once per point (first bond index k, neighbours
      js); [bond d p k j] per bond: the force density and the new bond state;
      [vols p k j] the neighbour's and the point's own volume. *)
  Record kernel (D S : Type) := Kernel {
    pre : nat -> nat -> list nat -> outcome D;
    bond : D -> nat -> nat -> nat -> outcome (V3 N * S);
    vols : nat -> nat -> nat -> outcome (N * N) }.

  Section Loop.
    Context {D S : Type} (K : kernel D S).
    (** e.g. elastic.cxx:97-136 *)
    Fixpoint bond_loop (d : D) (p k : nat) (js : list nat) (f : list (V3 N)) {struct js}
      : outcome (list (V3 N) * list S) :=
      match js with
      | [] => Ok (f, [])
      | j :: js' =>
        let? (fb, s) := bond _ _ K d p k j in
        let? (vnb, vself) := vols _ _ K p k j in
        let? f := add_at f p (vmulr fb vnb) in
        let? f := sub_at f j (vmulr fb vself) in
        let? (f, ss) := bond_loop d p (1 + k) js' f in
        Ok (f, s :: ss)
      end.
    (** e.g. elastic.cxx:90-139 *)
    Fixpoint point_loop (p k : nat) (nbrs : list (list nat)) (f : list (V3 N)) {struct nbrs}
      : outcome (list (V3 N) * list (D * list S)) :=
      match nbrs with
      | [] => Ok (f, [])
      | js :: rest =>
        let? d := pre _ _ K p k js in
        let? (f, ss) := bond_loop d p k js f in
        let? (f, r) := point_loop (1 + p) (length js + k) rest f in
        Ok (f, (d, ss) :: r)
      end.
    Definition run_kernel := point_loop 0 0.
  End Loop.

  (** Volumes of the two ends: the cell volumes, or (partial volume kernels,
      elastic_pv.cxx:285-292) the bond-wise volumes when they are given. *)
  Definition cell_volumes (v : list N) (p k j : nat) : outcome (N * N) :=
    let? vnb := at_ub v j in let? vself := at_ub v p in Ok (vnb, vself).
  Definition bond_volumes (v : list N) (part : option (list N * list N)) (p k j : nat) : outcome (N * N) :=
    match part with
    | None => cell_volumes v p k j
    | Some (selfV, nbV) => let? vself := at_ub selfV k in let? vnb := at_ub nbV k in Ok (vnb, vself)
    end.

  (** A null pointer or an array indexed by the owned point. *)
  Definition opt_at (a : option (list N)) (p : nat) : outcome (option N) :=
    match a with None => Ok None | Some l => let? x := at_ub l p in Ok (Some x) end.

  (** ** Weighted volume, material_utilities.cxx:154-183 *)
  Definition weightedVolume (omega : N -> N -> N) (x : list (V3 N)) (v : list N) (h : N) (p : nat) (js : list nat)
    : outcome N :=
    let? X := at_ub x p in
    foldM (fun m j =>
             let? vj := at_ub v j in
             let? XP := at_ub x j in
             let d := vsub XP X in
             let z2 := vdot d d in
             Ok (m + omega (sqr_root z2) h * z2 * vj)) 0 js.

  (** ** Dilatation, material_utilities.cxx:232-284 (and elastic_pv.cxx:152-209 with
      bond-wise neighbour volumes) *)
  Definition thermal (e alphaT : N) (dT : option N) (zeta : N) : N :=
    match dT with None => e | Some t => e - alphaT * t * zeta end.
  Definition dilatation_bond (omega : N -> N -> N) (h alphaT : N) (dT : option N) (X XP Y YP : V3 N) (dmg vj m : N) : N :=
    let dX := vsub XP X in
    let dYv := vsub YP Y in
    let d := vlen dX in
    let e := thermal (vlen dYv - d) alphaT dT d in
    3 * omega d h * (1 - dmg) * d * e * vj / m.
  Fixpoint dilatation_sum (omega : N -> N -> N) (h alphaT : N) (dT : option N) (x y : list (V3 N)) (v dmg : list N)
    (nbV : option (list N)) (X Y : V3 N) (m : N) (k : nat) (js : list nat) (acc : N) {struct js} : outcome N :=
    match js with
    | [] => Ok acc
    | j :: js' =>
      let? vj := match nbV with Some l => at_ub l k | None => at_ub v j end in
      let? XP := at_ub x j in
      let? YP := at_ub y j in
      let? b := at_ub dmg k in
      dilatation_sum omega h alphaT dT x y v dmg nbV X Y m (1 + k) js'
        (acc + dilatation_bond omega h alphaT dT X XP Y YP b vj m)
    end.
  Definition dilatation (omega : N -> N -> N) (h alphaT : N) (deltaT : option (list N)) (x y : list (V3 N)) (v dmg : list N)
    (nbV : option (list N)) (m : list N) (p k : nat) (js : list nat) : outcome N :=
    let? X := at_ub x p in
    let? Y := at_ub y p in
    let? mp := at_ub m p in
    let? dT := opt_at deltaT p in
    dilatation_sum omega h alphaT dT x y v dmg nbV X Y mp k js 0.
  Fixpoint dilatations (f : nat -> nat -> list nat -> outcome N) (p k : nat) (nbrs : list (list nat)) : outcome (list N) :=
    match nbrs with
    | [] => Ok []
    | js :: rest => let? t := f p k js in
                    let? r := dilatations f (1 + p) (length js + k) rest in
                    Ok (t :: r)
    end.

  (** ** Linear peridynamic solid: elastic.cxx:56-139, elastic_pv.cxx:215-303 *)
  Definition lps_t (omega : N -> N -> N) (K MU h alphaT : N) (dT : option N) (m theta dmg zeta dY : N) : N :=
    let alpha := ofZ 15 * MU / m in
    let e := thermal (dY - zeta) alphaT dT zeta in
    let w := omega zeta h in
    let c1 := w * theta * (3 * K / m - alpha / 3) in
    (1 - dmg) * (c1 * zeta + (1 - dmg) * w * alpha * e).
  (** [fx = t*Y_dx/dY], same for y and z *)
  Definition along (t : N) (d : V3 N) (len : N) : V3 N := vdivr (vscale t d) len.
  Definition lps (omega : N -> N -> N) (K MU h alphaT : N) (deltaT : option (list N)) (x y : list (V3 N)) (v m theta dmg : list N)
    (part : option (list N * list N)) : kernel (V3 N * V3 N * N * N * option N) unit :=
    Kernel _ _
      (fun p k js => let? X := at_ub x p in let? Y := at_ub y p in
                     let? mp := at_ub m p in let? th := at_ub theta p in let? dT := opt_at deltaT p in
                     Ok (X, Y, mp, th, dT))
      (fun d p k j => let '(X, Y, mp, th, dT) := d in
                      let? XP := at_ub x j in let? YP := at_ub y j in let? b := at_ub dmg k in
                      let zeta := vlen (vsub XP X) in
                      let dY := vlen (vsub YP Y) in
                      Ok (along (lps_t omega K MU h alphaT dT mp th b zeta dY) (vsub YP Y) dY, tt))
      (bond_volumes v part).

  (** ** Bond-based solid: elastic_bond_based.cxx:55-125 *)
  Definition bb_constant (K h : N) (planar : bool) (height : N) : N :=
    if planar then ofZ 12 * K / (pi * height * h * h * h) else ofZ 18 * K / (pi * h * h * h * h).
  Definition bb_t (c dmg zeta dY : N) : N := lit 1 2 * (1 - dmg) * ((dY - zeta) / zeta) * c.
  Definition bond_based (K h : N) (planar : bool) (height : N) (x y : list (V3 N)) (v dmg : list N)
    : kernel (V3 N * V3 N) unit :=
    Kernel _ _
      (fun p k js => let? X := at_ub x p in let? Y := at_ub y p in Ok (X, Y))
      (fun d p k j => let '(X, Y) := d in
                      let? XP := at_ub x j in let? YP := at_ub y j in let? b := at_ub dmg k in
                      let zeta := vlen (vsub XP X) in
                      let dY := vlen (vsub YP Y) in
                      Ok (along (bb_t (bb_constant K h planar height) b zeta dY) (vsub YP Y) dY, tt))
      (cell_volumes v).

  (** ** Viscoelastic standard linear solid: viscoelastic.cxx:55-200.  The bond state is
      the back extension. *)
  Definition visco_decay (expf : N -> N) (tau dt : N) : N := expf (- (1) / (tau / dt)).
  Definition visco_beta (expf : N -> N) (tau dt : N) : N := 1 - tau / dt * (1 - visco_decay expf tau dt).
  Definition visco_edb (expf : N -> N) (tau dt edN edNp1 edbN : N) : N :=
    edN * (1 - visco_decay expf tau dt) + edbN * visco_decay expf tau dt
    + visco_beta expf tau dt * (edNp1 - edN).
  Definition visco_td (lambda alpha edNp1 edbNp1 : N) : N :=
    (1 - lambda) * alpha * 1 * edNp1 + lambda * alpha * 1 * (edNp1 - edbNp1).
  Definition visco (expf : N -> N) (K MU lambda tau dt : N) (x yN yNP1 : list (V3 N)) (v m thN thNP1 dmg edbN : list N)
    : kernel (V3 N * V3 N * V3 N * N * N * N) N :=
    Kernel _ _
      (fun p k js => let? X := at_ub x p in let? YN := at_ub yN p in let? Y := at_ub yNP1 p in
                     let? mp := at_ub m p in let? t0 := at_ub thN p in let? t1 := at_ub thNP1 p in
                     Ok (X, YN, Y, mp, t0, t1))
      (fun d p k j =>
         let '(X, YN, Y, mp, t0, t1) := d in
         let? XP := at_ub x j in let? YPN := at_ub yN j in let? YP := at_ub yNP1 j in
         let? b := at_ub dmg k in let? eb := at_ub edbN k in
         let alpha := ofZ 15 * MU / mp in
         let c := 3 * K * t1 / mp in
         let zeta := vlen (vsub XP X) in
         let dYN := vlen (vsub YPN YN) in
         let dY := vlen (vsub YP Y) in
         let edN := (1 - b) * (dYN - zeta) - t0 * zeta / 3 in
         let edNp1 := (1 - b) * (dY - zeta) - t1 * zeta / 3 in
         let edb := visco_edb expf tau dt edN edNp1 eb in
         let t := (1 - b) * (c * 1 * zeta + visco_td lambda alpha edNp1 edb) in
         Ok (along t (vsub YP Y) dY, edb))
      (cell_volumes v).

  (** ** Elastic-plastic solids: elastic_plastic.cxx:54-283 and
      elastic_plastic_hardening.cxx:61-247.

      Per point: norm of the trial state, plastic multiplier increment and new
      multiplier.  Per bond: the new plastic extension and (exposed here, a local
      variable in the code) the deviatoric force state. *)
  Definition ed_of (theta : N) (X XP Y YP : V3 N) : N :=
    vlen (vsub YP Y) - vlen (vsub XP X) - theta * vlen (vsub XP X) / 3.
  (** computeDeviatoricForceStateNorm, elastic_plastic.cxx:54-113 (OMEGA = 1) *)
  Fixpoint td_norm2 (x y : list (V3 N)) (v dmg edpN : list N) (alpha theta : N) (X Y : V3 N) (k : nat) (js : list nat) (acc : N)
    {struct js} : outcome N :=
    match js with
    | [] => Ok acc
    | j :: js' =>
      let? vj := at_ub v j in let? XP := at_ub x j in let? YP := at_ub y j in
      let? b := at_ub dmg k in let? ep := at_ub edpN k in
      let td := (1 - b) * alpha * 1 * (ed_of theta X XP Y YP - ep) in
      td_norm2 x y v dmg edpN alpha theta X Y (1 + k) js' (acc + td * td * vj)
    end.

  (** 25 sigma^2 / 8 / pi / delta^5, planar 225/3 sigma^2 / 8 / pi / thickness / delta^4;
      std::pow is written as a product. *)
  Definition yield_value (sigma h : N) (planar : option N) : N :=
    match planar with
    | None => ofZ 25 * sigma * sigma / ofZ 8 / pi / (h * h * h * h * h)
    | Some th => ofZ 225 / 3 * sigma * sigma / ofZ 8 / pi / th / (h * h * h * h)
    end.

  Record plastic_pre := PP {
    pp_X : V3 N; pp_Y : V3 N; pp_m : N; pp_theta : N; pp_alpha : N; pp_yield : N;
    pp_norm : N; pp_dlambda : N; pp_lambda : N; pp_elastic : bool }.

  Definition plastic_bond (return_map : plastic_pre -> N -> N) (K : N) (x y : list (V3 N)) (dmg edpN : list N)
    (d : plastic_pre) (p k j : nat) : outcome (V3 N * (N * N)) :=
    let? XP := at_ub x j in let? YP := at_ub y j in
    let? b := at_ub dmg k in let? ep := at_ub edpN k in
    let zeta := vlen (vsub XP (pp_X d)) in
    let dY := vlen (vsub YP (pp_Y d)) in
    let tdTrial := pp_alpha d * 1 * (ed_of (pp_theta d) (pp_X d) XP (pp_Y d) YP - ep) in
    let td := if pp_elastic d then tdTrial else return_map d tdTrial in
    let ep' := if pp_elastic d then ep else ep + td * pp_dlambda d in
    let c := 3 * K * pp_theta d * 1 / pp_m d in
    let dd := 1 - b in
    Ok (along (dd * (c * zeta + dd * td)) (vsub YP (pp_Y d)) dY, (ep', td)).

  (** Perfect plasticity, elastic_plastic.cxx:159-201 *)
  Definition ep_pre (K MU : N) (yv : N) (x y : list (V3 N)) (v m theta dmg edpN lambdaN : list N) (p k : nat) (js : list nat)
    : outcome plastic_pre :=
    let? X := at_ub x p in let? Y := at_ub y p in let? mp := at_ub m p in let? th := at_ub theta p in
    let? lam := at_ub lambdaN p in
    let alpha := ofZ 15 * MU / mp in
    let? n2 := td_norm2 x y v dmg edpN alpha th X Y k js 0 in
    let tdNorm := sqr_root n2 in
    if 0 <? tdNorm * tdNorm / 2 - yv
    then let dl := (tdNorm / sqr_root (2 * yv) - 1) / alpha in
         Ok (PP X Y mp th alpha yv tdNorm dl (lam + dl) false)
    else Ok (PP X Y mp th alpha yv tdNorm 0 lam true).
  Definition ep_return (d : plastic_pre) (tdTrial : N) : N :=
    sqr_root (2 * pp_yield d) * tdTrial / pp_norm d.
  Definition elastic_plastic (K MU sigma h : N) (planar : option N) (x y : list (V3 N)) (v m theta dmg edpN lambdaN : list N)
    : kernel plastic_pre (N * N) :=
    Kernel _ _ (ep_pre K MU (yield_value sigma h planar) x y v m theta dmg edpN lambdaN)
               (plastic_bond ep_return K x y dmg edpN) (cell_volumes v).

  (** Isotropic hardening, elastic_plastic_hardening.cxx:115-164; [update] is
      updateDeltaLambda(tdNorm, lambdaN, yield value, alpha, H), scf the shear
      correction factor. *)
  Definition hard_pre (update : N -> N -> N -> N -> N -> N) (K MU H : N) (yv : N) (x y : list (V3 N))
    (v m theta dmg scf edpN lambdaN : list N) (p k : nat) (js : list nat) : outcome plastic_pre :=
    let? X := at_ub x p in let? Y := at_ub y p in let? mp := at_ub m p in let? th := at_ub theta p in
    let? lam := at_ub lambdaN p in let? s := at_ub scf p in
    let alpha := s * ofZ 15 * MU / mp in
    let? n2 := td_norm2 x y v dmg edpN alpha th X Y k js 0 in
    let tdNorm := sqr_root n2 in
    let pv := s * s * yv in
    let dl0 := if 0 <? tdNorm * tdNorm / 2 - pv then update tdNorm lam pv alpha H else 0 in
    let dl := if dl0 <? 0 then 0 else dl0 in
    if 0 <? dl
    then Ok (PP X Y mp th alpha pv tdNorm dl (lam + dl) false)
    else Ok (PP X Y mp th alpha pv tdNorm dl lam true).
  Definition hard_return (d : plastic_pre) (tdTrial : N) : N := tdTrial / (1 + pp_alpha d * pp_dlambda d).
  Definition hardening (update : N -> N -> N -> N -> N -> N) (K MU H sigma h : N) (x y : list (V3 N))
    (v m theta dmg scf edpN lambdaN : list N) : kernel plastic_pre (N * N) :=
    Kernel _ _ (hard_pre update K MU H (yield_value sigma h None) x y v m theta dmg scf edpN lambdaN)
               (plastic_bond hard_return K x y dmg edpN) (cell_volumes v).

  (** The states written back: plastic extension per bond and multiplier per point
      (elastic_plastic.cxx:196-198 and 229-251), back extension per bond (viscoelastic.cxx:172). *)
  Definition new_edp (out : list (plastic_pre * list (N * N))) : list N := flat_map (fun o => map fst (snd o)) out.
  Definition new_lambda {S} (out : list (plastic_pre * list S)) : list N := map (fun o => pp_lambda (fst o)) out.
  Definition new_edb {D} (out : list (D * list N)) : list N := flat_map snd out.

  (** ** Linearised LPS: linear_lps_pv.cxx:121-204 *)
  Definition linear_lps (omega : N -> N -> N) (K MU h : N) (x y : list (V3 N)) (v m theta dmg : list N)
    (part : option (list N * list N)) (stored : option (list N)) : kernel (V3 N * V3 N * N * N) unit :=
    Kernel _ _
      (fun p k js => let? X := at_ub x p in let? Y := at_ub y p in
                     let? mp := at_ub m p in let? th := at_ub theta p in Ok (X, Y, mp, th))
      (fun d p k j =>
         let '(X, Y, mp, th) := d in
         let? XP := at_ub x j in let? YP := at_ub y j in let? b := at_ub dmg k in
         let z := vsub XP X in
         let du := vsub (vsub YP XP) (vsub Y X) in
         let nz := vlen z in
         let? w := match stored with None => Ok (omega nz h) | Some l => at_ub l k end in
         let t1 := (ofZ 9 * K - ofZ 15 * MU) * w * th / (3 * mp) in
         let t2 := ofZ 15 * MU * w / (mp * nz * nz) in
         let row a := a * vx z * vx du + a * vy z * vy du + a * vz z * vz du in
         let comp a := (1 - b) * (t1 * a + t2 * row a) in
         Ok (v3 (comp (vx z)) (comp (vy z)) (comp (vz z)), tt))
      (bond_volumes v part).
End Kernels.
Arguments kernel N D S : clear implicits.
