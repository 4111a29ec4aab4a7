(** * C83: what is computed with the volumes of bonds *)
From Coq Require Import ZArith Reals Lra Lia List.
From Verif Require Import Base Num ModelForce ProofData ModelShear SpecGeom SpecBondWeight ModelBondWeight.
Import ListNotations.
Local Open Scope R_scope.

Lemma over_bonds_cells {N : Num} (v : list N) (f : N -> nat -> N -> outcome N) js bv : cell_volumes v js bv -> forall a,
  over_bonds f a js bv = foldM (fun a j => let? b := at_ub v j in f a j b) a js.
Proof.
  intros F. induction F as [|j b js bv E F IH]; intros a; [reflexivity|]. cbn [over_bonds foldM]. unfold at_ub at 1. rewrite E. cbn [bind].
  destruct (f a j b); cbn [bind]; [apply IH|reflexivity|reflexivity].
Qed.

(** With the volumes of the cells for those of the bonds, all three are the ordinary ones (the third with the
    influence function of the program). *)
Theorem C83_same : forall (N : Num) omega (x y : list (V3 N)) v h m p X Y js bv, nth_error x p = Some X -> cell_volumes v js bv ->
  weighted_bv x h omega X js bv = weightedVolume omega x v h p js /\
  dilatation_bv x y h omega X Y m js bv = dilatation_one omega h x y v m X Y js /\
  deviatoric_bv x y h omega omega X Y m js bv = norm_deviatoric omega h x y v m X Y js.
Proof.
  intros N omega x y v h m p X Y js bv HX F.
  assert (D : dilatation_bv x y h omega X Y m js bv = dilatation_one omega h x y v m X Y js) by (unfold dilatation_bv, dilatation_one; now rewrite (over_bonds_cells v)).
  split; [|split].
  - unfold weighted_bv, weightedVolume. unfold at_ub at 2. rewrite HX. cbn [bind]. now rewrite (over_bonds_cells v).
  - exact D.
  - unfold deviatoric_bv, norm_deviatoric. rewrite D. destruct (dilatation_one omega h x y v m X Y js); cbn [bind]; [|reflexivity|reflexivity]. now rewrite (over_bonds_cells v).
Qed.
Print Assumptions C83_same.

(** Every neighbour needs a volume of its own: with positions for all neighbours the sums are defined exactly if
    there are no fewer volumes than neighbours, and otherwise read past the end. *)
Theorem C83_defined : forall (N : Num) omega (x y : list (V3 N)) h m X Y js bv, Forall (fun j => (j < length x)%nat /\ (j < length y)%nat) js ->
  ((length js <= length bv)%nat -> (exists w, weighted_bv x h omega X js bv = Ok w) /\ (exists t, dilatation_bv x y h omega X Y m js bv = Ok t) /\ exists s, deviatoric_bv x y h omega omega X Y m js bv = Ok s) /\
  ((length bv < length js)%nat -> weighted_bv x h omega X js bv = UB /\ dilatation_bv x y h omega X Y m js bv = UB /\ deviatoric_bv x y h omega omega X Y m js bv = UB).
Proof.
  intros N omega x y h m X Y js bv F.
  assert (G : forall (f : N -> nat -> N -> outcome N), (forall a j b, (j < length x)%nat /\ (j < length y)%nat -> exists c, f a j b = Ok c) -> forall a,
    ((length js <= length bv)%nat -> exists w, over_bonds f a js bv = Ok w) /\ ((length bv < length js)%nat -> over_bonds f a js bv = UB)).
  { intros f H. clear - F H. revert bv. induction F as [|j js Hj F IH]; intros bv a; [split; intros L; [cbn [over_bonds]; eauto|cbn in L; lia]|].
    destruct bv as [|b bv]; cbn [over_bonds length]; [split; intros L; [lia|reflexivity]|]. destruct (H a j b Hj) as (c & ->). cbn [bind]. destruct (IH bv c) as (I1 & I2). split; intros L; [apply I1|apply I2]; lia. }
  assert (A : forall (l : list (V3 N)) j, (j < length l)%nat -> exists P, at_ub l j = Ok P) by (intros l j H; unfold at_ub; destruct (nth_error l j) eqn:E; [eauto|apply nth_error_None in E; lia]).
  assert (GW := G (fun m j b => let? XP := at_ub x j in let z2 := vdot (vsub XP X) (vsub XP X) in Ok (m + omega (sqr_root z2) h * z2 * b))%num). 
  assert (GD := G (fun theta j b => let? XP := at_ub x j in let? YP := at_ub y j in let d := vlen (vsub XP X) in let e := (vlen (vsub YP Y) - d)%num in Ok (theta + 3 * omega d h * (1 - 0) * d * e * b / m))%num).
  split; intros L.
  - split; [|assert (D : exists t, dilatation_bv x y h omega X Y m js bv = Ok t); [|split; [exact D|destruct D as (t & D)]]].
    + apply GW; [|exact L]. intros a j b (H1 & _). destruct (A _ _ H1) as (P & ->). cbn [bind]. eauto.
    + apply GD; [|exact L]. intros a j b (H1 & H2). destruct (A _ _ H1) as (P & ->), (A _ _ H2) as (Q & ->). cbn [bind]. eauto.
    + unfold deviatoric_bv. rewrite D. cbn [bind]. apply G; [|exact L]. intros a j b (H1 & H2). destruct (A _ _ H1) as (P & ->), (A _ _ H2) as (Q & ->). cbn [bind]. eauto.
  - split; [|assert (D : dilatation_bv x y h omega X Y m js bv = UB); [|split; [exact D|unfold deviatoric_bv; now rewrite D]]].
    + apply GW; [|exact L]. intros a j b (H1 & _). destruct (A _ _ H1) as (P & ->). cbn [bind]. eauto.
    + apply GD; [|exact L]. intros a j b (H1 & H2). destruct (A _ _ H1) as (P & ->), (A _ _ H2) as (Q & ->). cbn [bind]. eauto.
Qed.
Print Assumptions C83_defined.

Lemma dilatation_sum (omega : R -> R -> R) (x y : list point) (h e : R) (X Y : point) (m0 : R) js bv : length x = length y -> bonds_ok x js bv -> expands e x y X Y js -> forall a w m, m0 <> 0 ->
  over_bonds (N:=RN) (fun m j b => let? XP := at_ub x j in let z2 := vdot (vsub XP X) (vsub XP X) in Ok (m + omega (sqrt z2) h * z2 * b)) a js bv = Ok m -> w = 3 * e * a / m0 ->
  over_bonds (N:=RN) (fun theta j b => let? XP := at_ub x j in let? YP := at_ub y j in let d := vlen (vsub XP X) in let e := vlen (vsub YP Y) - d in
     Ok (theta + 3 * omega d h * (1 - 0) * d * e * b / m0)) w js bv = Ok (3 * e * m / m0).
Proof.
  intros L B E. induction B as [|j b js bv Hj B IH]; intros a w m Hm H Hw; cbn [over_bonds] in *; [injection H as <-; now subst|].
  destruct (nth_error x j) as [XP|] eqn:EX; [|apply nth_error_None in EX; lia]. destruct (nth_error y j) as [YP|] eqn:EY; [|apply nth_error_None in EY; lia].
  unfold at_ub at 1 2. unfold at_ub at 1 in H. rewrite EX in *. rewrite EY. cbn [bind] in *. cbv zeta in *. eapply IH; [intros ? ? ? K; apply E; now right|exact Hm|exact H|]. subst w.
  pose proof (E j XP YP (or_introl eq_refl) EX EY) as D. unfold distance in D. set (d := vlen (vsub XP X)) in *.
  assert (S : vdot (vsub XP X) (vsub XP X) = d * d). { unfold d, vlen. to_R. symmetry. apply sqrt_sqrt. unfold vdot. to_R. pose proof (Rle_0_sqr (vx (vsub XP X))). pose proof (Rle_0_sqr (vy (vsub XP X))). pose proof (Rle_0_sqr (vz (vsub XP X))). unfold Rsqr in *. to_R. change (T RN) with R in *. lra. }
  change (sqrt (vdot (vsub XP X) (vsub XP X))) with d. rewrite S. to_R. change (T RN) with R in *. rewrite D. field. exact Hm.
Qed.

(** A neighbourhood that grows evenly by 1 + e has the dilatation 3 e, whatever the volumes of its bonds, and no
    deviatoric extension. *)
Theorem C83_expansion : forall omega (x y : list point) h e (X Y : point) js bv m, length x = length y -> bonds_ok x js bv -> expands e x y X Y js ->
  weighted_bv (N:=RN) x h omega X js bv = Ok m -> m <> 0 ->
  dilatation_bv (N:=RN) x y h omega X Y m js bv = Ok (3 * e) /\ deviatoric_bv (N:=RN) x y h omega omega X Y m js bv = Ok 0.
Proof.
  intros omega x y h e X Y js bv m L B E H Hm.
  assert (D : dilatation_bv (N:=RN) x y h omega X Y m js bv = Ok (3 * e)).
  { refine (eq_trans (dilatation_sum omega x y h e X Y m js bv L B E 0 0 m Hm H _) _); [field; exact Hm|]. f_equal. field. exact Hm. }
  split; [exact D|]. unfold deviatoric_bv. rewrite D. cbn [bind]. clear D H. change (ofZ (n:=RN) 0) with 0. induction B as [|j b js bv Hj B IH]; [reflexivity|]. cbn [over_bonds].
  destruct (nth_error x j) as [XP|] eqn:EX; [|apply nth_error_None in EX; lia]. destruct (nth_error y j) as [YP|] eqn:EY; [|apply nth_error_None in EY; lia].
  unfold at_ub at 1 2. rewrite EX, EY. cbn [bind]. cbv zeta. pose proof (E j XP YP (or_introl eq_refl) EX EY) as D. unfold distance in D. rewrite D.
  match goal with |- over_bonds _ ?a _ _ = _ => replace a with 0; [apply IH; intros ? ? ? K; apply E; now right|] end. to_R. change (T RN) with R in *. field.
Qed.
Print Assumptions C83_expansion.

(** Given another influence function than that of the program, it finds a deviatoric extension in an even
    expansion: with one neighbour at distance 1, for all values of the two functions that differ. *)
Theorem C83_deviatoric_refuted : forall (omega0 omega : R -> R -> R) h e, omega 1 h <> 0 -> omega0 1 h <> omega 1 h -> e <> 0 -> -1 <= e ->
  let x := [v3 (N:=RN) 0 0 0; v3 (N:=RN) 1 0 0] in let y := [v3 (N:=RN) 0 0 0; v3 (N:=RN) (1 + e) 0 0] in let O := v3 (N:=RN) 0 0 0 in
  expands e x y O O [1%nat] /\ weighted_bv (N:=RN) x h omega O [1%nat] [1] = Ok (omega 1 h) /\
  exists s, deviatoric_bv (N:=RN) x y h omega0 omega O O (omega 1 h) [1%nat] [1] = Ok s /\ s <> 0.
Proof.
  intros omega0 omega h e H0 HD He H1 x y O.
  assert (D1 : forall t, 0 <= t -> vlen (vsub (v3 (N:=RN) t 0 0) O) = t). { intros t Ht. unfold O, vlen, vdot, vsub. cbn. replace ((t - 0) * (t - 0) + (0 - 0) * (0 - 0) + (0 - 0) * (0 - 0)) with (t * t) by ring. now apply sqrt_square. }
  assert (Z : vdot (vsub (v3 (N:=RN) 1 0 0) O) (vsub (v3 (N:=RN) 1 0 0) O) = 1) by (unfold O, vdot, vsub; cbn; ring).
  split; [|split].
  - intros j XP YP [<-|[]] EX EY. injection EX as <-. injection EY as <-. unfold distance. rewrite !D1 by lra. ring.
  - unfold weighted_bv. cbn [over_bonds at_ub nth_error x bind]. rewrite Z. to_R. rewrite sqrt_1. f_equal. ring.
  - unfold deviatoric_bv, dilatation_bv. cbn [over_bonds at_ub nth_error x y bind]. rewrite !D1 by lra. to_R. eexists. split; [reflexivity|].
    set (q := omega0 1 h) in *. set (w := omega 1 h) in *. replace (0 + (1 + e - 1 - (0 + 3 * q * (1 - 0) * 1 * (1 + e - 1) * 1 / w) * 1 / 3) * w * (1 + e - 1 - (0 + 3 * q * (1 - 0) * 1 * (1 + e - 1) * 1 / w) * 1 / 3) * 1) with (e * e * (w - q) * (w - q) / w) by (field; exact H0).
    apply Rmult_integral_contrapositive_currified; [|now apply Rinv_neq_0_compat]. repeat apply Rmult_integral_contrapositive_currified; try assumption; lra.
Qed.
Print Assumptions C83_deviatoric_refuted.

Example C83_met : let x := [v3 (N:=RN) 0 0 0; v3 (N:=RN) 1 0 0; v3 (N:=RN) 0 2 0] in let y := [v3 (N:=RN) 5 0 0; v3 (N:=RN) 5 2 0; v3 (N:=RN) 5 0 4] in
  length x = length y /\ bonds_ok x [1%nat; 2%nat] [1 / 2; 1 / 3] /\ expands 1 x y (v3 (N:=RN) 0 0 0) (v3 (N:=RN) 5 0 0) [1%nat; 2%nat] /\
  weighted_bv (N:=RN) x 3 (fun _ _ => 1) (v3 (N:=RN) 0 0 0) [1%nat; 2%nat] [1 / 2; 1 / 3] = Ok (1 / 2 + 4 / 3).
Proof.
  intros x y. split; [reflexivity|]. split; [repeat constructor|]. split.
  - intros j XP YP [<-|[<-|[]]] EX EY; injection EX as <-; injection EY as <-; unfold distance, vlen, vdot, vsub; cbn.
    + replace ((5 - 5) * (5 - 5) + (2 - 0) * (2 - 0) + (0 - 0) * (0 - 0)) with (2 * 2) by ring. replace ((1 - 0) * (1 - 0) + (0 - 0) * (0 - 0) + (0 - 0) * (0 - 0)) with (1 * 1) by ring. rewrite !sqrt_square by lra. ring.
    + replace ((5 - 5) * (5 - 5) + (0 - 0) * (0 - 0) + (4 - 0) * (4 - 0)) with (4 * 4) by ring. replace ((0 - 0) * (0 - 0) + (2 - 0) * (2 - 0) + (0 - 0) * (0 - 0)) with (2 * 2) by ring. rewrite !sqrt_square by lra. ring.
  - unfold weighted_bv. cbn. f_equal. field.
Qed.
Print Assumptions C83_met.
