(** * C84: the linear peridynamic solid with weights for its bonds *)
From Coq Require Import ZArith Reals Lra Lia List.
From Verif Require Import Base Num ModelForce ModelFilter ModelGeom ProofData SpecGeom SpecLinear ModelLinear.
Import ListNotations.
Local Open Scope R_scope.

Lemma v3_eq (u v : point) : vx u = vx v -> vy u = vy v -> vz u = vz v -> u = v.
Proof. destruct u, v; cbn; congruence. Qed.
Ltac vec := apply v3_eq; unfold mix2, moved_by, vadd, vsub, vscale, vcross, vzero in *; cbn in *; to_R; change (T RN) with R in *.

Lemma bond_superposed c1 c2 x y1 y2 y3 p j X Y1 Y2 Y3 z d1 z2 d2 : superposed c1 c2 x y1 y2 y3 ->
  nth_error x p = Some X -> nth_error y1 p = Some Y1 -> nth_error y2 p = Some Y2 -> nth_error y3 p = Some Y3 ->
  bond_of (N:=RN) x y1 X Y1 j = Ok (z, d1) -> bond_of (N:=RN) x y2 X Y2 j = Ok (z2, d2) ->
  z2 = z /\ bond_of (N:=RN) x y3 X Y3 j = Ok (z, mix2 c1 c2 d1 d2).
Proof.
  intros (L3 & L1 & L2 & S) EX E1 E2 E3 H1 H2. unfold bond_of in *. apply bind_Ok in H1 as (XP & A & H1). apply bind_Ok in H1 as (P1 & B1 & H1). apply bind_Ok in H2 as (XP2 & A2 & H2). apply bind_Ok in H2 as (P2 & B2 & H2).
  rewrite A in A2. injection A2 as <-. injection H1 as <- <-. injection H2 as <- <-. split; [reflexivity|]. rewrite A. cbn [bind].
  apply at_ub_Ok in A, B1, B2. destruct (nth_error y3 j) as [P3|] eqn:B3; [|apply nth_error_None in B3; pose proof (proj1 (nth_error_Some x j) ltac:(congruence)); lia].
  unfold at_ub. rewrite B3. cbn [bind]. f_equal. f_equal. pose proof (S j XP P1 P2 P3 A B1 B2 B3) as Q. pose proof (S p X Y1 Y2 Y3 EX E1 E2 E3) as Q'. unfold moved_by in *. rewrite Q, Q'. vec; ring.
Qed.

(** Dilatations superpose, whatever the weights, influences and damage. *)
Theorem C84_dilatation : forall c1 c2 x y1 y2 y3 infl dmg weight m p k js t1 t2, superposed c1 c2 x y1 y2 y3 ->
  lin_dilatation (N:=RN) x y1 infl dmg weight m p k js = Ok t1 -> lin_dilatation (N:=RN) x y2 infl dmg weight m p k js = Ok t2 ->
  lin_dilatation (N:=RN) x y3 infl dmg weight m p k js = Ok (c1 * t1 + c2 * t2).
Proof.
  intros c1 c2 x y1 y2 y3 infl dmg weight m p k js t1 t2 S H1 H2. unfold lin_dilatation in *.
  apply bind_Ok in H1 as (X & EX & H1). apply bind_Ok in H1 as (Y1 & E1 & H1). apply bind_Ok in H1 as (s1 & R1 & H1).
  apply bind_Ok in H2 as (X' & EX' & H2). rewrite EX in EX'. injection EX' as <-. apply bind_Ok in H2 as (Y2 & E2 & H2). apply bind_Ok in H2 as (s2 & R2 & H2).
  rewrite EX. cbn [bind]. apply at_ub_Ok in EX, E1, E2. destruct (nth_error y3 p) as [Y3|] eqn:E3; [|apply nth_error_None in E3; destruct S as (L & _); pose proof (proj1 (nth_error_Some x p) ltac:(congruence)); lia].
  unfold at_ub at 1. rewrite E3. cbn [bind].
  match goal with |- bind ?e _ = _ => assert (R3 : e = Ok (c1 * s1 + c2 * s2)) end.
  { clear H1 H2. change (ofZ (n:=RN) 0) with 0 in *.
    assert (Z : 0 = c1 * 0 + c2 * 0) by ring. rewrite Z at 1. revert k R1 R2. generalize 0 at 1 3 as a1. generalize 0 at 1 2 as a2. clear Z.
    induction js as [|j js IH]; intros a2 a1 k R1 R2; cbn [bonds_from] in *; [injection R1 as <-; injection R2 as <-; reflexivity|].
    apply bind_Ok in R1 as (b1 & Q1 & R1). apply bind_Ok in R2 as (b2 & Q2 & R2).
    apply bind_Ok in Q1 as (wt & W & Q1). apply bind_Ok in Q1 as ((z & d1) & B1 & Q1). apply bind_Ok in Q1 as (om & O & Q1). apply bind_Ok in Q1 as (b & D & Q1).
    apply bind_Ok in Q2 as (wt' & W' & Q2). apply bind_Ok in Q2 as ((z' & d2) & B2 & Q2). apply bind_Ok in Q2 as (om' & O' & Q2). apply bind_Ok in Q2 as (b' & D' & Q2).
    destruct (bond_superposed _ _ _ _ _ _ _ _ _ _ _ _ _ _ _ _ S EX E1 E2 E3 B1 B2) as (-> & B3).
    rewrite W in *. rewrite O in *. rewrite D in *. injection W' as <-. injection O' as <-. injection D' as <-. injection Q1 as <-. injection Q2 as <-.
    cbn [bind]. rewrite B3. cbn [bind]. rewrite <- (IH _ _ _ R1 R2). f_equal. unfold vdot, mix2, vadd, vscale. cbn. to_R. change (T RN) with R in *. ring. }
  rewrite R3. cbn [bind]. destruct js; [injection H1 as <-; injection H2 as <-; reflexivity|].
  apply bind_Ok in H1 as (mp & M & H1). rewrite M in *. cbn [bind] in *. injection H1 as <-. injection H2 as <-. f_equal. to_R. change (T RN) with R in *. ring.
Qed.
Print Assumptions C84_dilatation.

Lemma pull_superposed K MU om m c1 c2 ta tb z d1 d2 :
  lin_pull (N:=RN) K MU om (c1 * ta + c2 * tb) m z (mix2 c1 c2 d1 d2) = mix2 c1 c2 (lin_pull (N:=RN) K MU om ta m z d1) (lin_pull (N:=RN) K MU om tb m z d2).
Proof. unfold lin_pull. unfold mix2. apply v3_eq; unfold vadd, vscale, vdot; cbn; to_R; change (T RN) with R in *; unfold Rdiv; ring. Qed.

(** So do the forces. *)
Theorem C84_superposition : forall c1 c2 x y1 y2 y3 infl dmg weight K MU m th1 th2 th3 p k js f1 f2, superposed c1 c2 x y1 y2 y3 -> superposed_values c1 c2 th1 th2 th3 ->
  improved_force (N:=RN) x y1 infl dmg weight K MU m th1 p k js = Ok f1 -> improved_force (N:=RN) x y2 infl dmg weight K MU m th2 p k js = Ok f2 ->
  improved_force (N:=RN) x y3 infl dmg weight K MU m th3 p k js = Ok (mix2 c1 c2 f1 f2).
Proof.
  intros c1 c2 x y1 y2 y3 infl dmg weight K MU m th1 th2 th3 p k js f1 f2 S (_ & V) H1 H2. unfold improved_force in *.
  apply bind_Ok in H1 as (X & EX & H1). apply bind_Ok in H1 as (Y1 & E1 & R1).
  apply bind_Ok in H2 as (X' & EX' & H2). rewrite EX in EX'. injection EX' as <-. apply bind_Ok in H2 as (Y2 & E2 & R2).
  rewrite EX. cbn [bind]. apply at_ub_Ok in EX, E1, E2. destruct (nth_error y3 p) as [Y3|] eqn:E3; [|apply nth_error_None in E3; destruct S as (L & _); pose proof (proj1 (nth_error_Some x p) ltac:(congruence)); lia].
  unfold at_ub at 1. rewrite E3. cbn [bind].
  assert (Z : vzero (N:=RN) = mix2 c1 c2 vzero vzero) by (vec; ring). rewrite Z at 1. clear Z. revert k R1 R2. generalize (vzero (N:=RN)) at 1 3 as a1. generalize (vzero (N:=RN)) at 1 2 as a2.
  induction js as [|j js IH]; intros a2 a1 k R1 R2; cbn [bonds_from] in *; [injection R1 as <-; injection R2 as <-; reflexivity|].
  apply bind_Ok in R1 as (b1 & Q1 & R1). apply bind_Ok in R2 as (b2 & Q2 & R2).
  apply bind_Ok in Q1 as (wt & W & Q1). apply bind_Ok in Q1 as ((z & d1) & B1 & Q1). apply bind_Ok in Q1 as (om & O & Q1). apply bind_Ok in Q1 as (mp & M & Q1). apply bind_Ok in Q1 as (t1 & T1 & Q1). apply bind_Ok in Q1 as (b & D & Q1). cbv zeta in Q1. apply bind_Ok in Q1 as (mj & MJ & Q1). apply bind_Ok in Q1 as (t1j & T1J & Q1).
  apply bind_Ok in Q2 as (wt' & W' & Q2). apply bind_Ok in Q2 as ((z' & d2) & B2 & Q2). apply bind_Ok in Q2 as (om' & O' & Q2). apply bind_Ok in Q2 as (mp' & M' & Q2). apply bind_Ok in Q2 as (t2 & T2 & Q2). apply bind_Ok in Q2 as (b' & D' & Q2). cbv zeta in Q2. apply bind_Ok in Q2 as (mj' & MJ' & Q2). apply bind_Ok in Q2 as (t2j & T2J & Q2).
  destruct (bond_superposed _ _ _ _ _ _ _ _ _ _ _ _ _ _ _ _ S EX E1 E2 E3 B1 B2) as (-> & B3).
  rewrite W in *. rewrite O in *. rewrite D in *. rewrite M in *. rewrite MJ in *. injection W' as <-. injection O' as <-. injection D' as <-. injection M' as <-. injection MJ' as <-. injection Q1 as <-. injection Q2 as <-.
  apply at_ub_Ok in T1, T2, T1J, T2J. assert (T3 : at_ub (A:=T RN) th3 p = Ok (c1 * t1 + c2 * t2)) by (apply at_ub_Ok; exact (V _ _ _ T1 T2)). assert (T3J : at_ub (A:=T RN) th3 j = Ok (c1 * t1j + c2 * t2j)) by (apply at_ub_Ok; exact (V _ _ _ T1J T2J)).
  cbn [bind]. rewrite B3. cbn [bind]. rewrite T3 in IH |- *. cbn [bind]. cbv zeta. rewrite T3J. cbn [bind]. rewrite <- (IH _ _ _ R1 R2). f_equal. rewrite !pull_superposed.
  generalize (lin_pull (N:=RN) K MU om t1 mp z d1) (lin_pull (N:=RN) K MU om t2 mp z d2) (lin_pull (N:=RN) K MU om t1j mj z d1) (lin_pull (N:=RN) K MU om t2j mj z d2). intros. vec; ring.
Qed.
Print Assumptions C84_superposition.

Lemma pull_law K MU om th m z du : lin_pull (N:=RN) K MU om th m z du = vscale (N:=RN) (linear_state K MU om m th (vdot z du / vdot z z)) z.
Proof. unfold lin_pull, linear_state. apply v3_eq; unfold vscale, vdot; cbn; to_R; change (T RN) with R in *; unfold Rdiv; rewrite !Rinv_mult;
  generalize (/ m) (/ (vx z * vx z + vy z * vy z + vz z * vz z)); intros; field. Qed.

(** What the force is: each bond pulls along itself with the force states of its two ends, times its weight; only
    the state of the point itself is reduced by the damage. *)
Theorem C84_law : forall x y infl dmg weight K MU m theta p k j js f, improved_force (N:=RN) x y infl dmg weight K MU m theta p k (js ++ [j]) = Ok f ->
  exists f' X XP Y YP om b mp mj tp tj wt, improved_force (N:=RN) x y infl dmg weight K MU m theta p k js = Ok f' /\
    nth_error x p = Some X /\ nth_error x j = Some XP /\ nth_error y p = Some Y /\ nth_error y j = Some YP /\
    nth_error infl (length js + k) = Some om /\ nth_error dmg (length js + k) = Some b /\ weight (length js + k)%nat j = Ok wt /\
    nth_error m p = Some mp /\ nth_error m j = Some mj /\ nth_error theta p = Some tp /\ nth_error theta j = Some tj /\
    f = vadd f' (vscale (N:=RN) (wt * ((1 - b) * linear_state K MU om mp tp (linear_strain X XP Y YP) + linear_state K MU om mj tj (linear_strain X XP Y YP))) (vsub XP X)).
Proof.
  intros x y infl dmg weight K MU m theta p k j js f H. unfold improved_force in *. apply bind_Ok in H as (X & EX & H). apply bind_Ok in H as (Y & EY & H). rewrite EX. cbn [bind]. rewrite EY. cbn [bind].
  revert k H. generalize (vzero (N:=RN)) as a. induction js as [|i js IH]; intros a k H; cbn [bonds_from app length] in *.
  - apply bind_Ok in H as (s' & Q & R). injection R as <-. apply bind_Ok in Q as (wt & W & Q). apply bind_Ok in Q as ((z & d) & D & Q). apply bind_Ok in Q as (om & O & Q). apply bind_Ok in Q as (mp & M & Q). apply bind_Ok in Q as (th & H1 & Q). apply bind_Ok in Q as (b & DB & Q). cbv zeta in Q. apply bind_Ok in Q as (mj & MJ & Q). apply bind_Ok in Q as (tj & H2 & Q). injection Q as <-.
    unfold bond_of in D. apply bind_Ok in D as (XP & A1 & D). apply bind_Ok in D as (YP & A2 & D). injection D as <- <-. apply at_ub_Ok in EX, EY, A1, A2, O, M, MJ, H1, H2, DB.
    exists a, X, XP, Y, YP, om, b, mp, mj, th, tj, wt. repeat (split; [first [reflexivity | assumption]|]). rewrite !pull_law. unfold linear_strain, moved_by.
    generalize (linear_state K MU om mp th (vdot (vsub XP X) (vsub (vsub YP XP) (vsub Y X)) / vdot (vsub XP X) (vsub XP X))) (linear_state K MU om mj tj (vdot (vsub XP X) (vsub (vsub YP XP) (vsub Y X)) / vdot (vsub XP X) (vsub XP X))). intros. vec; ring.
  - apply bind_Ok in H as (s' & Q & H). rewrite Q. cbn [bind]. destruct (IH _ _ H) as (f' & X' & XP & Y' & YP & om & b & mp & mj & tp & tj & wt & E). exists f', X', XP, Y', YP, om, b, mp, mj, tp, tj, wt.
    replace (Datatypes.S (length js) + k)%nat with (length js + (1 + k))%nat by lia. exact E.
Qed.
Print Assumptions C84_law.

(** A translation with a small rotation has no dilatation and no force. *)
Theorem C84_rigid : forall a w x y infl dmg weight K MU m theta p k js, rigid_displacement a w x y -> Forall (eq 0) theta ->
  (forall t, lin_dilatation (N:=RN) x y infl dmg weight m p k js = Ok t -> t = 0) /\
  (forall f, improved_force (N:=RN) x y infl dmg weight K MU m theta p k js = Ok f -> f = vzero).
Proof.
  intros a w x y infl dmg weight K MU m theta p k js G T0.
  assert (B : forall X Y j z du, nth_error x p = Some X -> nth_error y p = Some Y -> bond_of (N:=RN) x y X Y j = Ok (z, du) -> du = vcross (N:=RN) w z).
  { intros X Y j z du EX EY H. unfold bond_of in H. apply bind_Ok in H as (XP & A & H). apply bind_Ok in H as (YP & A' & H). injection H as <- <-. apply at_ub_Ok in A, A'.
    pose proof (G _ _ _ A A') as Q. pose proof (G _ _ _ EX EY) as Q'. unfold moved_by in *. rewrite Q, Q'. vec; ring. }
  assert (T : forall i t, at_ub theta i = Ok t -> t = 0) by (intros i t H; apply at_ub_Ok in H; apply nth_error_In in H; symmetry; now apply (proj1 (Forall_forall _ _) T0)).
  split.
  - intros t H. unfold lin_dilatation in H. apply bind_Ok in H as (X & EX & H). apply bind_Ok in H as (Y & EY & H). apply bind_Ok in H as (s & R & H). apply at_ub_Ok in EX, EY.
    assert (s = 0). { clear H. change (ofZ (n:=RN) 0) with 0 in R. revert k R. induction js as [|j js IH]; intros k R; cbn [bonds_from] in R; [now injection R|].
      apply bind_Ok in R as (s' & Q & R). apply bind_Ok in Q as (wt & W & Q). apply bind_Ok in Q as ((z & d) & D & Q). apply bind_Ok in Q as (om & O & Q). apply bind_Ok in Q as (b & DB & Q). injection Q as <-.
      apply (B _ _ _ _ _ EX EY) in D. subst d. apply (IH (S k)). rewrite <- R. f_equal. unfold vdot, vcross. cbn. to_R. change (Num.T RN) with R in *. ring. }
    subst s. destruct js; [now injection H|]. apply bind_Ok in H as (mp & M & H). injection H as <-. to_R. change (Num.T RN) with R in *. ring.
  - intros f H. unfold improved_force in H. apply bind_Ok in H as (X & EX & H). apply bind_Ok in H as (Y & EY & R). apply at_ub_Ok in EX, EY.
    revert k R. induction js as [|j js IH]; intros k R; cbn [bonds_from] in R; [now injection R|].
    apply bind_Ok in R as (s' & Q & R). apply bind_Ok in Q as (wt & W & Q). apply bind_Ok in Q as ((z & d) & D & Q). apply bind_Ok in Q as (om & O & Q). apply bind_Ok in Q as (mp & M & Q). apply bind_Ok in Q as (th & H1 & Q). apply bind_Ok in Q as (b & DB & Q). cbv zeta in Q. apply bind_Ok in Q as (mj & MJ & Q). apply bind_Ok in Q as (tj & H2 & Q). injection Q as <-.
    apply (B _ _ _ _ _ EX EY) in D. subst d. apply T in H1, H2. subst th tj. apply (IH (S k)). rewrite <- R. f_equal.
    assert (P : forall mm, lin_pull (N:=RN) K MU om 0 mm z (vcross (N:=RN) w z) = vzero) by (intros mm; unfold lin_pull; vec; unfold Rdiv; ring). rewrite !P. vec; ring.
Qed.
Print Assumptions C84_rigid.

(** An even expansion by e has the dilatation 3 e, with every weights, if the weighted volume is the sum of
    influence, length squared and weight of the bonds and none is damaged. *)
Theorem C84_expansion : forall a e x y infl dmg weight m p k js X mp, even_displacement a e x y -> length x = length y -> nth_error x p = Some X -> Forall (eq 0) dmg -> js <> [] ->
  bonds_from (fun acc k j => let? wt := weight k j in let? XP := at_ub x j in let? om := at_ub infl k in let? _ := at_ub dmg k in
     Ok (acc + om * (distance XP X * distance XP X) * wt)) 0 k js = Ok mp -> nth_error m p = Some mp -> mp <> 0 ->
  lin_dilatation (N:=RN) x y infl dmg weight m p k js = Ok (3 * e).
Proof.
  intros a e x y infl dmg weight m p k js X mp G L EX D0 J W EM NZ.
  assert (Y0 : forall i P, nth_error x i = Some P -> exists Q, nth_error y i = Some Q). { intros i P H. destruct (nth_error y i) eqn:E; [eauto|]. apply nth_error_None in E. pose proof (proj1 (nth_error_Some x i) ltac:(congruence)). lia. }
  destruct (Y0 _ _ EX) as (Y & EY). unfold lin_dilatation. rewrite (proj2 (at_ub_Ok _ _ _) EX), (proj2 (at_ub_Ok _ _ _) EY). cbn [bind].
  match goal with |- bind ?r _ = _ => assert (RS : r = Ok (e * mp)) end.
  { change (ofZ (n:=RN) 0) with 0. assert (Z : 0 = e * 0) by ring. rewrite Z at 1. revert k W. generalize 0 at 1 2 as s. clear Z J EM NZ. induction js as [|j js IH]; intros s k W; cbn [bonds_from] in *; [now injection W as <-|].
    apply bind_Ok in W as (s' & Q & W). apply bind_Ok in Q as (wt & Hw & Q). apply bind_Ok in Q as (XP & HX & Q). apply bind_Ok in Q as (om & HO & Q). apply bind_Ok in Q as (b & HB & Q). injection Q as <-.
    rewrite Hw. cbn [bind]. unfold bond_of at 1. apply at_ub_Ok in HX. destruct (Y0 _ _ HX) as (YP & HY). rewrite (proj2 (at_ub_Ok _ _ _) HX), (proj2 (at_ub_Ok _ _ _) HY). cbn [bind]. change (T RN) with R in *. rewrite HO. cbn [bind]. rewrite HB. cbn [bind].
    rewrite <- (IH _ _ W). f_equal. apply at_ub_Ok, nth_error_In in HB. apply (proj1 (Forall_forall _ _) D0) in HB. subst b.
    assert (LEN : distance XP X * distance XP X = vdot (vsub XP X) (vsub XP X)). { unfold distance, vlen. to_R. apply sqrt_sqrt. unfold vdot. to_R. pose proof (Rle_0_sqr (vx (vsub XP X))). pose proof (Rle_0_sqr (vy (vsub XP X))). pose proof (Rle_0_sqr (vz (vsub XP X))). unfold Rsqr in *. to_R. change (T RN) with R in *. lra. }
    rewrite LEN. pose proof (G _ _ _ HX HY) as Q1. pose proof (G _ _ _ EX EY) as Q2. unfold moved_by in *. rewrite Q1, Q2. unfold vdot, vsub, vadd, vscale. cbn. to_R. change (T RN) with R in *. ring. }
  rewrite RS. cbn [bind]. destruct js; [congruence|]. change (T RN) with R in *. rewrite (proj2 (at_ub_Ok m p mp) EM). cbn [bind]. f_equal. to_R. change (T RN) with R in *. field. exact NZ.
Qed.
Print Assumptions C84_expansion.

(** The dilatation does not see broken bonds: it is the same for all positions of neighbours behind them. *)
Theorem C84_broken_dilatation : forall x y y' infl dmg weight m p k js t, length y = length y' -> nth_error y p = nth_error y' p ->
  (forall i j, nth_error js i = Some j -> nth_error y j = nth_error y' j \/ nth_error dmg (i + k) = Some 1) ->
  lin_dilatation (N:=RN) x y infl dmg weight m p k js = Ok t -> lin_dilatation (N:=RN) x y' infl dmg weight m p k js = Ok t.
Proof.
  intros x y y' infl dmg weight m p k js t L EP H D. unfold lin_dilatation in *. apply bind_Ok in D as (X & EX & D). apply bind_Ok in D as (Y & EY & D). apply bind_Ok in D as (s & S & D).
  rewrite EX. unfold at_ub at 1 in EY. rewrite EP in EY. cbn [bind]. unfold at_ub at 1. rewrite EY. cbn [bind].
  match goal with |- bind ?r _ = _ => assert (RS : r = Ok s) end; [|rewrite RS; exact D].
  clear D. revert S. change (ofZ (n:=RN) 0) with 0. generalize 0 as a. revert k H. induction js as [|j js IH]; intros k H a S; cbn [bonds_from] in *; [exact S|].
  apply bind_Ok in S as (a' & Q & S). apply bind_Ok in Q as (wt & W & Q). apply bind_Ok in Q as ((z & d) & B & Q). apply bind_Ok in Q as (om & O & Q). apply bind_Ok in Q as (b & DB & Q). injection Q as <-.
  assert (H' : forall i j, nth_error js i = Some j -> nth_error y j = nth_error y' j \/ nth_error dmg (i + Datatypes.S k) = Some 1) by (intros i j0 E; replace (i + Datatypes.S k)%nat with (Datatypes.S i + k)%nat by lia; now apply H).
  unfold bond_of in B. apply bind_Ok in B as (XP & BX & B). apply bind_Ok in B as (YP & BY & B). injection B as <- <-.
  rewrite W. cbn [bind]. unfold bond_of at 1. rewrite BX. cbn [bind]. apply at_ub_Ok in BY.
  destruct (nth_error y' j) as [YQ|] eqn:BQ; [|apply nth_error_None in BQ; pose proof (proj1 (nth_error_Some y j) ltac:(congruence)); lia].
  rewrite (proj2 (at_ub_Ok _ _ _) BQ). cbn [bind]. rewrite O. cbn [bind]. rewrite DB. cbn [bind]. rewrite <- (IH (Datatypes.S k) H' _ S). f_equal.
  destruct (H 0%nat j eq_refl) as [E|E]; [rewrite BY, BQ in E; injection E as <-; reflexivity|]. cbn [plus] in E. apply at_ub_Ok in DB. change (T RN) with R in *. rewrite DB in E. injection E as ->. to_R. ring.
Qed.
Print Assumptions C84_broken_dilatation.

(** A broken bond should carry no force.  With the improved quadrature it does: two points whose bond is broken
    on both sides, so that both dilatations are zero, still pull at each other, whatever the moduli, weight and
    stretch. *)
Theorem C84_broken_refuted : forall K MU om m wt e, MU <> 0 -> om <> 0 -> m <> 0 -> wt <> 0 -> e <> 0 ->
  let x := [v3 (N:=RN) 0 0 0; v3 (N:=RN) 1 0 0] in let y := [v3 (N:=RN) 0 0 0; v3 (N:=RN) (1 + e) 0 0] in
  points_from (lin_dilatation (N:=RN) x y [om; om] [1; 1] (bond_weight (N:=RN) [wt; wt]) [m; m]) 0 0 [[1%nat]; [0%nat]] = Ok [0; 0] /\
  exists F, points_from (improved_force (N:=RN) x y [om; om] [1; 1] (bond_weight (N:=RN) [wt; wt]) K MU [m; m] [0; 0]) 0 0 [[1%nat]; [0%nat]] = Ok [v3 (N:=RN) F 0 0; v3 (N:=RN) (- F) 0 0] /\ F <> 0.
Proof.
  intros K MU om m wt e H1 H2 H3 H4 H5 x y. split.
  - cbn. f_equal. f_equal; [field; exact H3|]. f_equal. field. exact H3.
  - exists (15 * MU * om * e * wt / m). split.
    + cbn. unfold improved_force, x, y. cbn. f_equal. f_equal; [|f_equal]; vec; unfold lin_pull, vdot; cbn; to_R; field; repeat split; first [exact H3 | lra].
    + unfold Rdiv. repeat apply Rmult_integral_contrapositive_currified; try assumption; try lra. now apply Rinv_neq_0_compat.
Qed.
Print Assumptions C84_broken_refuted.

(** Three points, two of them moved evenly and two more displacements, with weights that differ. *)
Example C84_met : let x := [v3 (N:=RN) 0 0 0; v3 (N:=RN) 1 0 0; v3 (N:=RN) 0 2 0] in
  let y1 := [v3 (N:=RN) 1 0 0; v3 (N:=RN) 3 0 0; v3 (N:=RN) 1 4 0] in let y2 := [v3 (N:=RN) 0 0 0; v3 (N:=RN) 1 1 0; v3 (N:=RN) (-2) 2 0] in
  let y3 := [v3 (N:=RN) 2 0 0; v3 (N:=RN) 5 3 0; v3 (N:=RN) (-4) 6 0] in
  superposed 2 3 x y1 y2 y3 /\ even_displacement (v3 (N:=RN) 1 0 0) 1 x y1 /\ rigid_displacement (v3 (N:=RN) 0 0 0) (v3 (N:=RN) 0 0 1) x y2 /\
  lin_dilatation (N:=RN) x y1 [1; 1 / 2] [0; 0] (bond_weight (N:=RN) [1 / 3; 1 / 4]) [1 / 3 + 1 / 2; 1; 1] 0 0 [1%nat; 2%nat] = Ok 3 /\
  exists f, improved_force (N:=RN) x y1 [1; 1 / 2] [0; 0] (bond_weight (N:=RN) [1 / 3; 1 / 4]) 2 1 [1 / 3 + 1 / 2; 1; 1] [3; 3; 3] 0 0 [1%nat; 2%nat] = Ok f.
Proof.
  intros x y1 y2 y3. split; [|split; [|split; [|split]]].
  - split; [reflexivity|]. split; [reflexivity|]. split; [reflexivity|]. intros [|[|[|i]]] X Y1 Y2 Y3 A B C D; cbn in A, B, C, D; try (destruct i; discriminate); injection A as <-; injection B as <-; injection C as <-; injection D as <-; vec; ring.
  - intros [|[|[|i]]] X Y A B; cbn in A, B; try (destruct i; discriminate); injection A as <-; injection B as <-; vec; ring.
  - intros [|[|[|i]]] X Y A B; cbn in A, B; try (destruct i; discriminate); injection A as <-; injection B as <-; vec; ring.
  - cbn. f_equal. field.
  - eexists. reflexivity.
Qed.
Print Assumptions C84_met.
