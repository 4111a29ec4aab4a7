(** * Proofs about the Error output *)
From Coq Require Import Reals Lra Permutation.
From Coquelicot Require Import Coquelicot.
From Verif Require Import Base Num ModelScalar ModelPlastic ModelGlobal ModelError SpecGlobal ProofGlobal ProofCubic SpecError.
Local Open Scope R_scope.

(** ** The integral *)
Lemma RInt_const' (c a b : R) : RInt (fun _ => c) a b = (b - a) * c.
Proof. rewrite RInt_const. reflexivity. Qed.

Lemma squared_error_eq u b :
  squared_error u b = side_y b * side_z b *
    ((vx u * vx u + vy u * vy u + vz u * vz u) * side_x b
     - 2 / 3 * vx u * (x_hi b ^ 3 - x_lo b ^ 3) + / 5 * (x_hi b ^ 5 - x_lo b ^ 5)).
Proof.
  unfold squared_error. set (q := fun x : R => (vx u - x * x) ^ 2 + (vy u - 0) ^ 2 + (vz u - 0) ^ 2).
  transitivity (RInt (fun x => (side_y b * side_z b) * q x) (x_lo b) (x_hi b)).
  { apply RInt_ext. intros x _.
    transitivity (RInt (fun y => side_z b * q x) (y_lo b) (y_hi b)).
    - apply RInt_ext. intros y _. etransitivity; [apply (RInt_const' (q x))|]. reflexivity.
    - etransitivity; [apply RInt_const'|]. symmetry. exact (Rmult_assoc (side_y b) (side_z b) (q x)). }
  apply is_RInt_unique.
  set (P := fun x : R => (side_y b * side_z b) * ((vx u * vx u + vy u * vy u + vz u * vz u) * x - 2 / 3 * vx u * (x * x * x) + / 5 * (x * x * x * x * x))).
  replace (side_y b * side_z b * _) with (minus (P (x_hi b)) (P (x_lo b))).
  - apply (is_RInt_derive P (fun x => (side_y b * side_z b) * q x)).
    + intros x _. unfold P, q. auto_derive; [auto|]. to_R. field.
    + intros x _. apply continuity_pt_filterlim. unfold q. reg.
  - unfold minus, plus, Hierarchy.opp, P, side_x. cbn. to_R. field.
Qed.

Lemma squared_error_pos u b : 0 < side_x b -> 0 < side_y b -> 0 < side_z b -> 0 < squared_error u b.
Proof.
  intros X Y Z. rewrite squared_error_eq. apply Rmult_lt_0_compat; [now apply Rmult_lt_0_compat|].
  unfold side_x in *. destruct u as [a p q]. cbn [vx vy vz]. change (T RN) with R in *.
  destruct b as [x1 x2 y1 y2 z1 z2]. cbn [x_lo x_hi] in *. clear Y Z.
  set (h := x2 - x1) in *. set (c := (x1 + x2) / 2).
  replace ((a * a + p * p + q * q) * h - 2 / 3 * a * (x2 ^ 3 - x1 ^ 3) + / 5 * (x2 ^ 5 - x1 ^ 5))
    with (h * ((a - c * c - h * h / 12) ^ 2 + p * p + q * q + (c * h) ^ 2 / 3 + (h * h) ^ 2 / 180)) by (unfold h, c; field).
  apply Rmult_lt_0_compat; [exact X|]. pose proof (pow2_ge_0 (a - c * c - h * h / 12)). pose proof (pow2_ge_0 (c * h)).
  assert (0 < (h * h) ^ 2) by (apply pow_lt; now apply Rmult_lt_0_compat). nra.
Qed.

Definition tall : R := 10 ^ 12.
Lemma ten12 : ofZ (n:=RN) (10 ^ 12) = tall.
Proof. unfold tall. to_R. change (10 ^ 12)%Z with 1000000000000%Z. lra. Qed.

Lemma error_value u (x1 x2 y1 y2 z1 z2 : R) :
  Rabs (y2 - y1 - (x2 - x1)) <= tall -> Rabs (z2 - z1 - (x2 - x1)) <= tall ->
  exists e, computeError_1 (N:=RN) u x1 x2 y1 y2 z1 z2 = Ok (e : R) /\
    e * (y2 - y1) * (z2 - z1) = squared_error u (Box x1 x2 y1 y2 z1 z2) * (x2 - x1) ^ 2.
Proof.
  intros HY HZ. unfold computeError_1. rewrite !ten12, !nabs_R. cbv zeta.
  destruct (ltb (n:=RN) tall (Rabs (sub (n:=RN) (sub (n:=RN) y2 y1) (sub (n:=RN) x2 x1)))) eqn:E1.
  { exfalso. to_R. apply Rltb_true in E1. lra. }
  destruct (ltb (n:=RN) tall (Rabs (sub (n:=RN) (sub (n:=RN) z2 z1) (sub (n:=RN) x2 x1)))) eqn:E2.
  { exfalso. to_R. apply Rltb_true in E2. lra. }
  eexists. split; [reflexivity|]. rewrite squared_error_eq. destruct u as [a p q].
  unfold cube, fifth, side_x, side_y, side_z. cbn [vx vy vz x_lo x_hi y_lo y_hi z_lo z_hi]. to_R. change (T RN) with R in *. field.
Qed.

(** ** Limits and counts *)
Lemma lower_gen {A} (c : A -> R) l : forall a : R,
  let m := fold_left (fun acc p => if ltb (n:=RN) (c p) acc then c p else acc) l a in
  m <= a /\ (forall p, In p l -> m <= c p) /\ (m = a \/ exists p, In p l /\ m = c p).
Proof.
  induction l as [|p l IH]; intros a m; cbn [fold_left] in m.
  - subst m. split; [apply Rle_refl|]. split; [intros p []|now left].
  - specialize (IH (if ltb (n:=RN) (c p) a then c p else a)). cbv zeta in IH. fold m in IH. destruct IH as (A1 & B & C).
    assert (H : (if ltb (n:=RN) (c p) a then c p else a) <= a /\ (if ltb (n:=RN) (c p) a then c p else a) <= c p /\
                ((if ltb (n:=RN) (c p) a then c p else a) = a \/ (if ltb (n:=RN) (c p) a then c p else a) = c p)).
    { to_R. destruct (Rltb (c p) a) eqn:E; [apply Rltb_true in E|apply Rltb_false in E]; repeat split; try lra; auto. }
    destruct H as (H1 & H2 & H3). split; [exact (Rle_trans _ _ _ A1 H1)|]. split.
    + intros q [<-|Q]; [exact (Rle_trans _ _ _ A1 H2)|now apply B].
    + destruct C as [C|(q & Q & C)]; [|right; exists q; split; [now right|exact C]].
      destruct H3 as [H3|H3]; [left; exact (eq_trans C H3)|right; exists p; split; [now left|exact (eq_trans C H3)]].
Qed.
Lemma upper_gen {A} (c : A -> R) l : forall a : R,
  let m := fold_left (fun acc p => if ltb (n:=RN) acc (c p) then c p else acc) l a in
  a <= m /\ (forall p, In p l -> c p <= m) /\ (m = a \/ exists p, In p l /\ m = c p).
Proof.
  induction l as [|p l IH]; intros a m; cbn [fold_left] in m.
  - subst m. split; [apply Rle_refl|]. split; [intros p []|now left].
  - specialize (IH (if ltb (n:=RN) a (c p) then c p else a)). cbv zeta in IH. fold m in IH. destruct IH as (A1 & B & C).
    assert (H : a <= (if ltb (n:=RN) a (c p) then c p else a) /\ c p <= (if ltb (n:=RN) a (c p) then c p else a) /\
                ((if ltb (n:=RN) a (c p) then c p else a) = a \/ (if ltb (n:=RN) a (c p) then c p else a) = c p)).
    { to_R. destruct (Rltb a (c p)) eqn:E; [apply Rltb_true in E|apply Rltb_false in E]; repeat split; try lra; auto. }
    destruct H as (H1 & H2 & H3). split; [exact (Rle_trans _ _ _ H1 A1)|]. split.
    + intros q [<-|Q]; [exact (Rle_trans _ _ _ H2 A1)|now apply B].
    + destruct C as [C|(q & Q & C)]; [|right; exists q; split; [now right|exact C]].
      destruct H3 as [H3|H3]; [left; exact (eq_trans C H3)|right; exists p; split; [now left|exact (eq_trans C H3)]].
Qed.

Lemma lower_is (c : V3 RN -> R) l (a : R) : a <= dbl_max (N:=RN) -> (exists p, In p l /\ c p = a) -> (forall p, In p l -> a <= c p) ->
  lower_limit (N:=RN) c l = a.
Proof.
  intros D (p & Hp & E) M. destruct (lower_gen c l (dbl_max (N:=RN))) as (A & B & C). fold (lower_limit (N:=RN) c l) in A, B, C.
  apply Rle_antisym; [rewrite <- E; now apply B|]. destruct C as [C|(q & Q & C)]; rewrite C; [exact D|now apply M].
Qed.
Lemma upper_is (c : V3 RN -> R) l (a : R) : - dbl_max (N:=RN) <= a -> (exists p, In p l /\ c p = a) -> (forall p, In p l -> c p <= a) ->
  upper_limit (N:=RN) c l = a.
Proof.
  intros D (p & Hp & E) M. destruct (upper_gen c l (opp (n:=RN) (dbl_max (N:=RN)))) as (A & B & C). fold (upper_limit (N:=RN) c l) in A, B, C.
  apply Rle_antisym; [|rewrite <- E; now apply B]. destruct C as [C|(q & Q & C)]; rewrite C; [exact D|now apply M].
Qed.

Definition near (c : V3 RN -> R) (a : R) (p : V3 RN) : bool := Rltb (Rabs (c p - a)) (/ 10 ^ 10).
Lemma tol10 : lit (n:=RN) 1 (10 ^ 10) = / 10 ^ 10.
Proof. to_R. change (10 ^ 10)%Z with 10000000000%Z. replace (10 ^ 10) with 10000000000 by ring. unfold Rdiv. now rewrite Rmult_1_l. Qed.
Lemma on_limit_count (c : V3 RN -> R) a l : on_limit (N:=RN) c a l = length (filter (near c a) l).
Proof.
  unfold on_limit. rewrite tol10.
  enough (H : forall k, fold_left (fun k p => if ltb (n:=RN) (nabs (N:=RN) (sub (n:=RN) (c p) a)) (/ 10 ^ 10) then S k else k) l k = (k + length (filter (near c a) l))%nat)
    by apply (H 0%nat).
  induction l as [|p l IH]; intros k; cbn [fold_left filter]; [cbn; lia|].
  rewrite nabs_R. change (ltb (n:=RN) (Rabs (sub (n:=RN) (c p) a)) (/ 10 ^ 10)) with (near c a p).
  destruct (near c a p); rewrite IH; cbn [length]; lia.
Qed.
Lemma filter_perm {A} (f : A -> bool) l m : Permutation l m -> Permutation (filter f l) (filter f m).
Proof.
  induction 1; cbn.
  - constructor.
  - destruct (f x); auto.
  - destruct (f x), (f y); auto. constructor.
  - now transitivity (filter f l').
Qed.
Lemma on_limit_perm (c : V3 RN -> R) a l m : Permutation l m -> on_limit (N:=RN) c a l = on_limit (N:=RN) c a m.
Proof. intros P. rewrite !on_limit_count. now apply Permutation_length, filter_perm. Qed.

Definition eps : R := / 10 ^ 10.
Lemma eps_pos : 0 < eps.
Proof. apply Rinv_0_lt_compat, pow_lt. lra. Qed.
Lemma near_self a : Rltb (Rabs (a - a)) eps = true.
Proof. apply Rltb_true. rewrite Rminus_diag_eq, Rabs_R0 by reflexivity. apply eps_pos. Qed.
Lemma near_far a b : eps <= b - a -> Rltb (Rabs (a - b)) eps = false /\ Rltb (Rabs (b - a)) eps = false.
Proof.
  intros H. pose proof eps_pos. split; apply Rltb_false; [rewrite Rabs_minus_sym|]; rewrite Rabs_pos_eq; lra.
Qed.
Lemma near_close a b : 0 <= b - a < eps -> Rltb (Rabs (a - b)) eps = true /\ Rltb (Rabs (b - a)) eps = true.
Proof.
  intros H. split; apply Rltb_true; [rewrite Rabs_minus_sym|]; rewrite Rabs_pos_eq; lra.
Qed.

(** ** Boxes *)
Section Boxes.
  Context (nodes : list (V3 RN)) (b : box).
  Hypothesis (SP : spans nodes b) (P : sides_at_least 0 b) (IN : inside (dbl_max (N:=RN)) b).

  Lemma corner_in p : In p nodes <-> In p (corners b).
  Proof. split; [apply Permutation_in, SP|apply Permutation_in, Permutation_sym, SP]. Qed.
  Lemma corner_range p : In p nodes ->
    (vx p = x_lo b \/ vx p = x_hi b) /\ (vy p = y_lo b \/ vy p = y_hi b) /\ (vz p = z_lo b \/ vz p = z_hi b).
  Proof.
    intros H. apply corner_in in H. unfold corners in H.
    repeat (destruct H as [<-|H]; [cbn; tauto|]). destruct H.
  Qed.
  Lemma corner_low : In (pt (x_lo b) (y_lo b) (z_lo b)) nodes.
  Proof. apply corner_in. now left. Qed.
  Lemma corner_high : In (pt (x_hi b) (y_hi b) (z_hi b)) nodes.
  Proof. apply corner_in. unfold corners. do 6 right. now left. Qed.
  Lemma box_limits :
    lower_limit (N:=RN) vx nodes = x_lo b /\ upper_limit (N:=RN) vx nodes = x_hi b /\
    lower_limit (N:=RN) vy nodes = y_lo b /\ upper_limit (N:=RN) vy nodes = y_hi b /\
    lower_limit (N:=RN) vz nodes = z_lo b /\ upper_limit (N:=RN) vz nodes = z_hi b.
  Proof using All.
    destruct P as (PX & PY & PZ), IN as (I1 & I2 & I3 & I4 & I5 & I6). unfold side_x, side_y, side_z in *.
    change (T RN) with R in *.
    repeat split; (apply lower_is || apply upper_is); try lra;
      try (exists (pt (x_lo b) (y_lo b) (z_lo b)); split; [apply corner_low|reflexivity]);
      try (exists (pt (x_hi b) (y_hi b) (z_hi b)); split; [apply corner_high|reflexivity]);
      intros p Hp; destruct (corner_range p Hp) as ([A|A] & [B|B] & [C|C]); change (T RN) with R in *; lra.
  Qed.

  Lemma count_corners : 
    (forall c lo hi, (c = vx /\ lo = x_lo b /\ hi = x_hi b) \/ (c = vy /\ lo = y_lo b /\ hi = y_hi b) \/ (c = vz /\ lo = z_lo b /\ hi = z_hi b) ->
      (eps <= hi - lo -> on_limit (N:=RN) c lo nodes = 4%nat /\ on_limit (N:=RN) c hi nodes = 4%nat) /\
      (0 <= hi - lo < eps -> on_limit (N:=RN) c lo nodes = 8%nat)).
  Proof.
    intros c lo hi H. split.
    - intros E. destruct (near_far lo hi E) as (F1 & F2). pose proof (near_self lo) as S1. pose proof (near_self hi) as S2.
      rewrite !(on_limit_perm c _ _ _ SP), !on_limit_count. unfold corners, near. fold eps.
      destruct H as [(-> & -> & ->)|[(-> & -> & ->)|(-> & -> & ->)]]; cbn [filter vx vy vz pt]; rewrite ?S1, ?S2, ?F1, ?F2; split; reflexivity.
    - intros E. destruct (near_close lo hi E) as (F1 & F2). pose proof (near_self lo) as S1.
      rewrite !(on_limit_perm c _ _ _ SP), !on_limit_count. unfold corners, near. fold eps.
      destruct H as [(-> & -> & ->)|[(-> & -> & ->)|(-> & -> & ->)]]; cbn [filter vx vy vz pt]; rewrite ?S1, ?F1, ?F2; reflexivity.
  Qed.

  Lemma rectangular_iff :
    is_rectangular (N:=RN) (x_lo b) (x_hi b) (y_lo b) (y_hi b) (z_lo b) (z_hi b) nodes = true <-> sides_at_least eps b.
  Proof using All.
    destruct P as (PX & PY & PZ). unfold sides_at_least, side_x, side_y, side_z in *. unfold is_rectangular.
    destruct (count_corners vx (x_lo b) (x_hi b)) as (X4 & X8); [tauto|].
    destruct (count_corners vy (y_lo b) (y_hi b)) as (Y4 & Y8); [tauto|].
    destruct (count_corners vz (z_lo b) (z_hi b)) as (Z4 & Z8); [tauto|].
    split.
    - intros H. rewrite !andb_true_iff, !Nat.eqb_eq in H. destruct H as (((((A & _) & B) & _) & C) & _).
      repeat split; apply Rnot_lt_le; intros L; [rewrite X8 in A by lra|rewrite Y8 in B by lra|rewrite Z8 in C by lra]; discriminate.
    - intros (A & B & C). destruct (X4 A) as (-> & ->), (Y4 B) as (-> & ->), (Z4 C) as (-> & ->). reflexivity.
  Qed.

  Lemma element_eq X Y :
    element_error (N:=RN) nodes X Y =
      if is_rectangular (N:=RN) (x_lo b) (x_hi b) (y_lo b) (y_hi b) (z_lo b) (z_hi b) nodes
      then computeError_1 (N:=RN) (vsub Y X) (x_lo b) (x_hi b) (y_lo b) (y_hi b) (z_lo b) (z_hi b) else Err.
  Proof using All. destruct box_limits as (A & B & C & D & E & F). unfold element_error. cbv zeta. now rewrite A, B, C, D, E, F. Qed.
End Boxes.

Lemma box_eta b : Box (x_lo b) (x_hi b) (y_lo b) (y_hi b) (z_lo b) (z_hi b) = b.
Proof. now destruct b. Qed.

(** ** Sums *)
Lemma fold_add (l : list R) : forall a : R, fold_left (add (n:=RN)) l a = a + Rsum l.
Proof.
  induction l as [|x l IH]; intros a; cbn [fold_left]; [exact (eq_sym (Rplus_0_r a))|].
  rewrite Rsum_cons. etransitivity; [apply (IH (a + x))|]. exact (Rplus_assoc a x (Rsum l)).
Qed.
Lemma fold_block (r : list (list R)) : forall a : R, fold_left (fun s l => fold_left (add (n:=RN)) l s) r a = a + Rsum (concat r).
Proof.
  induction r as [|l r IH]; intros a; cbn [fold_left concat]; [exact (eq_sym (Rplus_0_r a))|].
  rewrite fold_add, Rsum_app. etransitivity; [apply (IH (a + Rsum l))|]. exact (Rplus_assoc a (Rsum l) _).
Qed.
Lemma reduce_add (l : list R) : l <> [] -> all_reduce (add (n:=RN)) l = Ok (Rsum l).
Proof. destruct l as [|x l]; [easy|]. intros _. cbn [all_reduce]. now rewrite fold_add. Qed.
Lemma rank_sums (e : list (list (list R))) :
  Rsum (map (fun r => fold_left (fun s l => fold_left (add (n:=RN)) l s) r (ofZ (n:=RN) 0)) e) = Rsum (concat (map (@concat R) e)).
Proof.
  induction e as [|r e IH]; [reflexivity|]. cbn [map concat]. rewrite Rsum_app, <- IH, Rsum_cons.
  rewrite fold_block. to_R. ring.
Qed.
