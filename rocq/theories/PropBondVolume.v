(** * C81: the volume of a bond is the part of the neighbour's cell within the horizon *)
From Coq Require Import ZArith Reals Lra Lia List.
From Verif Require Import Base Num ModelForce ModelGeom SpecGeom ModelGrid ModelCylinder ProofData ProofForce ModelBondVolume SpecBondVolume ProofBondVolume.
Import ListNotations.
Local Open Scope R_scope.

Lemma filter_len {A} (b : A -> bool) l : (length (filter b l) <= length l)%nat.
Proof. induction l as [|a l IH]; cbn; [lia|]. destruct (b a); cbn; lia. Qed.
Lemma filter_all {A} (b : A -> bool) l : (forall a, In a l -> b a = true) -> filter b l = l.
Proof. induction l as [|a l IH]; intros H; [reflexivity|]. cbn. rewrite (H a (or_introl eq_refl)). f_equal. apply IH. intros x K. apply H. now right. Qed.
Lemma filter_none {A} (b : A -> bool) l : (forall a, In a l -> b a = false) -> filter b l = [].
Proof. induction l as [|a l IH]; intros H; [reflexivity|]. cbn. rewrite (H a (or_introl eq_refl)). apply IH. intros x K. apply H. now right. Qed.

(** ** Bricks *)

(** A calculator made for a grid has the cells of the grid. *)
Theorem C81_grid : forall (sx sy sz : spec1 RN) h, (0 < cells sx)%nat -> (0 < cells sy)%nat -> (0 < cells sz)%nat ->
  let c := make_box sx sy sz h in
  bc_horizon c = h /\ bc_dx c * INR (cells sx) = x_length sx /\ bc_dy c * INR (cells sy) = x_length sy /\ bc_dz c * INR (cells sz) = x_length sz.
Proof.
  intros sx sy sz h Hx Hy Hz c. apply lt_0_INR in Hx, Hy, Hz. unfold c, make_box, cell_size. cbn [bc_horizon bc_dx bc_dy bc_dz]. to_R. rewrite <- !INR_IZR_INZ.
  split; [reflexivity|]. repeat split; field; lra.
Qed.
Print Assumptions C81_grid.

(** The volume of a bond: a cell is cut into 16 x 16 x 16 equal parts; the parts whose middles are
    within the horizon count. *)
Theorem C81_quadrature : forall (c : box_calc RN) (P Q : point), 0 <= bc_horizon c ->
  exists l : list part, NoDup l /\ (forall t, In t l <-> part_ok t /\ distance P (part_middle (bc_dx c) (bc_dy c) (bc_dz c) Q t) < bc_horizon c) /\
    box_volume c P Q = INR (length l) * (bc_dx c * bc_dy c * bc_dz c / (16 * 16 * 16)).
Proof.
  intros c P Q Hh. eexists. split; [|split; [|rewrite box_sum; to_R; f_equal; field]].
  - apply filter_nodup, parts_nodup.
  - intros t. rewrite filter_In, part_in, inside_iff by exact Hh. reflexivity.
Qed.
Print Assumptions C81_quadrature.

Lemma part_middle_in a b c m t : 0 <= a -> 0 <= b -> 0 <= c -> part_ok t -> in_brick a b c m (part_middle a b c m t).
Proof. intros Ha Hb Hc (H1 & H2 & H3). unfold in_brick, part_middle. cbn [vx vy vz]. repeat split; now apply offset_near. Qed.
Lemma part_middle_self a b c m t : 0 <= a -> 0 <= b -> 0 <= c -> in_part a b c m t (part_middle a b c m t).
Proof. intros Ha Hb Hc. unfold in_part, in_brick. repeat split; unfold Rminus; rewrite Rplus_opp_r, Rabs_R0; lra. Qed.

(** It is at least the volume of the parts that lie within the horizon, and at most that of the parts
    that reach within: so it differs from the volume of the part of the cell within the horizon by no more than
    the parts that the sphere cuts. *)
Theorem C81_bracket : forall (c : box_calc RN) (P Q : point) inner outer, 0 <= bc_horizon c -> 0 <= bc_dx c -> 0 <= bc_dy c -> 0 <= bc_dz c ->
  NoDup inner -> (forall t, In t inner -> part_ok t /\ forall q, in_part (bc_dx c) (bc_dy c) (bc_dz c) Q t q -> distance P q < bc_horizon c) ->
  (forall t, part_ok t -> (exists q, in_part (bc_dx c) (bc_dy c) (bc_dz c) Q t q /\ distance P q < bc_horizon c) -> In t outer) ->
  let one := bc_dx c * bc_dy c * bc_dz c / (16 * 16 * 16) in
  INR (length inner) * one <= box_volume c P Q <= INR (length outer) * one.
Proof.
  intros c P Q inner outer Hh Ha Hb Hc ND HI HO one. destruct (C81_quadrature c P Q Hh) as (l & NL & IL & E). rewrite E. fold one.
  assert (0 <= one). { unfold one. apply Rmult_le_pos; [|lra]. apply Rmult_le_pos; [|exact Hc]. now apply Rmult_le_pos. }
  split; apply Rmult_le_compat_r; try assumption; apply le_INR; apply NoDup_incl_length; try assumption.
  - intros t K. destruct (HI t K) as (A & B). apply IL. split; [exact A|]. apply B. now apply part_middle_self.
  - intros t K. apply IL in K. destruct K as (A & B). apply HO; [exact A|]. eexists. split; [|exact B]. now apply part_middle_self.
Qed.
Print Assumptions C81_bracket.

Theorem C81_bounds : forall (c : box_calc RN) (P Q : point), 0 <= bc_dx c -> 0 <= bc_dy c -> 0 <= bc_dz c ->
  0 <= box_volume c P Q <= bc_dx c * bc_dy c * bc_dz c /\ box_cell_volume c = bc_dx c * bc_dy c * bc_dz c.
Proof.
  intros c P Q Ha Hb Hc. split; [|reflexivity]. rewrite box_sum. set (f := filter _ _). assert (length f <= length parts)%nat as L by apply filter_len. apply le_INR in L. rewrite parts_number in L.
  assert (0 <= bc_dx c * bc_dy c * bc_dz c) as D. { apply Rmult_le_pos; [|exact Hc]. now apply Rmult_le_pos. } pose proof (pos_INR (length f)).
  replace (bc_dx c / 16 * (bc_dy c / 16) * (bc_dz c / 16)) with (bc_dx c * bc_dy c * bc_dz c / (16 * 16 * 16)) by (to_R; field). set (v := bc_dx c * bc_dy c * bc_dz c) in *. to_R. split; [nra|]. nra.
Qed.
Print Assumptions C81_bounds.

(** A cell wholly within the horizon counts wholly; one wholly outside counts nothing. *)
Theorem C81_whole : forall (c : box_calc RN) (P Q : point), 0 <= bc_horizon c -> 0 <= bc_dx c -> 0 <= bc_dy c -> 0 <= bc_dz c ->
  (forall q, in_brick (bc_dx c) (bc_dy c) (bc_dz c) Q q -> distance P q < bc_horizon c) -> box_volume c P Q = bc_dx c * bc_dy c * bc_dz c.
Proof.
  intros c P Q Hh Ha Hb Hc HI. rewrite box_sum. rewrite filter_all; [rewrite parts_number; to_R; field|].
  intros t K. apply inside_iff; [exact Hh|]. apply HI. apply part_middle_in; auto. now apply part_in.
Qed.
Print Assumptions C81_whole.
Theorem C81_none : forall (c : box_calc RN) (P Q : point), 0 <= bc_horizon c -> 0 <= bc_dx c -> 0 <= bc_dy c -> 0 <= bc_dz c ->
  (forall q, in_brick (bc_dx c) (bc_dy c) (bc_dz c) Q q -> bc_horizon c <= distance P q) -> box_volume c P Q = 0.
Proof.
  intros c P Q Hh Ha Hb Hc HI. rewrite box_sum, filter_none; [cbn; to_R; lra|].
  intros t K. apply part_in in K. specialize (HI _ (part_middle_in _ _ _ Q t Ha Hb Hc K)). destruct (inside_sphere _ _ _) eqn:E; [|reflexivity]. apply inside_iff in E; [|exact Hh]. lra.
Qed.
Print Assumptions C81_none.

(** *** The diagonal decides whether a cell can be cut *)
Definition sq3 (a b c : R) : R := a * a + b * b + c * c.
Lemma sq3_pos a b c : 0 <= sq3 a b c.
Proof. unfold sq3. pose proof (Rle_0_sqr a). pose proof (Rle_0_sqr b). pose proof (Rle_0_sqr c). unfold Rsqr in *. lra. Qed.
Lemma minkowski a b c x y z : sqrt (sq3 (a + x) (b + y) (c + z)) <= sqrt (sq3 a b c) + sqrt (sq3 x y z).
Proof.
  pose proof (sq3_pos a b c) as A. pose proof (sq3_pos x y z) as B.
  pose proof (sqrt_pos (sq3 a b c)) as PA. pose proof (sqrt_pos (sq3 x y z)) as PB. pose proof (sqrt_sqrt _ A) as EA. pose proof (sqrt_sqrt _ B) as EB.
  set (u := sqrt (sq3 a b c)) in *. set (v := sqrt (sq3 x y z)) in *.
  assert (C : a * x + b * y + c * z <= u * v).
  { destruct (Rle_lt_dec (a * x + b * y + c * z) 0) as [N|N]; [assert (0 <= u * v) by (now apply Rmult_le_pos); lra|].
    apply Rsqr_incr_0_var; [|now apply Rmult_le_pos]. unfold Rsqr. replace (u * v * (u * v)) with ((u * u) * (v * v)) by ring. rewrite EA, EB. unfold sq3.
    pose proof (Rle_0_sqr (a * y - b * x)) as S1. pose proof (Rle_0_sqr (a * z - c * x)) as S2. pose proof (Rle_0_sqr (b * z - c * y)) as S3. unfold Rsqr in *. nra. }
  apply Rsqr_incr_0_var; [|lra]. rewrite Rsqr_sqrt by apply sq3_pos. unfold Rsqr. replace ((u + v) * (u + v)) with (u * u + v * v + 2 * (u * v)) by ring. rewrite EA, EB. unfold sq3. nra.
Qed.
Lemma distance_sq3 p q : distance p q = sqrt (sq3 (vx p - vx q) (vy p - vy q) (vz p - vz q)).
Proof. reflexivity. Qed.
Lemma triangle p q r : distance p r <= distance p q + distance q r.
Proof.
  rewrite !distance_sq3. eapply Rle_trans; [|apply minkowski]. right. f_equal. unfold sq3. to_R. ring.
Qed.
Lemma distance_comm p q : distance p q = distance q p.
Proof. rewrite !distance_sq3. f_equal. unfold sq3. to_R. ring. Qed.
Lemma half_diagonal a b c x y z : Rabs x <= a / 2 -> Rabs y <= b / 2 -> Rabs z <= c / 2 -> sqrt (sq3 x y z) <= sqrt (sq3 a b c) / 2.
Proof.
  intros Hx Hy Hz. assert (S : forall u w, Rabs u <= w / 2 -> u * u <= w * w / 4).
  { intros u w H. pose proof (Rabs_pos u). assert (Rabs u * Rabs u = u * u) as <- by (rewrite <- Rabs_mult; apply Rabs_pos_eq, Rle_0_sqr). nra. }
  apply S in Hx, Hy, Hz. replace (sqrt (sq3 a b c) / 2) with (sqrt (sq3 a b c / 4)).
  - apply sqrt_le_1_alt. unfold sq3. lra.
  - rewrite sqrt_div_alt by lra. replace 4 with (2 * 2) by ring. rewrite sqrt_square by lra. reflexivity.
Qed.
Lemma brick_near a b c m q : in_brick a b c m q -> distance m q <= sqrt (sq3 a b c) / 2.
Proof. intros (A & B & C). rewrite distance_comm, distance_sq3. now apply half_diagonal. Qed.

Theorem C81_diagonal : forall (c : box_calc RN) (P Q : point), 0 <= bc_horizon c -> 0 <= bc_dx c -> 0 <= bc_dy c -> 0 <= bc_dz c ->
  (distance P Q + box_diagonal c / 2 < bc_horizon c -> box_volume c P Q = bc_dx c * bc_dy c * bc_dz c) /\
  (bc_horizon c + box_diagonal c / 2 <= distance P Q -> box_volume c P Q = 0).
Proof.
  intros c P Q Hh Ha Hb Hc. assert (D : box_diagonal c = sqrt (sq3 (bc_dx c) (bc_dy c) (bc_dz c))) by reflexivity. rewrite D. split; intros H.
  - apply C81_whole; auto. intros q K. apply brick_near in K. pose proof (triangle P Q q). lra.
  - apply C81_none; auto. intros q K. apply brick_near in K. pose proof (triangle P q Q) as T1. rewrite (distance_comm q Q) in T1. lra.
Qed.
Print Assumptions C81_diagonal.

(** *** Two points of a grid give each other the same volume *)
Definition mirror (t : part) : part := (15 - fst t, (15 - fst (snd t), 15 - snd (snd t)))%nat.
Lemma mirror_ok t : part_ok t -> part_ok (mirror t) /\ mirror (mirror t) = t.
Proof. destruct t as (i, (j, k)). unfold part_ok, mirror. cbn [fst snd]. intros (A & B & C). split; [lia|]. f_equal; [lia|]. f_equal; lia. Qed.
Lemma mirror_middle a b c (P Q : point) t : part_ok t -> distance P (part_middle a b c Q (mirror t)) = distance Q (part_middle a b c P t).
Proof.
  destruct t as (i, (j, k)). unfold part_ok, mirror. cbn [fst snd]. intros (A & B & C). rewrite !distance_sq3. unfold part_middle. cbn [fst snd vx vy vz].
  rewrite !minus_INR by lia. replace (INR 15) with 15 by (cbn; lra). f_equal. unfold sq3. to_R. field.
Qed.
Lemma nodup_map {A B} (f : A -> B) l : (forall s t, In s l -> In t l -> f s = f t -> s = t) -> NoDup l -> NoDup (map f l).
Proof.
  intros H N. induction N as [|a l Ha N IH]; [constructor|]. cbn. constructor.
  - rewrite in_map_iff. intros (b & E & K). apply Ha. rewrite <- (H b a); cbn; auto.
  - apply IH. intros s t Hs Ht. apply H; now right.
Qed.
Lemma mirror_count (f g : part -> bool) : (forall t, part_ok t -> f (mirror t) = g t) -> (length (filter g parts) <= length (filter f parts))%nat.
Proof.
  intros H. rewrite <- (map_length mirror (filter g parts)). apply NoDup_incl_length.
  - apply nodup_map; [|apply filter_nodup, parts_nodup]. intros s t Hs Ht E. apply filter_In in Hs, Ht. rewrite !part_in in *.
    rewrite <- (proj2 (mirror_ok s (proj1 Hs))), <- (proj2 (mirror_ok t (proj1 Ht))), E. reflexivity.
  - intros s K. apply in_map_iff in K. destruct K as (t & <- & K). apply filter_In in K. rewrite part_in in K. apply filter_In. rewrite part_in. split; [apply mirror_ok, K|]. rewrite H; apply K.
Qed.
Theorem C81_symmetric : forall (c : box_calc RN) (P Q : point), 0 <= bc_horizon c -> box_volume c P Q = box_volume c Q P.
Proof.
  intros c P Q Hh. rewrite !box_sum. apply (f_equal2 Rmult); [|reflexivity]. apply (f_equal INR).
  assert (H : forall P Q t, part_ok t -> inside_sphere (N:=RN) (bc_horizon c) P (part_middle (bc_dx c) (bc_dy c) (bc_dz c) Q (mirror t)) = inside_sphere (N:=RN) (bc_horizon c) Q (part_middle (bc_dx c) (bc_dy c) (bc_dz c) P t)).
  { clear P Q. intros P Q t Ht. pose proof (mirror_middle (bc_dx c) (bc_dy c) (bc_dz c) P Q t Ht) as E.
    pose proof (inside_iff (bc_horizon c) P (part_middle (bc_dx c) (bc_dy c) (bc_dz c) Q (mirror t)) Hh) as I1. pose proof (inside_iff (bc_horizon c) Q (part_middle (bc_dx c) (bc_dy c) (bc_dz c) P t) Hh) as I2.
    rewrite E in I1. destruct (inside_sphere _ P _), (inside_sphere _ Q _); tauto || (destruct I1, I2; intuition congruence). }
  apply Nat.le_antisymm; apply mirror_count; intros t Ht; now apply H.
Qed.
Print Assumptions C81_symmetric.

(** It depends on the relative position only, and grows with the horizon. *)
Theorem C81_moved : forall (c : box_calc RN) (P Q d : point), box_volume c (shifted d P) (shifted d Q) = box_volume c P Q.
Proof.
  intros c P Q d. rewrite !box_sum. apply (f_equal2 Rmult); [|reflexivity]. apply (f_equal INR). apply (f_equal (@length part)). apply filter_ext. intros t. unfold inside_sphere, part_middle, shifted, vadd. cbn [vx vy vz fst snd]. to_R. f_equal. ring.
Qed.
Print Assumptions C81_moved.
Theorem C81_monotone : forall a b c h h' (P Q : point), 0 <= a -> 0 <= b -> 0 <= c -> 0 <= h <= h' -> box_volume (BoxCalc (N:=RN) h a b c) P Q <= box_volume (BoxCalc (N:=RN) h' a b c) P Q.
Proof.
  intros a b c h h' P Q Ha Hb Hc (H0 & H1). rewrite !box_sum. cbn [bc_horizon bc_dx bc_dy bc_dz]. apply Rmult_le_compat_r; [apply Rmult_le_pos; [apply Rmult_le_pos|]; lra|].
  apply le_INR, NoDup_incl_length; [apply filter_nodup, parts_nodup|]. intros t. rewrite !filter_In, !inside_iff by lra. intros (A & B). split; [exact A|lra].
Qed.
Print Assumptions C81_monotone.

(** ** All bonds *)
Lemma row_spec {N : Num} (calc : V3 N -> V3 N -> N) x p l : forall rest,
  (forall q, In q l -> (p < length x /\ q < length x)%nat) ->
  exists vs, bond_row calc x p (length l) (l ++ rest) = Ok (vs, rest) /\ Forall2 (fun q v => exists P Q, nth_error x p = Some P /\ nth_error x q = Some Q /\ v = calc P Q) l vs.
Proof.
  induction l as [|q l IH]; intros rest H; [exists []; split; [reflexivity|constructor]|].
  destruct (H q (or_introl eq_refl)) as (Hp & Hq). destruct (nth_error x p) as [P|] eqn:EP; [|apply nth_error_None in EP; lia]. destruct (nth_error x q) as [Q|] eqn:EQ; [|apply nth_error_None in EQ; lia].
  destruct (IH rest (fun q' K => H q' (or_intror K))) as (vs & E & F). exists (calc P Q :: vs). split; [|constructor; [eauto 6|exact F]].
  cbn [length app bond_row]. unfold at_ub. rewrite EP, EQ. cbn [bind]. rewrite E. reflexivity.
Qed.
Theorem C81_bonds : forall (N : Num) (calc : V3 N -> V3 N -> N) (x : list (V3 N)) (nbrs : list (list nat)) first,
  (forall p q, In (p, q) (bonds_from first nbrs) -> (p < length x /\ q < length x)%nat) ->
  exists vs, bond_volume_rows calc x (length nbrs) first (flat nbrs) = Ok vs /\
    Forall2 (fun b v => exists P Q, nth_error x (fst b) = Some P /\ nth_error x (snd b) = Some Q /\ v = calc P Q) (bonds_from first nbrs) vs.
Proof.
  intros N calc x nbrs. induction nbrs as [|l nbrs IH]; intros first H; [exists []; split; [reflexivity|constructor]|].
  assert (E : bonds_from first (l :: nbrs) = map (fun q => (first, q)) l ++ bonds_from (S first) nbrs) by reflexivity. rewrite E in *.
  destruct (row_spec calc x first l (flat nbrs)) as (vs & R1 & F1).
  { intros q K. apply H. apply in_app_iff. left. apply in_map_iff. eauto. }
  destruct (IH (S first)) as (ws & R2 & F2). { intros p q K. apply H. apply in_app_iff. now right. }
  exists (vs ++ ws). split.
  - change (flat (l :: nbrs)) with (length l :: l ++ flat nbrs). cbn [length bond_volume_rows]. rewrite R1. cbn [bind]. rewrite R2. reflexivity.
  - apply Forall2_app; [|exact F2]. clear -F1. induction F1; constructor; auto.
Qed.
Print Assumptions C81_bonds.

(** ** Rings *)
Lemma sum_zero {A} (f : A -> R) l : (forall a, In a l -> f a = 0) -> sum (map f l) = 0.
Proof. intros H. rewrite (sum_ext f (fun _ => 0) l H), sum_const. apply Rmult_0_r. Qed.
Lemma sum_nonneg {A} (f : A -> R) l : (forall a, In a l -> 0 <= f a) -> 0 <= sum (map f l).
Proof. intros H. rewrite <- (sum_zero (fun _ : A => 0) l (fun _ _ => eq_refl)). now apply sum_le. Qed.
Lemma abs_between x a : Rabs x <= a -> - a <= x <= a.
Proof. unfold Rabs. destruct (Rcase_abs x); lra. Qed.
Lemma chord_short d : 1 - cos d <= d * d / 2.
Proof.
  assert (P : forall x, 0 < x -> sin x * sin x <= x * x).
  { intros x Hx. pose proof (sin_lt_x x Hx). pose proof (SIN_bound x). destruct (Rlt_or_le x 1); [|nra]. assert (0 <= sin x); [|nra]. apply sin_ge_0; [lra|]. pose proof PI2_1. lra. }
  assert (Q : forall x, sin x * sin x <= x * x).
  { intros x. destruct (Rtotal_order x 0) as [L|[L|L]]; [|subst; rewrite sin_0; lra|now apply P]. specialize (P (- x) ltac:(lra)). rewrite sin_neg in P. lra. }
  pose proof (cos_2a_sin (d / 2)) as E. replace (2 * (d / 2)) with d in E by field. rewrite E. specialize (Q (d / 2)). lra.
Qed.
Lemma sector_near w a h axis m q outer : 0 <= w -> in_sector w a h axis m q -> w / 2 <= from_axis axis m -> from_axis axis m + w / 2 <= outer ->
  distance m q <= sqrt (sq3 w (outer * a) h) / 2.
Proof.
  intros Hw (rho & phi & r & th & H0 & E1 & E2 & Hr & Ht & Hz & F1 & F2) L1 L2.
  assert (D : from_axis axis m = rho).
  { unfold from_axis. rewrite E1, E2. replace (rho * cos phi * (rho * cos phi) + rho * sin phi * (rho * sin phi)) with (rho * rho * (Rsqr (sin phi) + Rsqr (cos phi))) by (unfold Rsqr; ring). rewrite sin2_cos2, Rmult_1_r. now apply sqrt_square. }
  rewrite D in *. apply abs_between in Hr. rewrite distance_sq3.
  replace (sqrt (sq3 w (outer * a) h) / 2) with (sqrt (sq3 w (outer * a) h / 4)).
  2:{ rewrite sqrt_div_alt by lra. replace 4 with (2 * 2) by ring. rewrite sqrt_square by lra. reflexivity. }
  apply sqrt_le_1_alt. unfold sq3.
  assert (X : (vx m - vx q) * (vx m - vx q) + (vy m - vy q) * (vy m - vy q) = (r - rho) * (r - rho) + 2 * (r * rho) * (1 - cos (th - phi))).
  { assert (A : vx m - vx q = rho * cos phi - r * cos th) by (rewrite F1; lra). assert (B : vy m - vy q = rho * sin phi - r * sin th) by (rewrite F2; lra). rewrite A, B, cos_minus.
    replace ((rho * cos phi - r * cos th) * (rho * cos phi - r * cos th) + (rho * sin phi - r * sin th) * (rho * sin phi - r * sin th))
      with (rho * rho * (Rsqr (sin phi) + Rsqr (cos phi)) + r * r * (Rsqr (sin th) + Rsqr (cos th)) - 2 * (r * rho) * (cos th * cos phi + sin th * sin phi)) by (unfold Rsqr; ring).
    rewrite !sin2_cos2. ring. }
  to_R. rewrite X. pose proof (chord_short (th - phi)) as CS.
  assert (SQ : forall u v, Rabs u <= v / 2 -> u * u <= v * v / 4).
  { intros u v H. pose proof (Rabs_pos u). assert (Rabs u * Rabs u = u * u) as <- by (rewrite <- Rabs_mult; apply Rabs_pos_eq, Rle_0_sqr). nra. }
  assert (C1 : (r - rho) * (r - rho) <= w * w / 4) by nra. assert (C2 : (th - phi) * (th - phi) <= a * a / 4) by now apply SQ.
  assert (C3 : (vz m - vz q) * (vz m - vz q) <= h * h / 4). { replace ((vz m - vz q) * (vz m - vz q)) with ((vz q - vz m) * (vz q - vz m)) by ring. now apply SQ. }
  assert (RR : 0 <= r * rho <= outer * outer) by (split; nra). to_R.
  assert (C4 : 2 * (r * rho) * (1 - cos (th - phi)) <= outer * outer * (a * a / 4)).
  { apply Rle_trans with (r * rho * ((th - phi) * (th - phi))); [nra|]. pose proof (Rle_0_sqr (th - phi)) as S0. unfold Rsqr in S0. apply Rmult_le_compat; lra. }
  change (T RN) with R in *. lra.
Qed.

(** A calculator made for a cylinder has the cells of the cylinder. *)
Theorem C81_ring_grid : forall (r : ring RN) (axis : spec1 RN) h, (0 < r_rings r)%nat -> (0 < r_rays r)%nat -> (0 < cells axis)%nat -> r_inner r <= r_outer r ->
  let c := make_ring_calc r axis h in
  rc_horizon c = h /\ rc_centre c = r_centre r /\ rc_outer c = r_outer r /\
  rc_dr c * INR (r_rings r) = r_outer r - r_inner r /\ rc_dt c * INR (r_rays r) = 2 * PI /\ rc_dz c * INR (cells axis) = x_length axis.
Proof.
  intros r axis h Hr Ht Hz HO c. apply lt_0_INR in Hr, Ht, Hz. unfold c, make_ring_calc, cell_size, ray_spec, ring_spec, magnitude. cbn [rc_horizon rc_centre rc_outer rc_dr rc_dt rc_dz cells x_length]. to_R. rewrite <- !INR_IZR_INZ.
  unfold Rltb. destruct (Rlt_dec _ 0) as [L|L]; [exfalso; change (T RN) with R in *; lra|]. do 3 (split; [reflexivity|]). repeat split; field; lra.
Qed.
Print Assumptions C81_ring_grid.

(** The volume of a cell of a ring is that of its sector, exactly. *)
Theorem C81_ring_cell : forall (atan2f : R -> R -> R) (c : ring_calc RN) (Q : point), let rho := from_axis (rc_centre c) Q in
  ring_cell_volume (N:=RN) atan2f c Q = ((rho + rc_dr c / 2) * (rho + rc_dr c / 2) - (rho - rc_dr c / 2) * (rho - rc_dr c / 2)) / 2 * rc_dt c * rc_dz c.
Proof.
  intros atan2f c Q rho. rewrite ring_cell_sum. fold rho.
  rewrite (sum_ext _ (fun t : part => offset rho (rc_dr c) (fst t) * (rc_dr c / 16 * (rc_dt c / 16) * (rc_dz c / 16)))) by (intros; to_R; ring).
  rewrite sum_scale, offsets_sum. to_R. field.
Qed.
Print Assumptions C81_ring_cell.

Lemma offset_pos rho w i : 0 <= w -> w / 2 <= rho -> (i < 16)%nat -> 0 <= offset rho w i.
Proof. intros Hw Hr Hi. pose proof (offset_near rho w i Hw Hi) as H. apply abs_between in H. lra. Qed.
Lemma part_pos (c : ring_calc RN) rho t : 0 <= rc_dr c -> 0 <= rc_dt c -> 0 <= rc_dz c -> rc_dr c / 2 <= rho -> part_ok t -> 0 <= offset rho (rc_dr c) (fst t) * (rc_dr c / 16) * (rc_dt c / 16) * (rc_dz c / 16).
Proof. intros A B C D (H & _). pose proof (offset_pos _ _ _ A D H). to_R. repeat apply Rmult_le_pos; try lra; assumption. Qed.

(** The volume of a bond is never more than that of the cell. *)
Theorem C81_ring_bounds : forall (atan2f : R -> R -> R) (c : ring_calc RN) (P Q : point), 0 <= rc_dr c -> 0 <= rc_dt c -> 0 <= rc_dz c -> rc_dr c / 2 <= from_axis (rc_centre c) Q ->
  0 <= ring_volume (N:=RN) cos sin atan2f c P Q <= ring_cell_volume (N:=RN) atan2f c Q.
Proof.
  intros atan2f c P Q A B C D. rewrite ring_sum, ring_cell_sum. split.
  - apply sum_nonneg. intros t K. apply part_in in K. destruct (inside_sphere _ _ _); [|apply Rle_refl]. now apply part_pos.
  - apply sum_le. intros t K. apply part_in in K. destruct (inside_sphere _ _ _); [apply Rle_refl|]. now apply part_pos.
Qed.
Print Assumptions C81_ring_bounds.

(** Around the z axis a cell wholly within the horizon counts wholly, one wholly outside nothing. *)
Lemma ring_point_in (atan2f : R -> R -> R) (c : ring_calc RN) (Q : point) t : an_angle atan2f -> vx (rc_centre c) = 0 -> vy (rc_centre c) = 0 -> 0 <= rc_dr c -> 0 <= rc_dt c -> 0 <= rc_dz c -> part_ok t ->
  in_sector (rc_dr c) (rc_dt c) (rc_dz c) (rc_centre c) Q (ring_point (from_axis (rc_centre c) Q) (atan2f (vy Q - vy (rc_centre c)) (vx Q - vx (rc_centre c))) (vz Q) (rc_dr c) (rc_dt c) (rc_dz c) t).
Proof.
  intros HA C0 C1 A B C (H1 & H2 & H3). destruct (HA (vx Q - vx (rc_centre c)) (vy Q - vy (rc_centre c))) as (E1 & E2).
  exists (from_axis (rc_centre c) Q), (atan2f (vy Q - vy (rc_centre c)) (vx Q - vx (rc_centre c))). do 2 eexists. split; [apply sqrt_pos|]. split; [exact E1|]. split; [exact E2|].
  split; [apply (offset_near _ _ (fst t)); assumption|]. split; [apply (offset_near _ _ (fst (snd t))); assumption|]. split; [apply (offset_near _ _ (snd (snd t))); assumption|].
  unfold ring_point. cbn [vx vy]. rewrite C0, C1. split; symmetry; apply Rplus_0_l.
Qed.
Theorem C81_ring_whole : forall (atan2f : R -> R -> R) (c : ring_calc RN) (P Q : point), an_angle atan2f -> vx (rc_centre c) = 0 -> vy (rc_centre c) = 0 ->
  0 <= rc_horizon c -> 0 <= rc_dr c -> 0 <= rc_dt c -> 0 <= rc_dz c ->
  ((forall q, in_sector (rc_dr c) (rc_dt c) (rc_dz c) (rc_centre c) Q q -> distance P q < rc_horizon c) -> ring_volume (N:=RN) cos sin atan2f c P Q = ring_cell_volume (N:=RN) atan2f c Q) /\
  ((forall q, in_sector (rc_dr c) (rc_dt c) (rc_dz c) (rc_centre c) Q q -> rc_horizon c <= distance P q) -> ring_volume (N:=RN) cos sin atan2f c P Q = 0).
Proof.
  intros atan2f c P Q HA C0 C1 Hh A B C. rewrite ring_sum, ring_cell_sum. split; intros H.
  - apply sum_ext. intros t K. apply part_in in K. rewrite (proj2 (inside_iff _ _ _ Hh)); [reflexivity|]. now apply H, ring_point_in.
  - apply sum_zero. intros t K. apply part_in in K. specialize (H _ (ring_point_in atan2f c Q t HA C0 C1 A B C K)).
    destruct (inside_sphere _ _ _) eqn:E; [|reflexivity]. apply inside_iff in E; [|exact Hh]. lra.
Qed.
Print Assumptions C81_ring_whole.
Theorem C81_ring_diagonal : forall (atan2f : R -> R -> R) (c : ring_calc RN) (P Q : point), an_angle atan2f -> vx (rc_centre c) = 0 -> vy (rc_centre c) = 0 ->
  0 <= rc_horizon c -> 0 <= rc_dr c -> 0 <= rc_dt c -> 0 <= rc_dz c -> rc_dr c / 2 <= from_axis (rc_centre c) Q -> from_axis (rc_centre c) Q + rc_dr c / 2 <= rc_outer c ->
  (distance P Q + ring_diagonal c / 2 < rc_horizon c -> ring_volume (N:=RN) cos sin atan2f c P Q = ring_cell_volume (N:=RN) atan2f c Q) /\
  (rc_horizon c + ring_diagonal c / 2 <= distance P Q -> ring_volume (N:=RN) cos sin atan2f c P Q = 0).
Proof.
  intros atan2f c P Q HA C0 C1 Hh A B C L1 L2. assert (D : ring_diagonal c = sqrt (sq3 (rc_dr c) (rc_outer c * rc_dt c) (rc_dz c))) by reflexivity. rewrite D.
  destruct (C81_ring_whole atan2f c P Q HA C0 C1 Hh A B C) as (W1 & W2). split; intros H.
  - apply W1. intros q K. pose proof (sector_near _ _ _ _ _ _ _ A K L1 L2) as K'. pose proof (triangle P Q q). lra.
  - apply W2. intros q K. pose proof (sector_near _ _ _ _ _ _ _ A K L1 L2) as K'. pose proof (triangle P q Q) as T1. rewrite (distance_comm q Q) in T1. lra.
Qed.
Print Assumptions C81_ring_diagonal.

(** Around another axis the sector is laid around the z axis instead: the result is that of the neighbour,
    but not the point, moved by the centre. *)
Theorem C81_ring_centre : forall (atan2f : R -> R -> R) h dr dt dz outer x y z (P Q : point),
  ring_volume (N:=RN) cos sin atan2f (RingCalc (N:=RN) h dr dt dz outer (v3 (N:=RN) x y z)) P Q
  = ring_volume (N:=RN) cos sin atan2f (RingCalc (N:=RN) h dr dt dz outer (v3 (N:=RN) 0 0 z)) P (v3 (N:=RN) (vx Q - x) (vy Q - y) (vz Q)).
Proof.
  intros. rewrite !ring_sum. cbn [rc_centre rc_horizon rc_dr rc_dt rc_dz]. unfold from_axis. cbn [vx vy vz]. rewrite !Rminus_0_r. reflexivity.
Qed.
Print Assumptions C81_ring_centre.

(** So, wherever the centre is far from the z axis, a cell wholly within the horizon counts nothing. *)
Theorem C81_ring_refuted : forall (atan2f : R -> R -> R) (c : ring_calc RN) (P : point), 0 <= rc_horizon c ->
  0 < rc_dr c -> 0 < rc_dt c -> 0 < rc_dz c -> rc_dr c / 2 <= from_axis (rc_centre c) P -> from_axis (rc_centre c) P + rc_dr c / 2 <= rc_outer c ->
  ring_diagonal c / 2 < rc_horizon c -> rc_horizon c + rc_outer c <= from_axis (v3 (N:=RN) 0 0 0) P ->
  (forall q, in_sector (rc_dr c) (rc_dt c) (rc_dz c) (rc_centre c) P q -> distance P q < rc_horizon c) /\
  0 < ring_cell_volume (N:=RN) atan2f c P /\ ring_volume (N:=RN) cos sin atan2f c P P = 0.
Proof.
  intros atan2f c P Hh A B C L1 L2 HD HF. assert (D : ring_diagonal c = sqrt (sq3 (rc_dr c) (rc_outer c * rc_dt c) (rc_dz c))) by reflexivity. split; [|split].
  - intros q K. pose proof (sector_near _ _ _ _ _ _ _ (Rlt_le _ _ A) K L1 L2) as K'. rewrite D in HD. lra.
  - rewrite C81_ring_cell. set (rho := from_axis (rc_centre c) P) in *. replace ((rho + rc_dr c / 2) * (rho + rc_dr c / 2) - (rho - rc_dr c / 2) * (rho - rc_dr c / 2)) with (2 * (rho * rc_dr c)) by (to_R; field).
    to_R. assert (0 < rho * rc_dr c) by (apply Rmult_lt_0_compat; [change (T RN) with R in *; lra|exact A]). apply Rmult_lt_0_compat; [|exact C]. apply Rmult_lt_0_compat; [lra|exact B].
  - rewrite ring_sum. apply sum_zero. intros t K. apply part_in in K. destruct (inside_sphere _ _ _) eqn:E; [|reflexivity]. exfalso. apply inside_iff in E; [|exact Hh].
    set (rho := from_axis (rc_centre c) P) in *. set (th := atan2f _ _) in E.
    assert (R0 : 0 <= offset rho (rc_dr c) (fst t) <= rc_outer c). { pose proof (offset_near rho (rc_dr c) (fst t) (Rlt_le _ _ A) (proj1 K)) as N. apply abs_between in N. lra. }
    set (r := offset rho (rc_dr c) (fst t)) in *. set (ph := offset th (rc_dt c) (fst (snd t))) in *.
    assert (G : from_axis (v3 (N:=RN) 0 0 0) P <= distance P (ring_point rho th (vz P) (rc_dr c) (rc_dt c) (rc_dz c) t) + r).
    { unfold from_axis. cbn [vx vy]. pose proof (minkowski (vx P - r * cos ph) (vy P - r * sin ph) 0 (r * cos ph) (r * sin ph) 0) as M.
      replace (sqrt (sq3 (r * cos ph) (r * sin ph) 0)) with r in M.
      2:{ unfold sq3. replace (r * cos ph * (r * cos ph) + r * sin ph * (r * sin ph) + 0 * 0) with (r * r * (Rsqr (sin ph) + Rsqr (cos ph))) by (unfold Rsqr; ring). rewrite sin2_cos2, Rmult_1_r. symmetry. apply sqrt_square. lra. }
      replace (sq3 (vx P - r * cos ph + r * cos ph) (vy P - r * sin ph + r * sin ph) (0 + 0)) with ((vx P - 0) * (vx P - 0) + (vy P - 0) * (vy P - 0)) in M by (unfold sq3; to_R; ring).
      eapply Rle_trans; [exact M|]. apply Rplus_le_compat_r. rewrite distance_sq3. apply sqrt_le_1_alt. unfold ring_point. cbn [vx vy vz]. fold r ph. unfold sq3.
      pose proof (Rle_0_sqr (vz P - offset (vz P) (rc_dz c) (snd (snd t)))) as S0. unfold Rsqr in S0. to_R. lra. }
    change (T RN) with R in *. lra.
Qed.
Print Assumptions C81_ring_refuted.

(** ** The cases exist: an angle function, a cell that is cut, and a ring away from the z axis *)
Definition angle (y x : R) : R := let a := acos (x / sqrt (x * x + y * y)) in if Rle_dec 0 y then a else - a.
Lemma angle_ok : an_angle angle.
Proof.
  intros x y. assert (S : 0 <= x * x + y * y) by nra. pose proof (sqrt_sqrt _ S) as E. pose proof (sqrt_pos (x * x + y * y)) as P. unfold angle. set (r := sqrt (x * x + y * y)) in *.
  destruct (Req_dec r 0) as [Z|Z]. { rewrite Z in *. rewrite !Rmult_0_l in *. split; nra. }
  assert (B : -1 <= x / r <= 1). { assert (0 < r) by lra. assert (- r <= x <= r) by (split; nra). split; [apply Rmult_le_reg_r with r; [lra|]|apply Rmult_le_reg_r with r; [lra|]]; unfold Rdiv; rewrite Rmult_assoc, Rinv_l by lra; lra. }
  assert (SQ : r * sqrt (1 - Rsqr (x / r)) = Rabs y).
  { rewrite <- (sqrt_square r P) at 1. rewrite <- sqrt_mult_alt by nra. replace (r * r * (1 - Rsqr (x / r))) with (Rsqr y) by (unfold Rsqr, Rdiv; field_simplify; [nra|lra]). apply sqrt_Rsqr_abs. }
  destruct (Rle_dec 0 y) as [L|L].
  - rewrite cos_acos, sin_acos by exact B. split; [field; lra|]. rewrite SQ. symmetry. now apply Rabs_pos_eq.
  - rewrite cos_neg, sin_neg, cos_acos, sin_acos by exact B. split; [field; lra|]. rewrite Ropp_mult_distr_r_reverse, SQ, Rabs_left by lra. ring.
Qed.

Example C81_met :
  an_angle angle /\
  (** a cell wholly within, one wholly outside and one that is cut: the horizon ends in its middle *)
  (let c := BoxCalc (N:=RN) 3 1 1 1 in
   box_volume c (v3 (N:=RN) 0 0 0) (v3 (N:=RN) 1 0 0) = 1 /\ box_volume c (v3 (N:=RN) 0 0 0) (v3 (N:=RN) 5 0 0) = 0 /\ 0 < box_volume c (v3 (N:=RN) 0 0 0) (v3 (N:=RN) 3 0 0) < 1) /\
  (** a ring around (10, 0) *)
  (let c := RingCalc (N:=RN) 1 (1 / 2) (1 / 4) (1 / 2) 2 (v3 (N:=RN) 10 0 0) in
   0 < ring_cell_volume (N:=RN) angle c (v3 (N:=RN) 11 0 0) /\ ring_volume (N:=RN) cos sin angle c (v3 (N:=RN) 11 0 0) (v3 (N:=RN) 11 0 0) = 0) /\
  (** the same ring around the z axis *)
  (let c := RingCalc (N:=RN) 1 (1 / 2) (1 / 4) (1 / 2) 2 (v3 (N:=RN) 0 0 0) in
   ring_volume (N:=RN) cos sin angle c (v3 (N:=RN) 1 0 0) (v3 (N:=RN) 1 0 0) = ring_cell_volume (N:=RN) angle c (v3 (N:=RN) 1 0 0)) /\
  bond_volume_rows (N:=RN) (fun P Q => vx P * 10 + vx Q) [v3 (N:=RN) 0 0 0; v3 (N:=RN) 1 0 0; v3 (N:=RN) 2 0 0] 2 0 (flat [[1%nat; 2%nat]; [0%nat]]) = Ok [0 * 10 + 1; 0 * 10 + 2; 1 * 10 + 0].
Proof.
  split; [exact angle_ok|].
  assert (D : forall x, 0 <= x -> distance (v3 (N:=RN) 0 0 0) (v3 (N:=RN) x 0 0) = x).
  { intros x Hx. rewrite distance_sq3. unfold sq3. cbn [vx vy vz]. replace ((0 - x) * (0 - x) + (0 - 0) * (0 - 0) + (0 - 0) * (0 - 0)) with (x * x) by ring. now apply sqrt_square. }
  assert (LT2 : sqrt (sq3 1 1 1) < 2). { rewrite <- (sqrt_square 2) by lra. apply sqrt_lt_1; unfold sq3; lra. }
  split; [|split; [|split; [|reflexivity]]].
  - intros c. split; [|split].
    + destruct (C81_diagonal c (v3 (N:=RN) 0 0 0) (v3 (N:=RN) 1 0 0) ltac:(cbn; lra) ltac:(cbn; lra) ltac:(cbn; lra) ltac:(cbn; lra)) as (H & _). rewrite H; [cbn; lra|]. rewrite D by lra. change (1 + sqrt (sq3 1 1 1) / 2 < 3). lra.
    + destruct (C81_diagonal c (v3 (N:=RN) 0 0 0) (v3 (N:=RN) 5 0 0) ltac:(cbn; lra) ltac:(cbn; lra) ltac:(cbn; lra) ltac:(cbn; lra)) as (_ & H). apply H. rewrite D by lra. change (3 + sqrt (sq3 1 1 1) / 2 <= 5). lra.
    + destruct (C81_quadrature c (v3 (N:=RN) 0 0 0) (v3 (N:=RN) 3 0 0) ltac:(cbn; lra)) as (l & ND & IL & E). rewrite E. cbn [bc_dx bc_dy bc_dz c] in *.
      assert (I1 : In (0, (7, 7))%nat l). { apply IL. split; [unfold part_ok; cbn; lia|]. rewrite distance_sq3. unfold part_middle, sq3. cbn. apply Rlt_le_trans with (sqrt (3 * 3)); [apply sqrt_lt_1; lra|right; apply sqrt_square; lra]. }
      assert (I2 : ~ In (15, (7, 7))%nat l). { rewrite IL. intros (_ & H). revert H. apply Rle_not_lt. rewrite distance_sq3. unfold part_middle, sq3. cbn. apply Rle_trans with (sqrt (3 * 3)); [right; symmetry; apply sqrt_square; lra|apply sqrt_le_1_alt; lra]. }
      assert (L1 : (1 <= length l)%nat) by (destruct l; [contradiction|cbn; lia]).
      assert (L2 : (S (length l) <= length parts)%nat).
      { change (S (length l)) with (length ((15, (7, 7))%nat :: l)). apply NoDup_incl_length; [now constructor|]. intros t [<-|K]; apply part_in; [unfold part_ok; cbn; lia|now apply IL]. }
      apply le_INR in L1, L2. rewrite S_INR, parts_number in L2. change (INR 1) with 1 in L1. change (0 < INR (length l) * (1 * 1 * 1 / (16 * 16 * 16)) < 1). lra.
  - intros c. assert (LS : sqrt (sq3 (1 / 2) (2 * (1 / 4)) (1 / 2)) < 2) by (apply Rlt_le_trans with (sqrt (2 * 2)); [apply sqrt_lt_1; unfold sq3; lra|right; apply sqrt_square; lra]).
    assert (F : from_axis (rc_centre c) (v3 (N:=RN) 11 0 0) = 1). { unfold from_axis. cbn. replace ((11 - 10) * (11 - 10) + (0 - 0) * (0 - 0)) with (1 * 1) by ring. apply sqrt_square. lra. }
    assert (F0 : from_axis (v3 (N:=RN) 0 0 0) (v3 (N:=RN) 11 0 0) = 11). { unfold from_axis. cbn. replace ((11 - 0) * (11 - 0) + (0 - 0) * (0 - 0)) with (11 * 11) by ring. apply sqrt_square. lra. }
    apply (C81_ring_refuted angle c (v3 (N:=RN) 11 0 0)); rewrite ?F, ?F0; cbn [rc_horizon rc_dr rc_dt rc_dz rc_outer c]; try lra. change (sqrt (sq3 (1 / 2) (2 * (1 / 4)) (1 / 2)) / 2 < 1). lra.
  - intros c. assert (LS : sqrt (sq3 (1 / 2) (2 * (1 / 4)) (1 / 2)) < 2) by (apply Rlt_le_trans with (sqrt (2 * 2)); [apply sqrt_lt_1; unfold sq3; lra|right; apply sqrt_square; lra]).
    assert (F : from_axis (rc_centre c) (v3 (N:=RN) 1 0 0) = 1). { unfold from_axis. cbn. replace ((1 - 0) * (1 - 0) + (0 - 0) * (0 - 0)) with (1 * 1) by ring. apply sqrt_square. lra. }
    apply (C81_ring_diagonal angle c (v3 (N:=RN) 1 0 0) (v3 (N:=RN) 1 0 0) angle_ok); rewrite ?F; try reflexivity; cbn [rc_horizon rc_dr rc_dt rc_dz rc_outer c]; try lra.
    replace (distance _ _) with 0. { change (0 + sqrt (sq3 (1 / 2) (2 * (1 / 4)) (1 / 2)) / 2 < 1). lra. }
    rewrite distance_sq3. unfold sq3. cbn. replace ((1 - 1) * (1 - 1) + (0 - 0) * (0 - 0) + (0 - 0) * (0 - 0)) with (0 * 0) by ring. symmetry. apply sqrt_square. lra.
Qed.
Print Assumptions C81_met.
