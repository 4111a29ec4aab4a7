(** * Bond volumes: sums over the parts of a cell *)
From Coq Require Import ZArith Reals Lra Lia List Permutation.
From Verif Require Import Base Num ModelForce ModelGeom SpecGeom ModelGrid ModelCylinder ProofData ModelBondVolume SpecBondVolume.
Import ListNotations.
Local Open Scope R_scope.

Definition sum (l : list R) : R := fold_right Rplus 0 l.
Definition parts : list part := list_prod (seq 0 16) (list_prod (seq 0 16) (seq 0 16)).

Lemma sum_app l l' : sum (l ++ l') = sum l + sum l'.
Proof. unfold sum. induction l as [|a l IH]; cbn [fold_right app]; [lra|]. rewrite IH. lra. Qed.
Lemma fold_sum {A} (g : R -> A -> R) (f : A -> R) l : (forall v a, g v a = v + f a) -> forall v, fold_left g l v = v + sum (map f l).
Proof. intros H. induction l as [|a l IH]; intros v; cbn; [lra|]. rewrite IH, H. unfold sum. cbn. lra. Qed.
Lemma sum_prod {A B} (f : A -> B -> R) l l' : sum (map (fun a => sum (map (f a) l')) l) = sum (map (fun t => f (fst t) (snd t)) (list_prod l l')).
Proof. induction l as [|a l IH]; [reflexivity|]. cbn [list_prod map]. rewrite map_app, sum_app, map_map. cbn [fst snd]. rewrite <- IH. reflexivity. Qed.
Lemma sum_ext {A} (f g : A -> R) l : (forall a, In a l -> f a = g a) -> sum (map f l) = sum (map g l).
Proof. intros H. f_equal. now apply map_ext_in. Qed.
Lemma sum_le {A} (f g : A -> R) l : (forall a, In a l -> f a <= g a) -> sum (map f l) <= sum (map g l).
Proof. induction l as [|a l IH]; intros H; unfold sum; cbn; [lra|]. specialize (IH (fun a h => H a (or_intror h))). specialize (H a (or_introl eq_refl)). unfold sum in IH. lra. Qed.
Lemma sum_const {A} (k : R) (l : list A) : sum (map (fun _ => k) l) = INR (length l) * k.
Proof. induction l as [|a l IH]; [cbn; lra|]. cbn [map length]. rewrite S_INR. unfold sum in *. cbn. rewrite IH. lra. Qed.
Lemma sum_if {A} (b : A -> bool) (k : R) l : sum (map (fun a => if b a then k else 0) l) = INR (length (filter b l)) * k.
Proof. induction l as [|a l IH]; [cbn; lra|]. cbn [map filter]. unfold sum in *. cbn [fold_right]. rewrite IH. destruct (b a); cbn [length]; [rewrite S_INR|]; lra. Qed.
Lemma sum_scale {A} (k : R) (f : A -> R) l : sum (map (fun a => f a * k) l) = sum (map f l) * k.
Proof. induction l as [|a l IH]; unfold sum in *; cbn; [lra|]. rewrite IH. lra. Qed.

(** ** The middles of the parts *)
Definition offset (middle width : R) (i : nat) : R := middle + (INR i - 15 / 2) * (width / 16).
Lemma go_seq (d : R) n : forall k p, (fix go (n : nat) (p : R) : list R := match n with O => [] | S n' => p :: go n' (p + d) end) n (p + INR k * d) = map (fun i => p + INR i * d) (seq k n).
Proof. induction n as [|n IH]; intros k p; cbn [seq map]; [reflexivity|]. f_equal. rewrite <- IH. f_equal. rewrite S_INR. lra. Qed.
Lemma sub_size middle width : cell_size (N:=RN) (sub_spec (N:=RN) middle width) = width / 16.
Proof. reflexivity. Qed.
Lemma sub_middles middle width : discretization (N:=RN) (sub_spec (N:=RN) middle width) = map (offset middle width) (seq 0 16).
Proof.
  unfold discretization. rewrite sub_size. cbn [sub_spec cells x_start]. unfold sub_cells. to_R.
  pose proof (go_seq (width / 16) 16 0 (middle - width / 2 + width / 16 / 2)) as H. change (INR 0) with 0 in H. rewrite Rmult_0_l, Rplus_0_r in H.
  refine (eq_trans H _). apply map_ext. intros i. unfold offset. lra.
Qed.

(** ** The loops *)
Lemma triple_loop (f : R -> R -> R -> R) (X Y Z : list nat) (gx gy gz : nat -> R) :
  fold_left (fun vol x => fold_left (fun vol y => fold_left (fun vol z => vol + f x y z) (map gz Z) vol) (map gy Y) vol) (map gx X) 0
  = sum (map (fun t => f (gx (fst t)) (gy (fst (snd t))) (gz (snd (snd t)))) (list_prod X (list_prod Y Z))).
Proof.
  rewrite (fold_sum _ (fun x => sum (map (fun y => sum (map (f x y) (map gz Z))) (map gy Y)))).
  2:{ intros v x. apply fold_sum. intros v' y. apply fold_sum. reflexivity. }
  rewrite Rplus_0_l, map_map. rewrite <- (sum_prod (fun i t => f (gx i) (gy (fst t)) (gz (snd t)))). apply sum_ext. intros i _. rewrite map_map.
  rewrite <- (sum_prod (fun j k => f (gx i) (gy j) (gz k))). apply sum_ext. intros j _. now rewrite map_map.
Qed.

Lemma inside_iff h P q : 0 <= h -> inside_sphere (N:=RN) h P q = true <-> distance P q < h.
Proof.
  intros Hh. unfold inside_sphere, distance, vlen, vdot, vsub. to_R. cbn [vx vy vz]. unfold Rltb.
  set (s := (vx P - vx q) * (vx P - vx q) + (vy P - vy q) * (vy P - vy q) + (vz P - vz q) * (vz P - vz q)).
  replace ((vx q - vx P) * (vx q - vx P) + (vy q - vy P) * (vy q - vy P) + (vz q - vz P) * (vz q - vz P)) with s by (unfold s; ring).
  assert (Hs : 0 <= s). { unfold s. pose proof (Rle_0_sqr (vx P - vx q)) as A. pose proof (Rle_0_sqr (vy P - vy q)) as B. pose proof (Rle_0_sqr (vz P - vz q)) as C. unfold Rsqr in A, B, C. to_R. lra. }
  clearbody s. change (T RN) with R in *. destruct (Rlt_dec _ 0) as [L|L]; split; intros H; try reflexivity; try discriminate.
  - rewrite <- (sqrt_square h Hh). apply sqrt_lt_1; [exact Hs|nra|lra].
  - exfalso. apply L. rewrite <- (sqrt_sqrt s Hs). assert (0 <= sqrt s) by apply sqrt_pos. nra.
Qed.

Lemma part_in t : In t parts <-> part_ok t.
Proof. destruct t as (i, (j, k)). unfold parts, part_ok, part in *. rewrite !in_prod_iff, !in_seq. cbn [fst snd]. lia. Qed.
Lemma nodup_prod {A B} (l : list A) (l' : list B) : NoDup l -> NoDup l' -> NoDup (list_prod l l').
Proof.
  intros H H'. induction H as [|a l Ha Hl IH]; cbn [list_prod]; [constructor|].
  assert (D : forall (u v : list (A * B)), NoDup u -> NoDup v -> (forall x, In x u -> ~ In x v) -> NoDup (u ++ v)).
  { intros u v Hu Hv E. induction Hu as [|x u Hx Hu IHu]; [exact Hv|]. cbn. constructor.
    - rewrite in_app_iff. intros [K|K]; [tauto|]. exact (E x (or_introl eq_refl) K).
    - apply IHu. intros y Hy. apply E. now right. }
  apply D; [|exact IH|].
  - clear -H'. induction H' as [|b l' Hb H' IH]; [constructor|]. cbn. constructor; [|exact IH]. rewrite in_map_iff. intros (c & E & K). injection E as ->. tauto.
  - intros (x, y) K K'. rewrite in_map_iff in K. destruct K as (c & E & _). injection E as -> ->. apply in_prod_iff in K'. tauto.
Qed.
Lemma parts_nodup : NoDup parts.
Proof. unfold parts. apply nodup_prod; [apply seq_NoDup|]. apply nodup_prod; apply seq_NoDup. Qed.
Lemma parts_number : INR (length parts) = 16 * 16 * 16.
Proof. unfold parts, part. rewrite !prod_length, !seq_length, !mult_INR. replace (INR 16) with 16 by (cbn; lra). ring. Qed.

Lemma box_sum c P Q : box_volume (N:=RN) c P Q = INR (length (filter (fun t => inside_sphere (N:=RN) (bc_horizon c) P (part_middle (bc_dx c) (bc_dy c) (bc_dz c) Q t)) parts)) * (bc_dx c / 16 * (bc_dy c / 16) * (bc_dz c / 16)).
Proof.
  unfold box_volume. cbv zeta. rewrite !sub_size, !sub_middles. change (ofZ (n:=RN) 0) with 0.
  refine (eq_trans (triple_loop (fun x y z => if inside_sphere (N:=RN) (bc_horizon c) P (v3 (N:=RN) x y z) then bc_dx c / 16 * (bc_dy c / 16) * (bc_dz c / 16) else 0) _ _ _ _ _ _) _).
  apply (sum_if (fun t => inside_sphere (N:=RN) (bc_horizon c) P (part_middle (bc_dx c) (bc_dy c) (bc_dz c) Q t))).
Qed.

Lemma filter_nodup {A} (b : A -> bool) l : NoDup l -> NoDup (filter b l).
Proof. intros H. now apply NoDup_filter. Qed.

(** ** Rings *)
Lemma ring_specs_eq (atan2f : R -> R -> R) (c : ring_calc RN) (Q : point) : exists theta, ring_specs (N:=RN) atan2f c Q = (sub_spec (N:=RN) (from_axis (rc_centre c) Q) (rc_dr c), sub_spec (N:=RN) theta (rc_dt c), sub_spec (N:=RN) (vz Q) (rc_dz c)) /\
  theta = atan2f (vy Q - vy (rc_centre c)) (vx Q - vx (rc_centre c)).
Proof.
  exists (atan2f (vy Q - vy (rc_centre c)) (vx Q - vx (rc_centre c))). split; [|reflexivity]. unfold ring_specs, from_axis. cbv zeta. unfold vdot, vsub. to_R. cbn [vx vy vz]. to_R.
  set (dx := vx Q - vx (rc_centre c)). set (dy := vy Q - vy (rc_centre c)). set (dz := vz Q - vz (rc_centre c)).
  replace (dx * 0 + dy * 0 + dz * 1) with dz by ring. replace (dx - 0 * dz) with dx by ring. replace (dy - 0 * dz) with dy by ring. replace (dz - 1 * dz) with 0 by ring.
  replace (dx * dx + dy * dy + 0 * 0) with (dx * dx + dy * dy) by ring. assert (Ez : vz (rc_centre c) + dz = vz Q) by (unfold dz; clear; to_R; change (T RN) with R in *; ring). rewrite Ez. reflexivity.
Qed.
Definition ring_point (rho theta z a b c : R) (t : part) : point :=
  v3 (N:=RN) (offset rho a (fst t) * cos (offset theta b (fst (snd t)))) (offset rho a (fst t) * sin (offset theta b (fst (snd t)))) (offset z c (snd (snd t))).
Lemma ring_sum (atan2f : R -> R -> R) (c : ring_calc RN) (P Q : point) : let theta := atan2f (vy Q - vy (rc_centre c)) (vx Q - vx (rc_centre c)) in
  ring_volume (N:=RN) cos sin atan2f c P Q = sum (map (fun t => if inside_sphere (N:=RN) (rc_horizon c) P (ring_point (from_axis (rc_centre c) Q) theta (vz Q) (rc_dr c) (rc_dt c) (rc_dz c) t)
    then offset (from_axis (rc_centre c) Q) (rc_dr c) (fst t) * (rc_dr c / 16) * (rc_dt c / 16) * (rc_dz c / 16) else 0) parts).
Proof.
  intros theta. unfold ring_volume. destruct (ring_specs_eq atan2f c Q) as (th & E & Et). fold theta in Et. subst th. rewrite E. cbv zeta. rewrite !sub_size, !sub_middles. change (ofZ (n:=RN) 0) with 0.
  exact (triple_loop (fun r th z => if inside_sphere (N:=RN) (rc_horizon c) P (v3 (N:=RN) (r * cos th) (r * sin th) z) then r * (rc_dr c / 16) * (rc_dt c / 16) * (rc_dz c / 16) else 0) _ _ _ _ _ _).
Qed.
Lemma ring_cell_sum (atan2f : R -> R -> R) (c : ring_calc RN) (Q : point) : ring_cell_volume (N:=RN) atan2f c Q = sum (map (fun t : part => offset (from_axis (rc_centre c) Q) (rc_dr c) (fst t) * (rc_dr c / 16) * (rc_dt c / 16) * (rc_dz c / 16)) parts).
Proof.
  unfold ring_cell_volume. destruct (ring_specs_eq atan2f c Q) as (th & E & Et). rewrite E. cbv zeta. rewrite !sub_size, !sub_middles. change (ofZ (n:=RN) 0) with 0.
  exact (triple_loop (fun r _ _ => r * (rc_dr c / 16) * (rc_dt c / 16) * (rc_dz c / 16)) _ _ _ _ _ _).
Qed.
Lemma offsets_sum rho a : sum (map (fun t : part => offset rho a (fst t)) parts) = 16 * 16 * 16 * rho.
Proof.
  unfold parts. rewrite <- (sum_prod (fun i (_ : nat * nat) => offset rho a i)).
  rewrite (sum_ext _ (fun i => offset rho a i * (16 * 16))).
  - rewrite sum_scale. replace (sum (map (offset rho a) (seq 0 16))) with (16 * rho); [ring|]. unfold sum, offset. cbn [seq map fold_right]. rewrite !S_INR. change (INR 0) with 0. field.
  - intros i _. rewrite sum_const, prod_length, !seq_length, mult_INR. replace (INR 16) with 16 by (cbn; lra). ring.
Qed.
Lemma offset_near middle width i : 0 <= width -> (i < 16)%nat -> Rabs (offset middle width i - middle) <= width / 2.
Proof.
  intros Hw Hi. unfold offset. replace (middle + (INR i - 15 / 2) * (width / 16) - middle) with ((INR i - 15 / 2) * (width / 16)) by ring.
  assert (0 <= INR i <= 15). { split; [apply pos_INR|]. replace 15 with (INR 15) by (cbn; lra). apply le_INR. lia. } apply Rabs_le. nra.
Qed.
Global Opaque parts.
