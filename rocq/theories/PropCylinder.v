(** * C76: meshes of cylinders *)
From Coq Require Import Reals Lra Lia Psatz.
From Verif Require Import Base Num ModelExplicit ModelScalar ModelGrid ModelCylinder SpecGeom SpecGlobal SpecGrid ProofGlobal ProofGrid ProofGrid2 PropGrid ProofCylinder ProofGeom ProofSphere ProofSphere2 ProofCylinder2 SpecCylinder.

Lemma arc_le {N : Num} (truncate : N -> option nat) s r a h : arc_horizon truncate s r a = Ok h -> h <= cells s.
Proof. unfold arc_horizon. destruct (truncate _); [|discriminate]. intros E. injection E as <-. match goal with |- context [(cells s <? ?k)%nat] => destruct (Nat.ltb_spec (cells s) k) end; lia. Qed.

Lemma cylinder_ok {N : Num} (g : cylinder N) procs : 
  0 < procs -> 0 < cells (c_sr g) -> 0 < cells (c_st g) -> c_hr g <= cells (c_sr g) -> c_ht g <= cells (c_st g) -> c_hz g <= cells (c_sz g) ->
  let n := cells (c_sr g) * cells (c_st g) * cells (c_sz g) in
  (Z.of_nat (n * ((2 * c_hr g + 1) * (2 * c_ht g + 1) * (2 * c_hz g + 1))) <= int_max)%Z ->
  c_shares g = repeat (n / procs) (procs - 1) ++ [n / procs + n mod procs] ->
  exists ds, remaining_shares_c g (length (c_shares g)) 0 (Cell 0 0 0) = Ok ds /\ shares_spec g 0 (c_shares g) ds.
Proof.
  intros P X Y Lr Lt Lz n Small Es. destruct procs as [|p]; [lia|]. replace (S p - 1) with p in Es by lia.
  apply (remaining_ok g X Y Lr Lt Lz (c_shares g) [] (Cell 0 0 0) 0); auto.
  - intros m I. rewrite Es in *. now apply last_biggest.
  - rewrite Es, sum_shares. cbn. fold n. lia.
  - assert (T : forall k a, total (room_of g) a k + k <= k * ((2 * c_hr g + 1) * (2 * c_ht g + 1) * (2 * c_hz g + 1))).
    { induction k as [|k IH]; intros a; [cbn; lia|]. cbn [total]. specialize (IH (S a)).
      assert (Q : room_of g a + 1 <= (2 * c_hr g + 1) * (2 * c_ht g + 1) * (2 * c_hz g + 1)).
      { unfold room_of, num_neighbors_c. 
        pose proof (hcells_bound (c_hr g) (cells (c_sr g)) (cx (cells (c_sr g)) a)). pose proof (hcells_bound (c_hz g) (cells (c_sz g)) (cz (cells (c_sr g)) (cells (c_st g)) a)).
        set (a1 := hcells (c_hr g) (cells (c_sr g)) (cx (cells (c_sr g)) a)) in *. set (a3 := hcells (c_hz g) (cells (c_sz g)) (cz (cells (c_sr g)) (cells (c_st g)) a)) in *.
        assert (a1 * ring_cells (c_ht g) * a3 <= (2 * c_hr g + 1) * (2 * c_ht g + 1) * (2 * c_hz g + 1)) by (apply Nat.mul_le_mono; [apply Nat.mul_le_mono; [assumption|unfold ring_cells; lia]|assumption]).
        assert (0 < (2 * c_hr g + 1) * (2 * c_ht g + 1) * (2 * c_hz g + 1)) by nia. lia. }
      cbn [Nat.mul]. lia. }
    fold n. specialize (T n 0). lia.
Qed.

Lemma shares_ids_c {N : Num} (g : cylinder N) : forall l a ds, shares_spec g a l ds -> concat (map gd_ids ds) = seq a (sum_list l) /\ length ds = length l.
Proof.
  induction l as [|m l IH]; intros a [|d ds] H; try contradiction; [split; reflexivity|]. destruct H as ((_ & _ & E & _) & H). destruct (IH _ _ H) as (A & B).
  cbn. rewrite A, B, E. unfold sum_list. cbn [fold_right]. rewrite <- seq_app. split; reflexivity.
Qed.
Lemma shares_nth_c {N : Num} (g : cylinder N) : forall l a ds p d, shares_spec g a l ds -> nth_error ds p = Some d ->
  exists m b, nth_error l p = Some m /\ share_spec g b m d /\ a <= b /\ b + m <= a + sum_list l.
Proof.
  induction l as [|m l IH]; intros a [|d0 ds] p d H E; try contradiction; [destruct p; discriminate|]. destruct H as (S0 & H). destruct p as [|p]; cbn in E.
  - injection E as <-. exists m, a. cbn. split; [reflexivity|]. split; [exact S0|]. fold (sum_list l). lia.
  - destruct (IH _ _ _ _ H E) as (m' & b & A & B & C & D). exists m', b. cbn. fold (sum_list l). split; [exact A|]. split; [exact B|]. lia.
Qed.

Local Open Scope R_scope.

(** The generator for a tube, and the axes of its cells *)
Definition tube_axes (t : tube) : axis * axis * axis :=
  (Spec1 (N:=RN) (t_rings t) (t_inner t) (t_outer t - t_inner t), Spec1 (N:=RN) (t_rays t) 0 (2 * PI), Spec1 (N:=RN) (t_layers t) (t_bottom t) (t_length t)).
Definition mesh_of (procs : nat) (h : R) (t : tube) (x y : R) (norm : V3 RN -> V3 RN -> RN -> bool) : outcome (list (grid_data RN)) :=
  generate_cylinder (N:=RN) whole_part cos sin procs h (t_inner t) (t_outer t) (t_length t) (t_rings t) x y (t_bottom t) norm.

Lemma width_pos t : (0 < t_rings t)%nat -> t_inner t < t_outer t -> 0 < ring_width t.
Proof. intros A B. apply Rdiv_lt_0_compat; [lra|apply lt_0_INR; lia]. Qed.

Lemma arc_horizon_spec (s : axis) (h a : R) : (0 < cells s)%nat -> 0 < x_length s -> 0 < a -> 0 <= h -> h / (spacing s * a) < 2 ^ 64 ->
  exists n, arc_horizon (N:=RN) whole_part s h a = Ok n /\ nearest (cells s) n (h / (spacing s * a)).
Proof.
  intros C L A0 R0 B. unfold arc_horizon. rewrite spacing_eq. assert (S1 : 0 < spacing s) by (apply Rdiv_lt_0_compat; [exact L|apply lt_0_INR; lia]).
  change (mul (n:=RN) (spacing s) a) with (spacing s * a). assert (S0 : 0 < spacing s * a) by (now apply Rmult_lt_0_compat). change (div (n:=RN) h (spacing s * a)) with (h / (spacing s * a)).
  assert (Q : 0 <= h / (spacing s * a)) by (unfold Rdiv; assert (0 < / (spacing s * a)) by (now apply Rinv_0_lt_compat); nra).
  destruct (whole_part_some (h / (spacing s * a)) ltac:(lra)) as (n & E). rewrite E. destruct (whole_part_spec _ _ E Q) as (E1 & E2). cbv zeta.
  change (sub (n:=RN) (h / (spacing s * a)) (ofZ (Z.of_nat n))) with (h / (spacing s * a) - ofZ (n:=RN) (Z.of_nat n)). rewrite (ofZ_INR n).
  set (q := h / (spacing s * a)) in *.
  assert (D : (if ltb (n:=RN) (q - INR n) (ofZ 0) then opp (n:=RN) (q - INR n) else q - INR n) = q - INR n).
  { destruct (ltb (n:=RN) (q - INR n) (ofZ 0)) eqn:Z; [|reflexivity]. apply Rltb_true in Z. cbn in Z. lra. }
  rewrite D. set (n' := if leb (n:=RN) (lit 1 2) (q - INR n) then S n else n).
  assert (N' : INR n' <= q + / 2 /\ q - / 2 < INR n').
  { unfold n'. destruct (leb (n:=RN) (lit 1 2) (q - INR n)) eqn:Z; [apply Rleb_true in Z; cbn in Z; rewrite S_INR; lra|].
    assert (Z' : ~ (leb (n:=RN) (lit 1 2) (q - INR n) = true)) by congruence. rewrite Rleb_true in Z'. cbn in Z'. lra. }
  destruct N' as (N1 & N2). eexists. split; [reflexivity|]. unfold nearest. destruct (Nat.ltb_spec (cells s) n') as [Z|Z].
  - split; [lia|]. split; [|now right]. apply lt_INR in Z. lra.
  - split; [lia|]. split; [exact N1|now left].
Qed.

Lemma tube_generates procs h t x y norm : tube_ok procs h t -> let '(ax, ay, az) := tube_axes t in
  exists hr ht hz, (hr <= t_rings t)%nat /\ (hz <= t_layers t)%nat /\ nearest (t_rays t) ht (h / mean_arc t) /\
    (forall m : nat, (m < t_rings t)%nat -> INR m * ring_width t < h -> (m <= hr)%nat) /\
    (forall m : nat, (m < t_layers t)%nat -> INR m * layer_height t < h -> (m <= hz)%nat) /\
    (0 < t_rays t)%nat /\ (0 < t_layers t)%nat /\
    let sh := repeat (tube_cells t / procs)%nat (procs - 1) ++ [(tube_cells t / procs + tube_cells t mod procs)%nat] in
    let g := {| c_cos := cos : RN -> RN; c_sin := sin : RN -> RN; c_norm := norm; c_radius := h : T RN; c_sr := ax; c_st := ay; c_sz := az; c_hr := hr; c_ht := ht; c_hz := hz; c_shares := sh |} in
    exists ds, mesh_of procs h t x y norm = Ok ds /\ shares_spec g 0 sh ds.
Proof.
  intros (((S1 & S2) & S3 & S4) & P & Rg & (I0 & I1) & L0 & H0 & Small & Un). cbn [tube_axes].
  pose proof (width_pos t Rg I1) as W0. assert (M0 : 0 < mean_radius t) by (unfold mean_radius; lra). pose proof PI_RGT_0 as Pi0.
  assert (Ry : (0 < t_rays t)%nat). { apply INR_lt. cbn [INR]. assert (0 < 2 * PI * mean_radius t) by nra. nra. }
  assert (Ly : (0 < t_layers t)%nat). { apply INR_lt. cbn [INR]. nra. }
  assert (Ry' : 0 < INR (t_rays t)) by (apply lt_0_INR; lia). assert (Ly' : 0 < INR (t_layers t)) by (apply lt_0_INR; lia). assert (Rg' : 0 < INR (t_rings t)) by (apply lt_0_INR; lia).
  set (ax := Spec1 (N:=RN) (t_rings t) (t_inner t) (t_outer t - t_inner t)). set (ay := Spec1 (N:=RN) (t_rays t) 0 (2 * PI)). set (az := Spec1 (N:=RN) (t_layers t) (t_bottom t) (t_length t)).
  assert (Sx : spacing ax = ring_width t) by reflexivity. assert (Sy : spacing ay = ray_angle t) by reflexivity. assert (Sz : spacing az = layer_height t) by reflexivity.
  assert (A0 : 0 < ray_angle t) by (unfold ray_angle; apply Rdiv_lt_0_compat; lra). assert (Z0 : 0 < layer_height t) by (unfold layer_height; apply Rdiv_lt_0_compat; lra).
  assert (M1 : 0 < mean_arc t) by (unfold mean_arc; now apply Rmult_lt_0_compat).
  pose proof (ratio_nonneg h _ H0 W0) as Qx. pose proof (ratio_nonneg h _ H0 M1) as Qy. pose proof (ratio_nonneg h _ H0 Z0) as Qz.
  set (qx := h / ring_width t) in *. set (qy := h / mean_arc t) in *. set (qz := h / layer_height t) in *.
  assert (N1 : 1 <= INR (tube_cells t)) by (change 1 with (INR 1); apply le_INR; unfold tube_cells; assert (0 < t_rings t * t_rays t)%nat by nia; nia).
  assert (I : IZR int_max < 2 ^ 31) by (unfold int_max; lra).
  assert (Pr : (2 * qx + 2) * (2 * qy + 2) * (2 * qz + 2) <= IZR int_max).
  { assert (0 <= (2 * qx + 2) * (2 * qy + 2) * (2 * qz + 2)) by (repeat apply Rmult_le_pos; lra). nra. }
  assert (B1 : 1 <= (2 * qx + 2) * (2 * qy + 2) * (2 * qz + 2)) by (assert (4 <= (2 * qx + 2) * (2 * qy + 2)) by nra; nra).
  assert (Cells : INR (tube_cells t) <= IZR int_max) by nra.
  assert (Bx : qx < 2 ^ 64 /\ qy < 2 ^ 64 /\ qz < 2 ^ 64).
  { assert (H1 : (2 * qx + 2) * 4 <= (2 * qx + 2) * (2 * qy + 2) * (2 * qz + 2)) by (rewrite Rmult_assoc; apply Rmult_le_compat_l; [lra|]; nra).
    assert (H2 : (2 * qy + 2) * 4 <= (2 * qx + 2) * (2 * qy + 2) * (2 * qz + 2)) by (replace ((2 * qx + 2) * (2 * qy + 2) * (2 * qz + 2)) with ((2 * qy + 2) * ((2 * qx + 2) * (2 * qz + 2))) by ring; apply Rmult_le_compat_l; [lra|]; nra).
    assert (H3 : (2 * qz + 2) * 4 <= (2 * qx + 2) * (2 * qy + 2) * (2 * qz + 2)) by (replace ((2 * qx + 2) * (2 * qy + 2) * (2 * qz + 2)) with ((2 * qz + 2) * ((2 * qx + 2) * (2 * qy + 2))) by ring; apply Rmult_le_compat_l; [lra|]; nra).
    repeat split; lra. }
  destruct Bx as (Bx & By & Bz).
  destruct (horizon_spec ax h Rg ltac:(cbn [x_length ax]; lra) H0 Bx) as (hr & Ex & Hx & Ux & Fx).
  destruct (arc_horizon_spec ay h (mean_radius t) Ry ltac:(cbn [x_length ay]; lra) M0 H0 By) as (ht & Ey & Ny).
  destruct (horizon_spec az h Ly ltac:(cbn [x_length az]; lra) H0 Bz) as (hz & Ez & Hz & Uz & Fz).
  destruct (horizon_spec ay h Ry ltac:(cbn [x_length ay]; lra) H0 Un) as (hy & Ey' & _).
  exists hr, ht, hz. split; [exact Hx|]. split; [exact Hz|]. split; [exact Ny|]. split; [exact Fx|]. split; [exact Fz|]. split; [exact Ry|]. split; [exact Ly|].
  set (sh := repeat (tube_cells t / procs)%nat (procs - 1) ++ [(tube_cells t / procs + tube_cells t mod procs)%nat]).
  set (g := {| c_cos := cos : RN -> RN; c_sin := sin : RN -> RN; c_norm := norm; c_radius := h : T RN; c_sr := ax; c_st := ay; c_sz := az; c_hr := hr; c_ht := ht; c_hz := hz; c_shares := sh |}).
  cbv zeta.
  assert (Whole : forall (u : R) n, INR n - 1 <= u < INR n -> u < 2 ^ 64 -> 0 <= u -> whole_part u = Some (n - 1)%nat).
  { intros u n (U1 & U2) U3 U4. destruct (whole_part_some u (conj U4 U3)) as (q & E). rewrite E. destruct (whole_part_spec _ _ E U4) as (E1 & E2). f_equal.
    assert (q < n)%nat by (apply INR_lt; lra). assert (n < S (S q))%nat by (apply INR_lt; rewrite !S_INR; lra). lia. }
  assert (I64 : IZR int_max < 2 ^ 64) by (unfold int_max; lra).
  assert (C1 : INR (t_rays t) <= INR (tube_cells t)) by (apply le_INR; unfold tube_cells; assert (t_rays t <= t_rings t * t_rays t)%nat by nia; assert (t_rings t * t_rays t <= t_rings t * t_rays t * t_layers t)%nat by nia; lia).
  assert (C2 : INR (t_layers t) <= INR (tube_cells t)) by (apply le_INR; unfold tube_cells; assert (0 < t_rings t * t_rays t)%nat by nia; nia).
  assert (R1 : make_ring (N:=RN) whole_part (v3 (N:=RN) x y (ofZ 0)) (t_inner t) (t_outer t) (t_rings t) = Ok (Ring (v3 (N:=RN) x y (ofZ 0)) (t_inner t) (t_outer t) (t_rings t) (t_rays t))).
  { unfold make_ring. assert (E : div (n:=RN) (mul (n:=RN) (ofZ 2) pi) (div (n:=RN) (div (n:=RN) (sub (n:=RN) (t_outer t) (t_inner t)) (ofZ (Z.of_nat (t_rings t)))) (div (n:=RN) (add (n:=RN) (t_inner t) (t_outer t)) (ofZ 2))) = 2 * PI * mean_radius t / ring_width t).
    { rewrite (ofZ_INR (t_rings t)). cbn [div mul sub add ofZ pi RN]. unfold mean_radius, ring_width. change (T RN) with R in *. field. repeat split; lra. }
    rewrite E. assert (U : INR (t_rays t) - 1 <= 2 * PI * mean_radius t / ring_width t < INR (t_rays t)).
    { split; [apply Rmult_le_reg_r with (ring_width t); [exact W0|]|apply Rmult_lt_reg_r with (ring_width t); [exact W0|]]; unfold Rdiv; rewrite (Rmult_assoc _ (/ ring_width t)), Rinv_l, Rmult_1_r by lra; assumption. }
    rewrite (Whole _ _ U) by first [lra|unfold Rdiv; apply Rmult_le_pos; [nra|left; now apply Rinv_0_lt_compat]]. now replace (t_rays t - 1 + 1)%nat with (t_rays t) by lia. }
  unfold mesh_of, generate_cylinder. rewrite R1. cbn [bind].
  assert (Rs : ray_spec (Ring (v3 (N:=RN) x y (ofZ 0)) (t_inner t) (t_outer t) (t_rings t) (t_rays t)) = ax).
  { unfold ray_spec, ax. cbn [r_rings r_inner r_outer]. f_equal. unfold magnitude. destruct (ltb (n:=RN) _ _) eqn:Z; [|reflexivity]. apply Rltb_true in Z. cbn in Z. lra. }
  assert (Rt : ring_spec (Ring (v3 (N:=RN) x y (ofZ 0)) (t_inner t) (t_outer t) (t_rings t) (t_rays t)) = ay) by reflexivity.
  rewrite Rs. rewrite spacing_eq, Sx. change (div (n:=RN) (t_length t) (ring_width t)) with (t_length t / ring_width t).
  assert (U : INR (t_layers t) - 1 <= t_length t / ring_width t < INR (t_layers t)).
  { split; [apply Rmult_le_reg_r with (ring_width t); [exact W0|]|apply Rmult_lt_reg_r with (ring_width t); [exact W0|]]; unfold Rdiv; rewrite (Rmult_assoc _ (/ ring_width t)), Rinv_l, Rmult_1_r by lra; assumption. }
  rewrite (Whole _ _ U) by first [lra|unfold Rdiv; apply Rmult_le_pos; [lra|left; now apply Rinv_0_lt_compat]]. replace (t_layers t - 1 + 1)%nat with (t_layers t) by lia.
  assert (Li : (Z.of_nat (t_layers t) <= int_max)%Z) by (apply le_IZR; rewrite <- INR_IZR_INZ; lra). assert (Ci : (Z.of_nat (tube_cells t) <= int_max)%Z) by (apply le_IZR; rewrite <- INR_IZR_INZ; lra).
  unfold to_int at 1. destruct (Z.leb_spec (Z.of_nat (t_layers t)) int_max) as [_|]; [|lia]. cbn [bind]. fold az.
  unfold make_cylinder. rewrite Rs, Rt. rewrite Ez. cbn [bind r_inner r_outer r_rays r_rings].
  change (div (n:=RN) (add (n:=RN) (t_inner t) (t_outer t)) (ofZ 2)) with (mean_radius t). rewrite Ey. cbn [bind]. rewrite Ex. cbn [bind]. rewrite Ey'. cbn [bind cells az].
  destruct procs as [|p]; [lia|]. assert (En : (t_rays t * t_rings t * t_layers t)%nat = tube_cells t) by (unfold tube_cells; ring). rewrite En, (per_processor p _ Ci). cbn [bind].
  assert (Es : sh = repeat (tube_cells t / S p)%nat p ++ [(tube_cells t / S p + tube_cells t mod S p)%nat]) by (unfold sh; replace (S p - 1)%nat with p by lia; reflexivity). rewrite <- Es. fold g.
  apply (cylinder_ok g (S p)); auto; cbn [c_sr c_st c_sz c_hr c_ht c_hz cells g ax ay az]; [exact (proj1 Ny)|].
  apply le_IZR. rewrite <- INR_IZR_INZ. eapply Rle_trans; [|exact Small]. rewrite mult_INR. apply Rmult_le_compat_l; [apply pos_INR|]. rewrite !mult_INR, !plus_INR, !mult_INR. change (INR 1) with 1. change (INR 2) with 2.
  pose proof (pos_INR hr). pose proof (pos_INR ht). pose proof (pos_INR hz). destruct Ny as (_ & Ny & _). change (h / spacing ax) with qx in Ux. change (h / spacing az) with qz in Uz. change (h / (spacing ay * mean_radius t)) with qy in Ny.
  apply Rmult_le_compat; [apply Rmult_le_pos; lra|lra|apply Rmult_le_compat; lra|lra].
Qed.

Section Cells.
  Variables (t : tube) (h : R) (hr ht hz : nat) (sh : list nat) (norm : V3 RN -> V3 RN -> RN -> bool).
  Let ax := Spec1 (N:=RN) (t_rings t) (t_inner t) (t_outer t - t_inner t).
  Let ay := Spec1 (N:=RN) (t_rays t) 0 (2 * PI).
  Let az := Spec1 (N:=RN) (t_layers t) (t_bottom t) (t_length t).
  Let g : cylinder RN := {| c_cos := cos : RN -> RN; c_sin := sin : RN -> RN; c_norm := norm; c_radius := h : T RN; c_sr := ax; c_st := ay; c_sz := az; c_hr := hr; c_ht := ht; c_hz := hz; c_shares := sh |}.
  Hypothesis Cx : (0 < t_rings t)%nat.
  Hypothesis Cy : (0 < t_rays t)%nat.
  Hypothesis Cz : (0 < t_layers t)%nat.
  Hypothesis I0 : 0 <= t_inner t.
  Hypothesis I1 : t_inner t < t_outer t.
  Hypothesis L0 : 0 < t_length t.
  Hypothesis H0 : 0 <= h.

  Lemma centre_place i j k : (i < t_rings t)%nat -> (j < t_rays t)%nat -> (k < t_layers t)%nat -> centre g i j k = place t 0 0 (cell_number t i j k).
  Proof.
    intros A B C. unfold centre. cbn [c_sr c_st c_sz g]. rewrite !coord_middle by assumption.
    destruct (lin_decode (t_rings t) (t_rays t) Cx Cy i j k A B) as (D1 & D2 & D3).
    assert (E1 : ring_of t (cell_number t i j k) = i) by exact D1. assert (E2 : ray_of t (cell_number t i j k) = j) by exact D2. assert (E3 : layer_of t (cell_number t i j k) = k) by exact D3.
    unfold place. rewrite E1, E2, E3. unfold polar. cbn [c_cos c_sin g]. unfold middle, ring_radius. cbn [x_start ax ay az mul RN].
    change (spacing ax) with (ring_width t). change (spacing ay) with (ray_angle t). change (spacing az) with (layer_height t). rewrite !Rplus_0_r, Rplus_0_l. reflexivity.
  Qed.
  Lemma number_encode n : (n < tube_cells t)%nat -> (ring_of t n < t_rings t)%nat /\ (ray_of t n < t_rays t)%nat /\ (layer_of t n < t_layers t)%nat /\ cell_number t (ring_of t n) (ray_of t n) (layer_of t n) = n.
  Proof.
    intros L. destruct (lin_encode (t_rings t) (t_rays t) Cx Cy n) as (A & B & C). pose proof (cz_lt (t_rings t) (t_rays t) Cx Cy n (t_layers t) L) as D. repeat split; try assumption. 
  Qed.
  Lemma centre_of_place n : (n < tube_cells t)%nat -> centre_of g n = place t 0 0 n.
  Proof. intros L. destruct (number_encode n L) as (A & B & C & D). unfold centre_of. refine (eq_trans (centre_place _ _ _ A B C) _). exact (f_equal (place t 0 0) D). Qed.

  Lemma vol_sector n : (n < tube_cells t)%nat -> vol_of g n = sector_volume t n.
  Proof.
    intros L. destruct (number_encode n L) as (A & B & C & D). unfold vol_of. cbn [c_sr c_st c_sz g]. rewrite coord_middle by exact A. rewrite !spacing_eq.
    change (spacing ax) with (ring_width t). change (spacing ay) with (ray_angle t). change (spacing az) with (layer_height t).
    change (middle ax (cx (cells ax) n)) with (ring_radius t (ring_of t n)). unfold sector_volume. cbn [mul RN]. match goal with |- ?x = ?y => change (@eq R x y) end. field.
  Qed.
End Cells.

Section Members.
  Variables (t : tube) (h : R) (hr ht hz : nat) (sh : list nat).
  Let ax := Spec1 (N:=RN) (t_rings t) (t_inner t) (t_outer t - t_inner t).
  Let ay := Spec1 (N:=RN) (t_rays t) 0 (2 * PI).
  Let az := Spec1 (N:=RN) (t_layers t) (t_bottom t) (t_length t).
  Let g : cylinder RN := {| c_cos := cos : RN -> RN; c_sin := sin : RN -> RN; c_norm := spherical (N:=RN); c_radius := h : T RN; c_sr := ax; c_st := ay; c_sz := az; c_hr := hr; c_ht := ht; c_hz := hz; c_shares := sh |}.
  Hypothesis Cx : (0 < t_rings t)%nat.
  Hypothesis Cy : (0 < t_rays t)%nat.
  Hypothesis Cz : (0 < t_layers t)%nat.
  Hypothesis I0 : 0 <= t_inner t.
  Hypothesis I1 : t_inner t < t_outer t.
  Hypothesis L0 : 0 < t_length t.
  Hypothesis H0 : 0 <= h.
  Hypothesis Lr : (hr <= t_rings t)%nat.
  Hypothesis Lz : (hz <= t_layers t)%nat.
  Hypothesis Fx : forall m : nat, (m < t_rings t)%nat -> INR m * ring_width t < h -> (m <= hr)%nat.
  Hypothesis Fz : forall m : nat, (m < t_layers t)%nat -> INR m * layer_height t < h -> (m <= hz)%nat.

  Lemma radius_pos i : 0 < ring_radius t i.
  Proof. pose proof (width_pos t Cx I1). pose proof (pos_INR i). unfold ring_radius. assert (0 < (INR i + / 2) * ring_width t) by (apply Rmult_lt_0_compat; lra). lra. Qed.

  Lemma near_windows n m : (n < tube_cells t)%nat -> (m < tube_cells t)%nat -> dot (vsub (place t 0 0 n) (place t 0 0 m)) (vsub (place t 0 0 n) (place t 0 0 m)) < h * h ->
    ((ring_of t m <= ring_of t n + hr)%nat /\ (ring_of t n <= ring_of t m + hr)%nat) /\ ((layer_of t m <= layer_of t n + hz)%nat /\ (layer_of t n <= layer_of t m + hz)%nat).
  Proof.
    intros Ln Lm D. destruct (number_encode t Cx Cy n Ln) as (A & B & C & _). destruct (number_encode t Cx Cy m Lm) as (A' & B' & C' & _). rewrite place_distance in D.
    set (r1 := ring_radius t (ring_of t n)) in *. set (r2 := ring_radius t (ring_of t m)) in *. set (s := sin _) in D. set (z := (INR (layer_of t n) - INR (layer_of t m)) * layer_height t) in *.
    assert (0 < r1) by apply radius_pos. assert (0 < r2) by apply radius_pos. assert (0 <= s * s) by apply Rle_0_sqr. assert (0 <= z * z) by apply Rle_0_sqr. assert (0 <= (r1 - r2) * (r1 - r2)) by apply Rle_0_sqr.
    assert (0 <= 4 * r1 * r2 * (s * s)) by (apply Rmult_le_pos; [|assumption]; apply Rmult_le_pos; lra).
    split.
    - apply (middle_apart ax h hr (ring_of t n) (ring_of t m)); auto; [apply width_pos; assumption|]. change (middle ax (ring_of t n)) with r1. change (middle ax (ring_of t m)) with r2. lra.
    - apply (middle_apart az h hz (layer_of t n) (layer_of t m)); auto; [apply Rdiv_lt_0_compat; [exact L0|apply lt_0_INR; exact Cz]|].
      replace (middle az (layer_of t n) - middle az (layer_of t m)) with z; [lra|]. unfold middle, z. change (spacing az) with (layer_height t). ring.
  Qed.

  Lemma within_dot n m : within t h n m <-> (m < tube_cells t)%nat /\ m <> n /\ dot (vsub (place t 0 0 n) (place t 0 0 m)) (vsub (place t 0 0 n) (place t 0 0 m)) < h * h.
  Proof. unfold within. now rewrite (dist_lt _ _ h H0). Qed.

  Lemma members n m : (n < tube_cells t)%nat ->
    (within t h n m -> count_occ Nat.eq_dec (nb_of g n) m = count_occ Nat.eq_dec (rays_of ht (t_rays t) (ray_of t n)) (ray_of t m)) /\
    (~ within t h n m -> count_occ Nat.eq_dec (nb_of g n) m = 0%nat).
  Proof.
    intros Ln. rewrite within_dot. destruct (number_encode t Cx Cy n Ln) as (A & B & C & En). destruct (lin_encode (t_rings t) (t_rays t) Cx Cy m) as (A' & B' & Em).
    change (cx (t_rings t) m) with (ring_of t m) in *. change (cy (t_rings t) (t_rays t) m) with (ray_of t m) in *. change (cz (t_rings t) (t_rays t) m) with (layer_of t m) in *.
    change (lin (t_rings t) (t_rays t) (ring_of t m) (ray_of t m) (layer_of t m)) with (cell_number t (ring_of t m) (ray_of t m) (layer_of t m)) in Em.
    pose proof (count_nbs g Cx Cy Lr (ring_of t n) (ray_of t n) (layer_of t n) (ring_of t m) (ray_of t m) (layer_of t m) A A' B') as Q.
    change (lin (cells (c_sr g)) (cells (c_st g)) (ring_of t m) (ray_of t m) (layer_of t m)) with (cell_number t (ring_of t m) (ray_of t m) (layer_of t m)) in Q.
    rewrite Em in Q. change (nbs g (ring_of t n) (ray_of t n) (layer_of t n)) with (nb_of g n) in Q. rewrite !count_seq in Q. 
    change (cells (c_sr g)) with (t_rings t) in Q. change (cells (c_st g)) with (t_rays t) in Q. change (cells (c_sz g)) with (t_layers t) in Q. change (c_hz g) with hz in Q. change (c_ht g) with ht in Q. change (c_hr g) with hr in Q.
    assert (K : (layer_of t m < t_layers t)%nat -> keeps g (ring_of t n) (ray_of t n) (layer_of t n) (ring_of t m) (ray_of t m) (layer_of t m) = true <->
      m <> n /\ dot (vsub (place t 0 0 n) (place t 0 0 m)) (vsub (place t 0 0 n) (place t 0 0 m)) < h * h).
    { intros C'. unfold keeps. pose proof (centre_place t h hr ht hz sh (spherical (N:=RN)) Cx Cy (ring_of t n) (ray_of t n) (layer_of t n) A B C) as P1.
      pose proof (centre_place t h hr ht hz sh (spherical (N:=RN)) Cx Cy (ring_of t m) (ray_of t m) (layer_of t m) A' B' C') as P2. rewrite En in P1. rewrite Em in P2.
      fold ax ay az in P1, P2. fold g in P1, P2. rewrite P1, P2. change (c_norm g) with (spherical (N:=RN)). change (c_radius g) with h. rewrite Bool.andb_true_iff, spherical_spec, Bool.negb_true_iff.
      assert (Bn : (Nat.eqb (ring_of t m) (ring_of t n) && Nat.eqb (ray_of t m) (ray_of t n) && Nat.eqb (layer_of t m) (layer_of t n))%bool = false <-> m <> n); [|now rewrite Bn].
      rewrite <- Bool.not_true_iff_false, !Bool.andb_true_iff, !Nat.eqb_eq. split; intros H E; apply H; [now rewrite E|]. destruct E as ((E1 & E2) & E3). rewrite <- En, <- Em, E1, E2, E3. reflexivity. }
    split.
    - intros (Lm & W). destruct (number_encode t Cx Cy m Lm) as (_ & _ & C' & _). destruct (near_windows n m Ln Lm (proj2 W)) as (W1 & W2). rewrite (proj2 (K C') W) in Q.
      destruct (in_dec _ _ (seq (hstart hz _) _)) as [_|Z]; [|contradict Z; apply in_range; auto]. destruct (in_dec _ _ (seq (hstart hr _) _)) as [_|Z]; [|contradict Z; apply in_range; auto]. lia.
    - intros W. destruct (in_dec _ _ (seq (hstart hz _) _)) as [Z|_]; [|exact Q]. apply in_range in Z as (C' & _); [|exact C|exact Lz].
      destruct (keeps _ _ _ _ _ _ _) eqn:Ke; [|lia]. contradict W. split; [|exact (proj1 (K C') eq_refl)]. rewrite <- Em. unfold cell_number, tube_cells. 
      assert (ray_of t m * t_rings t + t_rings t <= t_rings t * t_rays t)%nat by nia. assert (layer_of t m * (t_rings t * t_rays t) + t_rings t * t_rays t <= t_rings t * t_rays t * t_layers t)%nat by nia. lia.
  Qed.
End Members.

Lemma nearest_unique top n n' x : nearest top n x -> nearest top n' x -> n = n'.
Proof.
  assert (G : forall a b : nat, nearest top a x -> nearest top b x -> (a <= b)%nat).
  { intros a b (A1 & A2 & A3) (B1 & B2 & [B3|B3]); [|lia]. apply Nat.lt_succ_r. apply INR_lt. rewrite S_INR. lra. }
  intros A B. apply Nat.le_antisymm; auto.
Qed.

Lemma shares_total t procs : (0 < procs)%nat -> sum_list (repeat (tube_cells t / procs)%nat (procs - 1) ++ [(tube_cells t / procs + tube_cells t mod procs)%nat]) = tube_cells t.
Proof. intros P. destruct procs as [|p]; [lia|]. replace (S p - 1)%nat with p by lia. apply sum_shares. Qed.

Lemma tube_lists procs h t ht x y : tube_ok procs h t -> nearest (t_rays t) ht (h / mean_arc t) -> (0 < t_rays t)%nat /\
  exists ds, mesh_of procs h t x y (spherical (N:=RN)) = Ok ds /\ forall d i n, In d ds -> nth_error (gd_ids d) i = Some n -> (n < tube_cells t)%nat /\ 
    exists ns, listed d i ns /\ forall m, (within t h n m -> count_occ Nat.eq_dec ns m = count_occ Nat.eq_dec (rays_of ht (t_rays t) (ray_of t n)) (ray_of t m)) /\
                                       (~ within t h n m -> count_occ Nat.eq_dec ns m = 0%nat).
Proof.
  intros B Nh. pose proof (tube_generates procs h t x y (spherical (N:=RN)) B) as G. cbn [tube_axes] in G.
  destruct G as (hr & ht' & hz & Lr & Lz & Nh' & Fx & Fz & Cy & Cz & ds & E & Sp). rewrite (nearest_unique _ _ _ _ Nh' Nh) in *. destruct B as (_ & P & Cx & (I0 & I1) & L0 & H0 & _).
  split; [exact Cy|]. exists ds. split; [exact E|]. pose proof (shares_total t procs P) as Tot. set (sh := repeat (tube_cells t / procs)%nat (procs - 1) ++ [(tube_cells t / procs + tube_cells t mod procs)%nat]) in *.
  match type of Sp with shares_spec ?X _ _ _ => set (g := X) in * end.
  intros d i n Id En. apply In_nth_error in Id as (q & Eq). destruct (shares_nth_c g _ _ _ _ _ Sp Eq) as (m & b & _ & (S1 & S2 & S3 & S4 & S5 & S6 & S7 & S8) & _ & Fit). rewrite Tot in Fit. cbn in Fit.
  rewrite S3 in En. assert (Li : (i < m)%nat) by (rewrite <- (seq_length m b); apply nth_error_Some; congruence).
  assert (En' : n = (b + i)%nat) by (rewrite (nth_error_nth' _ 0%nat), seq_nth in En by (rewrite ?seq_length; lia); congruence).
  split; [lia|]. exists (nb_of g n). rewrite S6 in S7. 
  assert (Spl : flat_map (entry_of g) (seq b m) = flat_map (entry_of g) (seq b i) ++ entry_of g n ++ flat_map (entry_of g) (seq (S n) (m - i - 1))).
  { replace m with (i + S (m - i - 1))%nat at 1 by lia. rewrite seq_app, flat_map_app. cbn [seq flat_map]. rewrite <- En'. reflexivity. }
  split.
  - exists (length (flat_map (entry_of g) (seq b i))). rewrite S8, S6. split; [|split].
    + unfold offsets. rewrite nth_error_map, (nth_error_nth' _ 0%nat), seq_nth by (rewrite ?seq_length; lia). reflexivity.
    + rewrite Spl, skipn_app, skipn_all, Nat.sub_diag. cbn [app skipn]. unfold entry_of at 1. rewrite firstn_app. change (length (nb_of g n) :: nb_of g n) with ([length (nb_of g n)] ++ nb_of g n).
      cbn [app length]. rewrite Nat.sub_diag. cbn [firstn]. rewrite firstn_all, app_nil_r. reflexivity.
    + rewrite S7, Spl, !app_length. unfold entry_of at 3. cbn [length]. lia.
  - intros k. apply (members t h hr ht hz sh Cx Cy Cz I0 I1 L0 H0 Lr Lz Fx Fz). lia.
Qed.

(** ** The numbers of rays and layers *)
Theorem C76_counts inner outer len bottom (rings : nat) : 0 <= inner < outer -> 0 < len -> (0 < rings)%nat ->
  exists rays layers, sized (Tube inner outer len bottom rings rays layers).
Proof.
  intros (I0 & I1) L0 R0. set (w := (outer - inner) / INR rings). assert (W : 0 < w) by (apply Rdiv_lt_0_compat; [lra|now apply lt_0_INR]). pose proof PI_RGT_0.
  assert (G : forall x, 0 <= x -> exists n : nat, (INR n - 1) * w <= x < INR n * w).
  { intros x X. assert (Q : 0 <= x / w) by (unfold Rdiv; apply Rmult_le_pos; [exact X|left; now apply Rinv_0_lt_compat]). exists (Z.to_nat (up (x / w))). destruct (archimed (x / w)) as (A & B).
    assert (Z0 : (0 <= up (x / w))%Z) by (apply le_IZR; lra). rewrite INR_IZR_INZ, Z2Nat.id by exact Z0. assert (Ex : x = x / w * w) by (field; lra). split; [rewrite Ex at 2; apply Rmult_le_compat_r; lra|rewrite Ex at 1; apply Rmult_lt_compat_r; lra]. }
  destruct (G (2 * PI * ((inner + outer) / 2)) ltac:(nra)) as (n & N1). destruct (G len ltac:(lra)) as (m & M1). exists n, m. split; [exact N1|exact M1].
Qed.
Print Assumptions C76_counts.

(** ** Every cell on exactly one processor, at its place, with its volume *)
Theorem C76_shares procs h t x y norm : tube_ok procs h t ->
  exists ds, mesh_of procs h t x y norm = Ok ds /\ length ds = procs /\ concat (map gd_ids ds) = seq 0 (tube_cells t) /\ (0 < tube_cells t)%nat.
Proof.
  intros B. pose proof (tube_generates procs h t x y norm B) as G. cbn [tube_axes] in G. destruct G as (hr & ht & hz & _ & _ & _ & _ & _ & Cy & Cz & ds & E & Sp). destruct B as (_ & P & Cx & _).
  exists ds. split; [exact E|]. destruct (shares_ids_c _ _ _ _ Sp) as (A & L). rewrite (shares_total t procs P) in A. rewrite L, app_length, repeat_length. cbn [length]. split; [lia|]. split; [exact A|]. unfold tube_cells. assert (0 < t_rings t * t_rays t)%nat by nia. nia.
Qed.
Print Assumptions C76_shares.

Lemma Rsum_const (c : R) : forall n a (f : nat -> R), (forall k, (a <= k < a + n)%nat -> f k = c) -> Rsum (map f (seq a n)) = INR n * c.
Proof. induction n as [|n IH]; intros a f H; [cbn [seq map INR]; rewrite Rmult_0_l; reflexivity|]. cbn [seq map]. rewrite S_INR. unfold Rsum in *. cbn [fold_right]. rewrite (IH (S a) f) by (intros; apply H; lia). rewrite H by lia. ring. Qed.
Lemma Rsum_block (b : nat) (f : nat -> R) : forall n a, Rsum (map f (seq (a * b) (n * b))) = Rsum (map (fun q => Rsum (map f (seq (q * b) b))) (seq a n)).
Proof.
  induction n as [|n IH]; intros a; [reflexivity|]. cbn [Nat.mul]. rewrite seq_app, map_app, Rsum_app. cbn [seq map]. replace (a * b + b)%nat with (S a * b)%nat by (cbn; lia). rewrite IH. reflexivity.
Qed.
Lemma Rsum_odd (a w : R) : forall n, Rsum (map (fun i => a + (INR i + / 2) * w) (seq 0 n)) = INR n * a + INR n * INR n / 2 * w.
Proof.
  induction n as [|n IH]; [cbn [seq map INR]; rewrite Rmult_0_l; unfold Rsum; cbn [fold_right]; lra|]. rewrite seq_S, map_app, Rsum_app, IH. cbn [map Nat.add]. rewrite S_INR. unfold Rsum. cbn [fold_right]. field.
Qed.
Lemma Rsum_scale (c : R) (l : list R) : Rsum (map (fun v => v * c) l) = Rsum l * c.
Proof. unfold Rsum. induction l as [|v l IH]; cbn [map fold_right]; [ring|]. rewrite IH. ring. Qed.

Lemma sectors_total t : (0 < t_rings t)%nat -> (0 < t_rays t)%nat -> (0 < t_layers t)%nat ->
  Rsum (map (sector_volume t) (seq 0 (tube_cells t))) = PI * (t_outer t * t_outer t - t_inner t * t_inner t) * t_length t.
Proof.
  intros A B C. unfold tube_cells. replace (t_rings t * t_rays t * t_layers t)%nat with (t_rays t * t_layers t * t_rings t)%nat by ring. change 0%nat with (0 * t_rings t)%nat at 1. rewrite Rsum_block.
  set (one := Rsum (map (fun i => t_inner t + (INR i + / 2) * ring_width t) (seq 0 (t_rings t))) * (ring_width t * ray_angle t * layer_height t)).
  rewrite (Rsum_const one).
  - unfold one. rewrite Rsum_odd. rewrite mult_INR. unfold ring_width, ray_angle, layer_height. field. repeat split; apply not_0_INR; lia.
  - intros q _. unfold one. rewrite <- Rsum_scale, map_map. replace (q * t_rings t)%nat with (0 + q * t_rings t)%nat by lia.
    assert (Sh : forall c a n, seq (a + c) n = map (fun i => (i + c)%nat) (seq a n)) by (intros c a n; revert a; induction n as [|n IH]; intros a; [reflexivity|]; cbn; f_equal; apply (IH (S a))).
    rewrite Sh, map_map. f_equal. apply map_ext_in. intros i I. apply in_seq in I. unfold sector_volume, ring_of. rewrite Nat.mod_add, Nat.mod_small by lia. unfold ring_radius. field.
Qed.

Theorem C76_points procs h t x y norm : tube_ok procs h t ->
  exists ds, mesh_of procs h t x y norm = Ok ds /\
    (forall d i n p, In d ds -> nth_error (gd_ids d) i = Some n -> nth_error (gd_points d) i = Some p -> p = place t 0 0 n) /\
    (forall d i n v, In d ds -> nth_error (gd_ids d) i = Some n -> nth_error (gd_volumes d) i = Some v -> v = sector_volume t n) /\
    (forall d, In d ds -> length (gd_points d) = length (gd_ids d) /\ length (gd_volumes d) = length (gd_ids d)) /\
    Rsum (concat (map gd_volumes ds)) = PI * (t_outer t * t_outer t - t_inner t * t_inner t) * t_length t.
Proof.
  intros B. pose proof (tube_generates procs h t x y norm B) as G. cbn [tube_axes] in G. destruct G as (hr & ht & hz & _ & _ & _ & _ & _ & Cy & Cz & ds & E & Sp). destruct B as (_ & P & Cx & (I0 & I1) & L0 & H0 & _).
  exists ds. split; [exact E|]. pose proof (shares_total t procs P) as Tot. set (sh := repeat (tube_cells t / procs)%nat (procs - 1) ++ [(tube_cells t / procs + tube_cells t mod procs)%nat]) in *.
  match type of Sp with shares_spec ?X _ _ _ => set (g := X) in * end.
  split; [|split; [|split]].
  - intros d i n p Id En Ep. apply In_nth_error in Id as (q & Eq). destruct (shares_nth_c g _ _ _ _ _ Sp Eq) as (m & b & _ & (S1 & S2 & S3 & S4 & _) & _ & Fit). rewrite S3 in En. rewrite S4, nth_error_map, En in Ep. cbn in Ep.
    assert (Ep' : p = centre_of g n) by congruence. rewrite Ep'. apply nth_error_In, in_seq in En. rewrite Tot in Fit.
    exact (centre_of_place t h hr ht hz sh norm Cx Cy n ltac:(lia)).
  - intros d i n v Id En Ev. apply In_nth_error in Id as (q & Eq). destruct (shares_nth_c g _ _ _ _ _ Sp Eq) as (m & b & _ & (S1 & S2 & S3 & _ & S5 & _) & _ & Fit). rewrite S3 in En. rewrite S5, nth_error_map, En in Ev. cbn in Ev.
    assert (Ev' : v = vol_of g n) by (injection Ev as <-; reflexivity). rewrite Ev'. apply nth_error_In, in_seq in En. rewrite Tot in Fit.
    exact (vol_sector t h hr ht hz sh norm Cx Cy n ltac:(lia)).
  - intros d Id. apply In_nth_error in Id as (q & Eq). destruct (shares_nth_c g _ _ _ _ _ Sp Eq) as (m & b & _ & (S1 & S2 & S3 & S4 & S5 & _) & _). rewrite S3, S4, S5, !map_length. auto.
  - rewrite <- (sectors_total t Cx Cy Cz), <- Tot.
    assert (Q : forall l a es, shares_spec g a l es -> (a + sum_list l <= tube_cells t)%nat -> Rsum (concat (map gd_volumes es)) = Rsum (map (sector_volume t) (seq a (sum_list l)))).
    { induction l as [|m l IH]; intros a [|d es] H L; try contradiction; [reflexivity|]. destruct H as ((_ & _ & _ & _ & S5 & _) & H). cbn [map concat sum_list fold_right] in *. fold (sum_list l) in *.
      rewrite S5, Rsum_app, (IH _ _ H) by lia. rewrite seq_app, map_app, Rsum_app. apply (f_equal (fun u => u + _)). apply (f_equal Rsum). apply map_ext_in. intros n I. apply in_seq in I. exact (vol_sector t h hr ht hz sh norm Cx Cy n ltac:(lia)). }
    apply (Q _ _ _ Sp). rewrite Tot. lia.
Qed.
Print Assumptions C76_points.

(** "Ring Center x" and "Ring Center y" have no effect: of a ring whose centre is elsewhere than at the
    origin no point is where it should be. *)
Theorem C76_centre_refuted procs h t x y norm : tube_ok procs h t -> (x <> 0 \/ y <> 0) ->
  exists ds, mesh_of procs h t x y norm = Ok ds /\ (exists d, In d ds /\ gd_points d <> []) /\
    forall d i n p, In d ds -> nth_error (gd_ids d) i = Some n -> nth_error (gd_points d) i = Some p -> p <> place t x y n.
Proof.
  intros B D. destruct (C76_points procs h t x y norm B) as (ds & E & Pt & _ & Ln & _). destruct (C76_shares procs h t x y norm B) as (ds' & E' & _ & Ids & Pos). assert (ds' = ds) by (rewrite E in E'; now injection E'). subst ds'.
  exists ds. split; [exact E|]. split.
  - destruct (concat (map gd_ids ds)) as [|n l] eqn:C; [destruct (tube_cells t); [lia|discriminate]|]. assert (I : In n (concat (map gd_ids ds))) by (rewrite C; now left).
    apply in_concat in I as (l1 & I1 & I2). apply in_map_iff in I1 as (d & <- & Id). exists d. split; [exact Id|]. intros Z. destruct (Ln d Id) as (L1 & _). rewrite Z in L1. destruct (gd_ids d); [destruct I2|discriminate].
  - intros d i n p Id En Ep Q. rewrite (Pt d i n p Id En Ep) in Q. unfold place in Q. injection Q as Q1 Q2. rewrite !Rplus_0_r in *.
    assert (X : x = 0) by (apply (Rplus_eq_reg_l _ _ _ (eq_trans (eq_sym Q1) (eq_sym (Rplus_0_r _))))). assert (Y : y = 0) by (apply (Rplus_eq_reg_l _ _ _ (eq_trans (eq_sym Q2) (eq_sym (Rplus_0_r _))))). destruct D; contradiction.
Qed.
Print Assumptions C76_centre_refuted.

(** ** Neighbour lists *)

(** With [ht] the number of rays on each side the code looks at (the horizon in arcs of the mean radius,
    rounded): a list holds the cells within the horizon that are at most [ht] rays away, and each
    once if the rays looked at are different. *)
Theorem C76_lists procs h t ht x y : tube_ok procs h t -> nearest (t_rays t) ht (h / mean_arc t) ->
  exists ds, mesh_of procs h t x y (spherical (N:=RN)) = Ok ds /\ forall d i n, In d ds -> nth_error (gd_ids d) i = Some n ->
    exists ns, listed d i ns /\ (forall m, In m ns <-> within t h n m /\ (rays_apart t (ray_of t n) (ray_of t m) <= ht)%nat) /\
      ((2 * ht + 1 <= t_rays t)%nat -> NoDup ns).
Proof.
  intros B Nh. destruct (tube_lists procs h t ht x y B Nh) as (Cy & ds & E & H). exists ds. split; [exact E|]. intros d i n Id En. destruct (H d i n Id En) as (Ln & ns & Lt & K). exists ns. split; [exact Lt|].
  destruct B as (_ & P & Cx & _). destruct (number_encode t Cx Cy n Ln) as (A & J & C & _). destruct Nh as (Lh & _).
  assert (W : forall m, within t h n m \/ ~ within t h n m).
  { intros m. unfold within. destruct (Nat.lt_ge_cases m (tube_cells t)); [|right; lia]. destruct (Nat.eq_dec m n); [right; tauto|]. destruct (Rlt_dec (distance (place t 0 0 n) (place t 0 0 m)) h); tauto. }
  split.
  - intros m. rewrite (count_occ_In Nat.eq_dec). destruct (K m) as (K1 & K2). destruct (W m) as [V|V].
    + rewrite (K1 V). rewrite <- (count_occ_In Nat.eq_dec). rewrite rays_in; [|exact J| |exact Lh]; [unfold rays_apart; tauto|]. destruct V as (V & _). apply (number_encode t Cx Cy m V).
    + rewrite (K2 V). split; [lia|tauto].
  - intros Q. apply (NoDup_count_occ Nat.eq_dec). intros m. destruct (K m) as (K1 & K2). destruct (W m) as [V|V]; [|rewrite (K2 V); lia]. rewrite (K1 V). apply (NoDup_count_occ Nat.eq_dec), rays_nodup; assumption.
Qed.
Print Assumptions C76_lists.

(** Whenever the innermost cells [ht + 1] rays apart are no nearer than the horizon, or all rays are
    looked at, the lists are complete. *)
Theorem C76_complete procs h t ht x y : tube_ok procs h t -> nearest (t_rays t) ht (h / mean_arc t) ->
  (h <= 2 * ring_radius t 0 * sin ((INR ht + 1) * (PI / INR (t_rays t))) \/ (t_rays t <= 2 * ht + 1)%nat) ->
  exists ds, mesh_of procs h t x y (spherical (N:=RN)) = Ok ds /\ forall d i n, In d ds -> nth_error (gd_ids d) i = Some n ->
    exists ns, listed d i ns /\ (forall m, In m ns <-> within t h n m) /\ ((2 * ht + 1 <= t_rays t)%nat -> NoDup ns).
Proof.
  intros B Nh Far. destruct (tube_lists procs h t ht x y B Nh) as (Cy & ds0 & E0 & Hn). destruct (C76_lists procs h t ht x y B Nh) as (ds & E & H). assert (ds0 = ds) by (rewrite E in E0; now injection E0). subst ds0. clear E0.
  exists ds. split; [exact E|]. intros d i n Id En. destruct (Hn d i n Id En) as (Ln & _). destruct (H d i n Id En) as (ns & Lt & M & D). exists ns. split; [exact Lt|]. split; [|exact D].
  intros m. rewrite M. split; [tauto|]. intros W. split; [exact W|]. destruct B as (_ & P & Cx & (I0 & I1) & L0 & H0 & _).
  apply (within_dot t h H0) in W as (Lm & _ & W). destruct (number_encode t Cx Cy n Ln) as (_ & J & _). destruct (number_encode t Cx Cy m Lm) as (_ & J' & _).
  destruct (apart_sin t (ray_of t n) (ray_of t m) J J') as (S2 & Half). apply Nat.nlt_ge. intros Z. destruct Far as [Far|Far]; [|apply (Rle_not_lt _ _ Half); rewrite <- (mult_INR 2); apply lt_INR; lia].
  rewrite place_distance in W. cbv zeta in S2. rewrite S2 in W. clear S2. set (r1 := ring_radius t (ring_of t n)) in *. set (r2 := ring_radius t (ring_of t m)) in *. set (dd := rays_apart t (ray_of t n) (ray_of t m)) in *.
  set (z := (INR (layer_of t n) - INR (layer_of t m)) * layer_height t) in *. set (w := PI / INR (t_rays t)) in *. pose proof PI_RGT_0 as Pi0. assert (N0 : 0 < INR (t_rays t)) by (now apply lt_0_INR).
  assert (W0 : 0 < w) by (now apply Rdiv_lt_0_compat). assert (WN : INR (t_rays t) * w = PI) by (unfold w; field; lra).
  assert (Z' : INR ht + 1 <= INR dd) by (rewrite <- S_INR; apply le_INR; lia). pose proof (pos_INR ht) as T0.
  assert (Hi : INR dd * w <= PI / 2) by nra. assert (Lo : (INR ht + 1) * w <= INR dd * w) by (apply Rmult_le_compat_r; lra). assert (Lo0 : 0 < (INR ht + 1) * w) by (apply Rmult_lt_0_compat; lra).
  assert (Sn : sin ((INR ht + 1) * w) <= sin (INR dd * w)) by (apply sin_incr_1; lra). assert (Sp : 0 < sin ((INR ht + 1) * w)) by (apply sin_gt_0; lra).
  set (s0 := sin ((INR ht + 1) * w)) in *. set (s := sin (INR dd * w)) in *. pose proof (width_pos t Cx I1) as Wd.
  assert (Rm : forall k, ring_radius t 0 <= ring_radius t k) by (intros k; unfold ring_radius; change (INR 0) with 0; pose proof (pos_INR k); assert (0 <= INR k * ring_width t) by (apply Rmult_le_pos; lra); lra).
  pose proof (Rm (ring_of t n)) as R1. pose proof (Rm (ring_of t m)) as R2. fold r1 in R1. fold r2 in R2. pose proof (radius_pos t Cx I0 I1 0) as R0. set (r0 := ring_radius t 0) in *.
  assert (Q1 : 0 <= (r1 - r2) * (r1 - r2)) by apply Rle_0_sqr. assert (Q2 : 0 <= z * z) by apply Rle_0_sqr.
  assert (Q3 : r0 * r0 <= r1 * r2) by (apply Rmult_le_compat; lra). assert (Q4 : s0 * s0 <= s * s) by (apply Rmult_le_compat; lra). assert (Q5 : r0 * r0 * (s0 * s0) <= r1 * r2 * (s * s)) by (apply Rmult_le_compat; [apply Rmult_le_pos; lra|apply Rmult_le_pos; lra|assumption|assumption]).
  assert (Q6 : h * h <= (2 * r0 * s0) * (2 * r0 * s0)) by (apply Rmult_le_compat; lra).
  apply (Rlt_irrefl (h * h)). eapply Rle_lt_trans; [|exact W]. eapply Rle_trans; [exact Q6|]. replace (2 * r0 * s0 * (2 * r0 * s0)) with (4 * (r0 * r0 * (s0 * s0))) by ring. lra.
Qed.
Print Assumptions C76_complete.

(** Otherwise, if the innermost cells [ht + 1] rays apart are nearer than the horizon, each of the
    innermost cells misses one that lies within the horizon. *)
Theorem C76_missed_refuted procs h t ht x y : tube_ok procs h t -> nearest (t_rays t) ht (h / mean_arc t) ->
  (2 * ht + 2 <= t_rays t)%nat -> 2 * ring_radius t 0 * sin ((INR ht + 1) * (PI / INR (t_rays t))) < h ->
  exists ds, mesh_of procs h t x y (spherical (N:=RN)) = Ok ds /\ forall d i n, In d ds -> nth_error (gd_ids d) i = Some n -> ring_of t n = 0%nat ->
    exists ns m, listed d i ns /\ within t h n m /\ ~ In m ns.
Proof.
  intros B Nh Few Near. destruct (tube_lists procs h t ht x y B Nh) as (Cy & ds0 & E0 & Hn). destruct (C76_lists procs h t ht x y B Nh) as (ds & E & H). assert (ds0 = ds) by (rewrite E in E0; now injection E0). subst ds0. clear E0.
  exists ds. split; [exact E|]. intros d i n Id En R0. destruct (Hn d i n Id En) as (Ln & _). destruct (H d i n Id En) as (ns & Lt & M & _). destruct B as (_ & P & Cx & (I0 & I1) & L0 & H0 & _).
  destruct (number_encode t Cx Cy n Ln) as (_ & J & C & _). set (j' := ((ray_of t n + S ht) mod t_rays t)%nat). assert (J' : (j' < t_rays t)%nat) by (apply Nat.mod_upper_bound; lia).
  set (m := cell_number t 0 j' (layer_of t n)). destruct (lin_decode (t_rings t) (t_rays t) Cx Cy 0 j' (layer_of t n) Cx J') as (D1 & D2 & D3).
  assert (E1 : ring_of t m = 0%nat) by exact D1. assert (E2 : ray_of t m = j') by exact D2. assert (E3 : layer_of t m = layer_of t n) by exact D3.
  assert (Ap : rays_apart t (ray_of t n) j' = S ht).
  { unfold rays_apart. rewrite (apart_mod _ _ _ J J'), (apart_mod _ _ _ J' J). unfold j' in *. destruct (mod_cases (t_rays t) (ray_of t n + S ht) ltac:(lia) ltac:(lia)) as [(A & Q)|[(A & Q)|(A & Q)]]; rewrite Q in *; destruct (Nat.ltb_spec (ray_of t n) j'); unfold j' in *; rewrite ?Q in *; 
      repeat match goal with |- context [(?a <? ?b)%nat] => destruct (Nat.ltb_spec a b) end; lia. }
  exists ns, m. split; [exact Lt|]. split.
  - apply (within_dot t h H0). split; [|split].
    + unfold m, cell_number, tube_cells. assert (j' * t_rings t + t_rings t <= t_rings t * t_rays t)%nat by nia. assert (layer_of t n * (t_rings t * t_rays t) + t_rings t * t_rays t <= t_rings t * t_rays t * t_layers t)%nat by nia. lia.
    + intros Q. rewrite <- Q in Ap at 1. rewrite E2 in Ap. unfold rays_apart in Ap. replace (j' + t_rays t - j')%nat with (t_rays t) in Ap by lia. rewrite Nat.mod_same in Ap by lia. discriminate.
    + rewrite place_distance, E1, E3, R0, E2. destruct (apart_sin t (ray_of t n) j' J J') as (S2 & Half). cbv zeta in S2. rewrite S2, Ap, S_INR. rewrite Ap, S_INR in Half. pose proof (radius_pos t Cx I0 I1 0) as Rp. set (r0 := ring_radius t 0) in *. set (s := sin _) in *.
      assert (Sp : 0 <= s). { unfold s. pose proof PI_RGT_0 as Pi0. pose proof (pos_INR ht). assert (N0 : 0 < INR (t_rays t)) by (now apply lt_0_INR). assert (W0 : 0 < PI / INR (t_rays t)) by (now apply Rdiv_lt_0_compat). assert (WN : INR (t_rays t) * (PI / INR (t_rays t)) = PI) by (field; lra). apply sin_ge_0; nra. }
      assert (Q : (2 * r0 * s) * (2 * r0 * s) < h * h) by (assert (0 <= 2 * r0 * s) by (apply Rmult_le_pos; lra); apply Rmult_le_0_lt_compat; lra).
      match goal with |- ?a < _ => replace a with ((2 * r0 * s) * (2 * r0 * s)) by ring end. exact Q.
  - rewrite M, E2, Ap. intros (_ & Z). lia.
Qed.
Print Assumptions C76_missed_refuted.

(** And if more rays are looked at than there are, those on the ray [ht] rays away are looked at twice:
    every cell there within the horizon is listed at least twice. *)
Theorem C76_repeated_refuted procs h t ht x y : tube_ok procs h t -> nearest (t_rays t) ht (h / mean_arc t) -> (t_rays t < 2 * ht + 1)%nat ->
  exists ds, mesh_of procs h t x y (spherical (N:=RN)) = Ok ds /\ forall d i n m, In d ds -> nth_error (gd_ids d) i = Some n ->
    within t h n m -> ray_of t m = ((ray_of t n + ht) mod t_rays t)%nat -> exists ns, listed d i ns /\ (2 <= count_occ Nat.eq_dec ns m)%nat.
Proof.
  intros B Nh Many. destruct (tube_lists procs h t ht x y B Nh) as (Cy & ds & E & H). exists ds. split; [exact E|]. intros d i n m Id En W Er. destruct (H d i n Id En) as (Ln & ns & Lt & K). exists ns. split; [exact Lt|].
  destruct B as (_ & P & Cx & _). destruct (number_encode t Cx Cy n Ln) as (_ & J & _). rewrite (proj1 (K m) W), Er. destruct Nh as (Lh & _). now apply rays_twice.
Qed.
Print Assumptions C76_repeated_refuted.

(** ** Examples *)
Lemma PI_about : 3 < PI < 7 / 2.
Proof. pose proof (PI_ineq 3) as (A & B). unfold PI_tg, tg_alt in A, B. cbn in A, B. lra. Qed.

Ltac tube_numbers := cbn [t_inner t_outer t_length t_bottom t_rings t_rays t_layers INR Nat.mul Nat.add].
(** A solid cylinder of one ring: four rays, two to each side are looked at, that opposite twice *)
Definition solid := Tube 0 1 1 0 1 4 2.
Example C76_solid : tube_ok 2 (3 / 2) solid /\ nearest (t_rays solid) 2 (3 / 2 / mean_arc solid) /\ (t_rays solid < 2 * 2 + 1)%nat /\
  within solid (3 / 2) 0 2 /\ ray_of solid 2 = ((ray_of solid 0 + 2) mod t_rays solid)%nat.
Proof.
  pose proof PI_about as (P1 & P2).
  assert (W : ring_width solid = 1) by (unfold ring_width, solid; tube_numbers; lra). assert (M : mean_radius solid = / 2) by (unfold mean_radius, solid; tube_numbers; lra).
  assert (A : ray_angle solid = PI / 2) by (unfold ray_angle, solid; tube_numbers; lra). assert (L : layer_height solid = / 2) by (unfold layer_height, solid; tube_numbers; lra).
  assert (Ar : mean_arc solid = PI / 4) by (unfold mean_arc; rewrite A, M; lra).
  assert (Iv : / PI < / 3 /\ / (7 / 2) < / PI) by (split; apply Rinv_lt_contravar; nra). assert (Q : 3 / 2 / (PI / 4) = 6 * / PI) by (field; lra). assert (Q' : 3 / 2 / (PI / 2) = 3 * / PI) by (field; lra).
  split; [|split; [|split; [|split]]].
  - unfold tube_ok, sized. rewrite W, M, A, L, Ar, Q, Q'. unfold solid. tube_numbers. unfold tube_cells. tube_numbers. unfold int_max. repeat split; try lra; try lia.
  - rewrite Ar, Q. unfold nearest, solid. tube_numbers. split; [lia|]. split; [lra|left; lra].
  - cbn. lia.
  - apply within_dot; [lra|]. split; [cbn; lia|]. split; [lia|]. rewrite place_distance.
    change (ring_of solid 0) with 0%nat. change (ring_of solid 2) with 0%nat. change (ray_of solid 0) with 0%nat. change (ray_of solid 2) with 2%nat. change (layer_of solid 0) with 0%nat. change (layer_of solid 2) with 0%nat.
    assert (R0 : ring_radius solid 0 = / 2) by (unfold ring_radius; rewrite W; unfold solid; tube_numbers; lra). rewrite R0. set (s := sin _). assert (s * s <= 1) by (pose proof (SIN_bound ((INR 0 - INR 2) * (ray_angle solid / 2))); fold s in H; nra). lra.
  - reflexivity.
Qed.

(** A solid cylinder of two rings: seven rays, one to each side is looked at, and those two away are
    nearer than the horizon in the inner ring *)
Definition discs := Tube 0 2 1 0 2 7 2.
Example C76_discs : tube_ok 3 (5 / 4) discs /\ nearest (t_rays discs) 1 (5 / 4 / mean_arc discs) /\ (2 * 1 + 2 <= t_rays discs)%nat /\
  2 * ring_radius discs 0 * sin ((INR 1 + 1) * (PI / INR (t_rays discs))) < 5 / 4.
Proof.
  pose proof PI_about as (P1 & P2).
  assert (W : ring_width discs = 1) by (unfold ring_width, discs; tube_numbers; lra). assert (M : mean_radius discs = 1) by (unfold mean_radius, discs; tube_numbers; lra).
  assert (A : ray_angle discs = 2 * PI / 7) by (unfold ray_angle, discs; tube_numbers; lra). assert (L : layer_height discs = / 2) by (unfold layer_height, discs; tube_numbers; lra).
  assert (Ar : mean_arc discs = 2 * PI / 7) by (unfold mean_arc; rewrite A, M; lra).
  assert (Iv : / PI < / 3 /\ / (7 / 2) < / PI) by (split; apply Rinv_lt_contravar; nra). assert (Q : 5 / 4 / (2 * PI / 7) = 35 / 8 * / PI) by (field; lra).
  split; [|split; [|split]].
  - unfold tube_ok, sized. rewrite W, M, Ar, A, L, Q. unfold discs. tube_numbers. unfold tube_cells. tube_numbers. unfold int_max. repeat split; try lra; try lia.
  - rewrite Ar, Q. unfold nearest, discs. tube_numbers. split; [lia|]. split; [lra|left; lra].
  - cbn. lia.
  - assert (R0 : ring_radius discs 0 = / 2) by (unfold ring_radius; rewrite W; unfold discs; tube_numbers; lra). rewrite R0. match goal with |- context [sin ?x] => pose proof (SIN_bound x) end. lra.
Qed.

(** A tube whose lists are complete *)
Definition pipe := Tube (/ 2) (3 / 2) 1 0 1 7 2.
Example C76_pipe : tube_ok 2 (9 / 10) pipe /\ nearest (t_rays pipe) 1 (9 / 10 / mean_arc pipe) /\
  9 / 10 <= 2 * ring_radius pipe 0 * sin ((INR 1 + 1) * (PI / INR (t_rays pipe))) /\ (2 * 1 + 1 <= t_rays pipe)%nat.
Proof.
  pose proof PI_about as (P1 & P2).
  assert (W : ring_width pipe = 1) by (unfold ring_width, pipe; tube_numbers; lra). assert (M : mean_radius pipe = 1) by (unfold mean_radius, pipe; tube_numbers; lra).
  assert (A : ray_angle pipe = 2 * PI / 7) by (unfold ray_angle, pipe; tube_numbers; lra). assert (L : layer_height pipe = / 2) by (unfold layer_height, pipe; tube_numbers; lra).
  assert (Ar : mean_arc pipe = 2 * PI / 7) by (unfold mean_arc; rewrite A, M; lra).
  assert (Iv : / PI < / 3 /\ / (7 / 2) < / PI) by (split; apply Rinv_lt_contravar; nra). assert (Q : 9 / 10 / (2 * PI / 7) = 63 / 20 * / PI) by (field; lra).
  split; [|split; [|split]].
  - unfold tube_ok, sized. rewrite W, M, Ar, A, L, Q. unfold pipe. tube_numbers. unfold tube_cells. tube_numbers. unfold int_max. repeat split; try lra; try lia.
  - rewrite Ar, Q. unfold nearest, pipe. tube_numbers. split; [lia|]. split; [lra|left; lra].
  - assert (R0 : ring_radius pipe 0 = 1) by (unfold ring_radius; rewrite W; unfold pipe; tube_numbers; lra). rewrite R0. unfold pipe. tube_numbers.
    assert (S1 : sin (PI / 6) <= sin ((1 + 1) * (PI / (1 + 1 + 1 + 1 + 1 + 1 + 1)))) by (apply sin_incr_1; lra). rewrite sin_PI6 in S1. lra.
  - cbn. lia.
Qed.
