(** * C27, C28: tensor product meshes; C58: their distribution *)
From Coq Require Import Reals Lra Lia Psatz.
From Verif Require Import Base Num ModelExplicit ModelScalar ModelGrid ModelDistribute SpecGeom SpecGlobal SpecGrid ProofGlobal ProofGrid ProofGrid2 ProofDistribute ProofDistribute2.

(** ** C27: every cell exactly once *)

Lemma hcells_bound h n i : hcells h n i <= 2 * h + 1.
Proof. unfold hcells, hend, hstart. destruct (Nat.ltb_spec i (n - h)), (Nat.ltb_spec h i); lia. Qed.

Lemma horizon_le {N : Num} (truncate : N -> option nat) s r h : cell_horizon truncate s r = Ok h -> h <= cells s.
Proof. unfold cell_horizon. destruct (truncate _); [|discriminate]. intros E. injection E as <-. match goal with |- context [(cells s <? ?k)%nat] => destruct (Nat.ltb_spec (cells s) k) end; lia. Qed.

Lemma generate_ok {N : Num} (truncate : N -> option nat) procs radius (sx sy sz : spec1 N) norm hx hy hz :
  0 < procs -> 0 < cells sx -> 0 < cells sy -> 0 < cells sz ->
  cell_horizon truncate sx radius = Ok hx -> cell_horizon truncate sy radius = Ok hy -> cell_horizon truncate sz radius = Ok hz ->
  (Z.of_nat (cells sx * cells sy * cells sz * ((2 * hx + 1) * (2 * hy + 1) * (2 * hz + 1))) <= int_max)%Z ->
  let n := cells sx * cells sy * cells sz in
  let shares := repeat (n / procs) (procs - 1) ++ [n / procs + n mod procs] in
  let g := {| g_norm := norm; g_radius := radius; g_sx := sx; g_sy := sy; g_sz := sz; g_hx := hx; g_hy := hy; g_hz := hz; g_shares := shares |} in
  exists ds, generate truncate procs radius sx sy sz norm = Ok ds /\ shares_spec g 0 shares ds.
Proof.
  intros P X Y Z0 Ex Ey Ez Small n shares g. unfold generate, make_generator. rewrite Ex, Ey, Ez. cbn [bind]. fold n.
  assert (Sn : (Z.of_nat n <= int_max)%Z) by (fold n in Small; nia).
  destruct procs as [|p]; [lia|]. rewrite (per_processor p n Sn). cbn [bind].
  assert (Es : shares = repeat (n / S p) p ++ [n / S p + n mod S p]) by (unfold shares; replace (S p - 1) with p by lia; reflexivity).
  unfold all_shares. rewrite <- Es. fold g.
  destruct (remaining_ok g X Y (horizon_le _ _ _ _ Ex) (horizon_le _ _ _ _ Ey) (horizon_le _ _ _ _ Ez) shares [] (Cell 0 0 0) 0) as (ds & E & Sp); auto.
  - intros m I. change (g_shares g) with shares in *. rewrite Es in *. now apply last_biggest.
  - rewrite Es, sum_shares. cbn. fold n. lia.
  - assert (T : forall k a, total (room_of g) a k + k <= k * ((2 * hx + 1) * (2 * hy + 1) * (2 * hz + 1))).
    { induction k as [|k IH]; intros a; [cbn; lia|]. cbn [total]. specialize (IH (S a)).
      assert (Q : room_of g a + 1 <= (2 * hx + 1) * (2 * hy + 1) * (2 * hz + 1)).
      { unfold room_of, num_neighbors. cbn [g_hx g_hy g_hz g_sx g_sy g_sz g].
        pose proof (hcells_bound hx (cells sx) (cx (cells sx) a)). pose proof (hcells_bound hy (cells sy) (cy (cells sx) (cells sy) a)). pose proof (hcells_bound hz (cells sz) (cz (cells sx) (cells sy) a)).
        set (a1 := hcells hx (cells sx) (cx (cells sx) a)) in *. set (a2 := hcells hy (cells sy) (cy (cells sx) (cells sy) a)) in *. set (a3 := hcells hz (cells sz) (cz (cells sx) (cells sy) a)) in *.
        assert (a1 * a2 * a3 <= (2 * hx + 1) * (2 * hy + 1) * (2 * hz + 1)) by (apply Nat.mul_le_mono; [apply Nat.mul_le_mono; assumption|assumption]).
        assert (0 < (2 * hx + 1) * (2 * hy + 1) * (2 * hz + 1)) by nia. lia. }
      cbn [Nat.mul]. lia. }
    change (cells (g_sx g)) with (cells sx). change (cells (g_sy g)) with (cells sy). change (cells (g_sz g)) with (cells sz). fold n. fold n in Small. specialize (T n 0). lia.
  - exists ds. split; [|exact Sp]. change (length (g_shares g)) with (length shares). exact E.
Qed.

Lemma shares_ids {N : Num} (g : generator N) : forall l a ds, shares_spec g a l ds -> concat (map gd_ids ds) = seq a (sum_list l) /\ length ds = length l.
Proof.
  induction l as [|m l IH]; intros a [|d ds] H; try contradiction; [split; reflexivity|]. destruct H as ((_ & _ & E & _) & H). destruct (IH _ _ H) as (A & B).
  cbn. rewrite A, B, E. unfold sum_list. cbn [fold_right]. rewrite <- seq_app. split; reflexivity.
Qed.
Lemma shares_nth {N : Num} (g : generator N) : forall l a ds p d, shares_spec g a l ds -> nth_error ds p = Some d ->
  exists m b, nth_error l p = Some m /\ share_spec g b m d /\ a <= b /\ b + m <= a + sum_list l.
Proof.
  induction l as [|m l IH]; intros a [|d0 ds] p d H E; try contradiction; [destruct p; discriminate|]. destruct H as (S0 & H). destruct p as [|p]; cbn in E.
  - injection E as <-. exists m, a. cbn. split; [reflexivity|]. split; [exact S0|]. fold (sum_list l). lia.
  - destruct (IH _ _ _ _ H E) as (m' & b & A & B & C & D). exists m', b. cbn. fold (sum_list l). split; [exact A|]. split; [exact B|]. lia.
Qed.
Lemma shares_size n procs p m : 0 < procs -> nth_error (repeat (n / procs) (procs - 1) ++ [n / procs + n mod procs]) p = Some m ->
  m = n / procs + (if Nat.eqb (S p) procs then n mod procs else 0).
Proof.
  intros P E. destruct (Nat.lt_ge_cases p (procs - 1)) as [L|L].
  - rewrite nth_error_app1 in E by (rewrite repeat_length; lia). apply nth_error_In, repeat_spec in E. destruct (Nat.eqb_spec (S p) procs); lia.
  - rewrite nth_error_app2, repeat_length in E by (rewrite repeat_length; lia). destruct (p - (procs - 1)) as [|q] eqn:Q; [|destruct q; discriminate]. cbn in E. injection E as <-.
    destruct (Nat.eqb_spec (S p) procs); lia.
Qed.

(** Over any numbers (the reals or binary64), for every norm and every number of processors: all shares
    are computed, no array is overrun, and the shares hold the cells 0, 1, 2, ... in order, each once. *)
Theorem C27_shares (N : Num) (truncate : N -> option nat) (procs : nat) (radius : N) (sx sy sz : spec1 N) norm hx hy hz :
  0 < procs -> 0 < cells sx -> 0 < cells sy -> 0 < cells sz ->
  cell_horizon truncate sx radius = Ok hx -> cell_horizon truncate sy radius = Ok hy -> cell_horizon truncate sz radius = Ok hz ->
  (Z.of_nat (cells sx * cells sy * cells sz * ((2 * hx + 1) * (2 * hy + 1) * (2 * hz + 1))) <= int_max)%Z ->
  exists ds, generate truncate procs radius sx sy sz norm = Ok ds /\ length ds = procs /\
    concat (map gd_ids ds) = seq 0 (cells sx * cells sy * cells sz) /\
    forall p d, nth_error ds p = Some d ->
      gd_num d = cells sx * cells sy * cells sz / procs + (if Nat.eqb (S p) procs then (cells sx * cells sy * cells sz) mod procs else 0) /\
      gd_global d = cells sx * cells sy * cells sz /\
      length (gd_ids d) = gd_num d /\ length (gd_points d) = gd_num d /\ length (gd_volumes d) = gd_num d /\ length (gd_ptr d) = gd_num d /\ length (gd_list d) = gd_size d.
Proof.
  intros P X Y Z0 Ex Ey Ez Small. destruct (generate_ok truncate procs radius sx sy sz norm hx hy hz P X Y Z0 Ex Ey Ez Small) as (ds & E & Sp). cbv zeta in Sp.
  exists ds. split; [exact E|]. destruct (shares_ids _ _ _ _ Sp) as (A & B). split; [rewrite B, app_length, repeat_length; cbn; lia|]. split.
  - rewrite A. f_equal. destruct procs as [|p]; [lia|]. replace (S p - 1) with p by lia. apply sum_shares.
  - intros p d Ed. destruct (shares_nth _ _ _ _ _ _ Sp Ed) as (m & b & Em & (S1 & S2 & S3 & S4 & S5 & S6 & S7 & S8) & _). rewrite S2, S3, S4, S5, S7, S8. rewrite seq_length, map_length, seq_length, repeat_length.
    unfold offsets. rewrite map_length, seq_length. repeat split; auto. apply shares_size in Em; auto.
Qed.
Print Assumptions C27_shares.

Local Open Scope R_scope.

(** What the input must satisfy over the reals: a box with positive lengths, a horizon, and a mesh small
    enough for numbers of type int. *)
Definition box_ok (procs : nat) (r : R) (ax ay az : axis) : Prop :=
  (0 < procs)%nat /\ (0 < cells ax)%nat /\ (0 < cells ay)%nat /\ (0 < cells az)%nat /\ 0 < x_length ax /\ 0 < x_length ay /\ 0 < x_length az /\ 0 <= r /\
  INR (num_cells ax ay az) * ((2 * (r / spacing ax) + 2) * (2 * (r / spacing ay) + 2) * (2 * (r / spacing az) + 2)) <= IZR int_max.

Lemma spacing_pos (a : axis) : (0 < cells a)%nat -> 0 < x_length a -> 0 < spacing a.
Proof. intros C L. apply Rdiv_lt_0_compat; [exact L|apply lt_0_INR; lia]. Qed.
Lemma ratio_nonneg r s : 0 <= r -> 0 < s -> 0 <= r / s.
Proof. intros. unfold Rdiv. assert (0 < / s) by (now apply Rinv_0_lt_compat). nra. Qed.

Lemma box_generates procs r ax ay az norm : box_ok procs r ax ay az ->
  exists hx hy hz, 
    ((hx <= cells ax)%nat /\ (hy <= cells ay)%nat /\ (hz <= cells az)%nat) /\
    ((forall m : nat, (m < cells ax)%nat -> INR m * spacing ax < r -> (m <= hx)%nat) /\
     (forall m : nat, (m < cells ay)%nat -> INR m * spacing ay < r -> (m <= hy)%nat) /\
     (forall m : nat, (m < cells az)%nat -> INR m * spacing az < r -> (m <= hz)%nat)) /\
    (cell_horizon (N:=RN) whole_part ax r = Ok hx /\ cell_horizon (N:=RN) whole_part ay r = Ok hy /\ cell_horizon (N:=RN) whole_part az r = Ok hz) /\
    (Z.of_nat (cells ax * cells ay * cells az * ((2 * hx + 1) * (2 * hy + 1) * (2 * hz + 1))) <= int_max)%Z /\
    exists ds, generate (N:=RN) whole_part procs r ax ay az norm = Ok ds /\
      shares_spec {| g_norm := norm; g_radius := r; g_sx := ax; g_sy := ay; g_sz := az; g_hx := hx; g_hy := hy; g_hz := hz;
                     g_shares := repeat (num_cells ax ay az / procs)%nat (procs - 1) ++ [(num_cells ax ay az / procs + num_cells ax ay az mod procs)%nat] |} 0
        (repeat (num_cells ax ay az / procs)%nat (procs - 1) ++ [(num_cells ax ay az / procs + num_cells ax ay az mod procs)%nat]) ds.
Proof.
  intros (P & Cx & Cy & Cz & Lx & Ly & Lz & R0 & Small).
  pose proof (ratio_nonneg r _ R0 (spacing_pos ax Cx Lx)) as Qx. pose proof (ratio_nonneg r _ R0 (spacing_pos ay Cy Ly)) as Qy. pose proof (ratio_nonneg r _ R0 (spacing_pos az Cz Lz)) as Qz.
  set (qx := r / spacing ax) in *. set (qy := r / spacing ay) in *. set (qz := r / spacing az) in *.
  assert (N1 : 1 <= INR (num_cells ax ay az)) by (change 1 with (INR 1); apply le_INR; unfold num_cells; nia).
  assert (I : IZR int_max < 2 ^ 31) by (unfold int_max; lra).
  assert (Pr : (2 * qx + 2) * (2 * qy + 2) * (2 * qz + 2) <= IZR int_max).
  { assert (0 <= (2 * qx + 2) * (2 * qy + 2) * (2 * qz + 2)) by (repeat apply Rmult_le_pos; lra). nra. }
  assert (Bx : qx < 2 ^ 64 /\ qy < 2 ^ 64 /\ qz < 2 ^ 64).
  { assert (H1 : (2 * qx + 2) * 4 <= (2 * qx + 2) * (2 * qy + 2) * (2 * qz + 2)) by (rewrite Rmult_assoc; apply Rmult_le_compat_l; [lra|]; nra).
    assert (H2 : (2 * qy + 2) * 4 <= (2 * qx + 2) * (2 * qy + 2) * (2 * qz + 2)) by (replace ((2 * qx + 2) * (2 * qy + 2) * (2 * qz + 2)) with ((2 * qy + 2) * ((2 * qx + 2) * (2 * qz + 2))) by ring; apply Rmult_le_compat_l; [lra|]; nra).
    assert (H3 : (2 * qz + 2) * 4 <= (2 * qx + 2) * (2 * qy + 2) * (2 * qz + 2)) by (replace ((2 * qx + 2) * (2 * qy + 2) * (2 * qz + 2)) with ((2 * qz + 2) * ((2 * qx + 2) * (2 * qy + 2))) by ring; apply Rmult_le_compat_l; [lra|]; nra).
    repeat split; lra. }
  destruct Bx as (Bx & By & Bz).
  destruct (horizon_spec ax r Cx Lx R0 Bx) as (hx & Ex & Hx & Ux & Fx). destruct (horizon_spec ay r Cy Ly R0 By) as (hy & Ey & Hy & Uy & Fy). destruct (horizon_spec az r Cz Lz R0 Bz) as (hz & Ez & Hz & Uz & Fz).
  fold qx in Ux. fold qy in Uy. fold qz in Uz.
  exists hx, hy, hz. split; [auto|]. split; [auto|]. split; [auto|].
  assert (Sm : (Z.of_nat (cells ax * cells ay * cells az * ((2 * hx + 1) * (2 * hy + 1) * (2 * hz + 1))) <= int_max)%Z).
  { apply le_IZR. rewrite <- INR_IZR_INZ. eapply Rle_trans; [|exact Small]. rewrite mult_INR. apply Rmult_le_compat_l; [lra|]. rewrite !mult_INR, !plus_INR, !mult_INR. change (INR 1) with 1. change (INR 2) with 2.
    pose proof (pos_INR hx). pose proof (pos_INR hy). pose proof (pos_INR hz).
    apply Rmult_le_compat; [apply Rmult_le_pos; lra|lra|apply Rmult_le_compat; lra|lra]. }
  split; [exact Sm|]. exact (generate_ok (N:=RN) whole_part procs r ax ay az norm hx hy hz P Cx Cy Cz Ex Ey Ez Sm).
Qed.

(** Each point lies at the centre of its cell, and the equal volumes add up to the volume of the box. *)
Theorem C27_points (procs : nat) (r : R) (ax ay az : axis) norm : box_ok procs r ax ay az ->
  exists ds, generate (N:=RN) whole_part procs r ax ay az norm = Ok ds /\
    (forall d i n p, In d ds -> nth_error (gd_ids d) i = Some n -> nth_error (gd_points d) i = Some p -> p = cell_centre ax ay az n) /\
    (forall d v, In d ds -> In v (gd_volumes d) -> v = spacing ax * spacing ay * spacing az) /\
    Rsum (concat (map gd_volumes ds)) = x_length ax * x_length ay * x_length az.
Proof.
  intros B. destruct (box_generates procs r ax ay az norm B) as (hx & hy & hz & _ & _ & _ & _ & ds & E & Sp). destruct B as (P & Cx & Cy & Cz & Lx & Ly & Lz & R0 & _).
  exists ds. split; [exact E|]. set (sh := repeat (num_cells ax ay az / procs)%nat (procs - 1) ++ [(num_cells ax ay az / procs + num_cells ax ay az mod procs)%nat]) in *.
  assert (Tot : sum_list sh = num_cells ax ay az) by (unfold sh; destruct procs as [|p]; [lia|]; replace (S p - 1)%nat with p by lia; apply sum_shares).
  set (g := {| g_norm := norm; g_radius := r; g_sx := ax; g_sy := ay; g_sz := az; g_hx := hx; g_hy := hy; g_hz := hz; g_shares := sh |}) in *.
  assert (Vol : vol g = spacing ax * spacing ay * spacing az) by (unfold vol; cbn [g_sx g_sy g_sz g]; rewrite !spacing_eq; reflexivity).
  split; [|split].
  - intros d i n p Id En Ep. apply In_nth_error in Id as (q & Eq). destruct (shares_nth g _ _ _ _ _ Sp Eq) as (m & b & _ & (S1 & S2 & S3 & S4 & _) & _ & Fit). rewrite S3 in En. rewrite S4, nth_error_map, En in Ep. cbn in Ep.
    assert (Ep' : p = centre_of g n) by congruence. rewrite Ep'. apply nth_error_In, in_seq in En. rewrite Tot in Fit.
    pose proof (centre_of_exact ax ay az r hx hy hz sh Cx Cy n ltac:(unfold num_cells in *; lia)) as Ce. exact Ce.
  - intros d v Id Iv. apply In_nth_error in Id as (q & Eq). destruct (shares_nth g _ _ _ _ _ Sp Eq) as (m & b & _ & (_ & _ & _ & _ & S5 & _) & _). rewrite S5 in Iv. apply repeat_spec in Iv. rewrite Iv. exact Vol.
  - assert (G : forall l a es, shares_spec g a l es -> Rsum (concat (map gd_volumes es)) = INR (sum_list l) * (spacing ax * spacing ay * spacing az)).
    { induction l as [|m l IH]; intros a [|d es] H; try contradiction; [cbn [map concat Rsum fold_right sum_list INR]; rewrite Rmult_0_l; reflexivity|]. destruct H as ((_ & _ & _ & _ & S5 & _) & H). cbn [map concat]. rewrite S5, Rsum_app, (IH _ _ H).
      cbn [sum_list fold_right]. fold (sum_list l). rewrite plus_INR.
      assert (Rp : forall k, Rsum (repeat (vol g) k) = INR k * (spacing ax * spacing ay * spacing az)).
      { induction k as [|k IHk]; [cbn [repeat Rsum fold_right INR]; rewrite Rmult_0_l; reflexivity|]. cbn [repeat]. rewrite S_INR. refine (eq_trans (f_equal (Rplus (vol g)) IHk) _). rewrite Vol. ring. }
      rewrite Rp. ring. }
    rewrite (G _ _ _ Sp), Tot. unfold num_cells, spacing. rewrite !mult_INR. field. repeat split; apply not_0_INR; lia.
Qed.
Print Assumptions C27_points.

(** ** C28: neighbour lists *)

(** The entry of a cell, found through the pointers, is its number of neighbours followed by the
    numbers of all other cells whose centre lies strictly within the horizon, in ascending order. *)
Theorem C28_lists (procs : nat) (r : R) (ax ay az : axis) : box_ok procs r ax ay az ->
  exists ds, generate (N:=RN) whole_part procs r ax ay az (spherical (N:=RN)) = Ok ds /\
    forall d i n, In d ds -> nth_error (gd_ids d) i = Some n ->
      exists offset ns near, nth_error (gd_ptr d) i = Some offset /\
        firstn (S (length ns)) (skipn offset (gd_list d)) = length ns :: ns /\ (offset + S (length ns) <= gd_size d)%nat /\
        ns = List.filter near (seq 0 (num_cells ax ay az)) /\
        (forall m, near m = true <-> m <> n /\ distance (cell_centre ax ay az n) (cell_centre ax ay az m) < r).
Proof.
  intros B. destruct (box_generates procs r ax ay az (spherical (N:=RN)) B) as (hx & hy & hz & (Hx & Hy & Hz) & (Fx & Fy & Fz) & _ & _ & ds & E & Sp). destruct B as (P & Cx & Cy & Cz & Lx & Ly & Lz & R0 & _).
  exists ds. split; [exact E|]. set (sh := repeat (num_cells ax ay az / procs)%nat (procs - 1) ++ [(num_cells ax ay az / procs + num_cells ax ay az mod procs)%nat]) in *.
  assert (Tot : sum_list sh = num_cells ax ay az) by (unfold sh; destruct procs as [|p]; [lia|]; replace (S p - 1)%nat with p by lia; apply sum_shares).
  set (g := {| g_norm := spherical (N:=RN); g_radius := r; g_sx := ax; g_sy := ay; g_sz := az; g_hx := hx; g_hy := hy; g_hz := hz; g_shares := sh |}) in *.
  intros d i n Id En. apply In_nth_error in Id as (q & Eq). destruct (shares_nth g _ _ _ _ _ Sp Eq) as (m & b & _ & (S1 & S2 & S3 & S4 & S5 & S6 & S7 & S8) & _ & Fit). rewrite Tot in Fit. cbn in Fit.
  rewrite S3 in En. assert (Li : (i < m)%nat) by (rewrite <- (seq_length m b); apply nth_error_Some; congruence).
  assert (En' : n = (b + i)%nat) by (rewrite (nth_error_nth' _ 0%nat), seq_nth in En by (rewrite ?seq_length; lia); congruence).
  exists (length (flat_map (entry_of g) (seq b i))), (nb_of g n), (is_near ax ay az r n). rewrite S8, S6 in *.
  assert (Spl : flat_map (entry_of g) (seq b m) = flat_map (entry_of g) (seq b i) ++ entry_of g n ++ flat_map (entry_of g) (seq (S n) (m - i - 1))).
  { replace m with (i + S (m - i - 1))%nat at 1 by lia. rewrite seq_app, flat_map_app. cbn [seq flat_map]. rewrite <- En'. reflexivity. }
  split; [|split; [|split; [|split]]].
  - unfold offsets. rewrite nth_error_map, (nth_error_nth' _ 0%nat), seq_nth by (rewrite ?seq_length; lia). reflexivity.
  - rewrite Spl, skipn_app, skipn_all, Nat.sub_diag. cbn [app skipn]. unfold entry_of at 1. rewrite firstn_app. change (length (nb_of g n) :: nb_of g n) with ([length (nb_of g n)] ++ nb_of g n).
    cbn [app length]. rewrite Nat.sub_diag. cbn [firstn]. rewrite firstn_all, app_nil_r. reflexivity.
  - rewrite S7, Spl, !app_length. unfold entry_of at 3. cbn [length]. lia.
  - apply (nb_exact ax ay az r hx hy hz sh Cx Cy (spacing_pos ax Cx Lx) (spacing_pos ay Cy Ly) (spacing_pos az Cz Lz) R0 Hx Hy Hz Fx Fy Fz). lia.
  - intros k. apply is_near_spec, R0.
Qed.
Print Assumptions C28_lists.

(** A mesh with more list entries than an int holds: the size of the list is converted to int. *)
Theorem C28_large_refuted (N : Num) (g : generator N) (proc mine cap : nat) (loc : cell3) :
  at_ub (g_shares g) proc = Ok mine -> at_ub (g_shares g) (length (g_shares g) - 1) = Ok cap ->
  (int_max < Z.of_nat mine)%Z -> compute_share g proc loc = UB.
Proof.
  intros Em Ec Big. unfold compute_share. rewrite Em, Ec. cbn [bind].
  assert (Le : forall s m (f i j k : nat), (z_size s <= z_size (size_i g f m i j k s))%nat).
  { intros s m f. revert s. induction f as [|f IH]; intros s i j k; cbn [size_i]; [lia|]. destruct (_ <? _)%nat; [|lia]. etransitivity; [|apply IH]. cbn. lia. }
  assert (Lj : forall m f j k s, (z_size s <= z_size (size_j g f m j k s))%nat).
  { induction f as [|f IH]; intros j k s; cbn [size_j]; [lia|]. etransitivity; [|apply IH]. etransitivity; [|apply Le]. cbn. lia. }
  assert (Lk : forall m f k s, (z_size s <= z_size (size_k g f m k s))%nat).
  { induction f as [|f IH]; intros k s; cbn [size_k]; [lia|]. etransitivity; [|apply IH]. apply Lj. }
  assert (L : (mine <= size_neighbor_list g mine loc)%nat) by (unfold size_neighbor_list; etransitivity; [|apply Lk]; cbn; lia).
  unfold to_int. destruct (Z.leb_spec (Z.of_nat (size_neighbor_list g mine loc)) int_max); [lia|]. reflexivity.
Qed.
Print Assumptions C28_large_refuted.

(** ** C58: distribution *)
Local Open Scope nat_scope.

(** With a share for every processor (at least one cell each): whatever is buffered and in whatever
    order the processors run, no state is stuck, at most 20 steps per processor are taken, and when no
    step is left every processor has returned exactly its share and no message is left. *)
Theorem C58_distribution (N : Num) (first : grid_data N) (rest : list (grid_data N)) :
  (forall d, In d rest -> consistent d) ->
  forall k s, steps k (start first rest) s ->
    k <= 20 * length rest /\
    ((exists s', delivery s s') \/
     (prog s 0 = Done (Some first) /\ (forall p d, nth_error rest p = Some d -> prog s (S p) = Done (Some d)) /\
      forall a b, a <= length rest -> b <= length rest -> chan s a b = [])).
Proof.
  intros C k s H. destruct (steps_inv _ _ _ _ _ k s (start_inv first rest C) H) as (L & B & I & W). rewrite work_start in W. split; [lia|].
  destruct (progress _ _ L B s I) as [D|(-> & D)]; [now left|]. right. destruct I as (I0 & I1 & I2 & I3 & I4 & I5). split; [exact I1|]. split.
  - intros p d E. assert (Lp : p < length rest) by (apply nth_error_Some; congruence). destruct (I2 (S p) ltac:(lia)) as (P1 & _). destruct (D (S p) ltac:(lia)) as (E1 & _). rewrite E1 in P1. cbn in P1. rewrite E in P1. exact P1.
  - intros a b Ha Hb. destruct a as [|a], b as [|b]; auto; apply D; lia.
Qed.
Print Assumptions C58_distribution.

(** For tensor product meshes: with at least as many cells as processors the shares can be distributed. *)
Theorem C58_meshes (procs : nat) (r : R) (ax ay az : axis) norm : box_ok procs r ax ay az -> procs <= num_cells ax ay az ->
  exists first rest, generate (N:=RN) whole_part procs r ax ay az norm = Ok (first :: rest) /\ S (length rest) = procs /\ forall d, In d rest -> consistent d.
Proof.
  intros B L. destruct (box_generates procs r ax ay az norm B) as (hx & hy & hz & _ & _ & (Ex & Ey & Ez) & Sm & _). destruct B as (P & Cx & Cy & Cz & _).
  destruct (C27_shares RN whole_part procs r ax ay az norm hx hy hz P Cx Cy Cz Ex Ey Ez Sm) as (ds & E & Ld & _ & H). destruct ds as [|first rest]; [cbn in Ld; lia|].
  exists first, rest. split; [exact E|]. split; [exact Ld|]. intros d I. apply In_nth_error in I as (p & Ep). destruct (H (S p) d Ep) as (H1 & H2 & H3 & H4 & H5 & H6 & H7). unfold consistent.
  assert (0 < num_cells ax ay az / procs) by (apply Nat.div_str_pos; lia). unfold num_cells in *. rewrite H3, H4, H5, H6, H7. repeat split; lia.
Qed.
Print Assumptions C58_meshes.

(** With an empty share and sends that wait for their receiver, which MPI permits, processor 0 is
    stuck: it goes on sending to the processor with the empty share, which no longer receives. *)
Theorem C58_empty_share_refuted (N : Num) (first : grid_data N) before d after : (forall x, In x before -> consistent x) -> gd_num d = 0 ->
  exists k s, steps k (start first (before ++ d :: after)) s /\ (forall s', ~ delivery s s') /\ (exists q t m c, prog s 0 = Send q t m c).
Proof. intros C Z. destruct (blocked first before d after C Z) as (s & (k & R) & D & E). exists k, s. auto. Qed.
Print Assumptions C58_empty_share_refuted.

(** This happens for every mesh with fewer cells than processors, if there are at least three. *)
Theorem C58_few_cells_refuted (procs : nat) (r : R) (ax ay az : axis) norm : box_ok procs r ax ay az -> num_cells ax ay az < procs -> 3 <= procs ->
  exists first rest, generate (N:=RN) whole_part procs r ax ay az norm = Ok (first :: rest) /\
  exists k s, steps k (start first rest) s /\ (forall s', ~ delivery s s') /\ (exists q t m c, prog s 0 = Send q t m c).
Proof.
  intros B L P3. destruct (box_generates procs r ax ay az norm B) as (hx & hy & hz & _ & _ & (Ex & Ey & Ez) & Sm & _). destruct B as (P & Cx & Cy & Cz & _).
  destruct (C27_shares RN whole_part procs r ax ay az norm hx hy hz P Cx Cy Cz Ex Ey Ez Sm) as (ds & E & Ld & _ & H). destruct ds as [|first [|d rest]]; [cbn in Ld; lia|cbn in Ld; lia|].
  exists first, (d :: rest). split; [exact E|]. apply (C58_empty_share_refuted RN first [] d rest); [intros x []|].
  destruct (H 1 d eq_refl) as (H1 & _). rewrite H1. destruct (Nat.eqb_spec 2 procs); [lia|]. fold (num_cells ax ay az). rewrite Nat.div_small by exact L. reflexivity.
Qed.
Print Assumptions C58_few_cells_refuted.

(** ** Cases *)
Definition unit_axis (n : nat) : axis := Spec1 (N:=RN) n 0%R (INR n).
Example C27_case : box_ok 3 1.1 (unit_axis 2) (unit_axis 2) (unit_axis 2) /\ 3 <= num_cells (unit_axis 2) (unit_axis 2) (unit_axis 2) /\
  box_ok 3 1.1 (unit_axis 2) (unit_axis 1) (unit_axis 1) /\ num_cells (unit_axis 2) (unit_axis 1) (unit_axis 1) < 3.
Proof.
  assert (S2 : spacing (unit_axis 2) = 1%R) by (unfold spacing; cbn; field). assert (S1 : spacing (unit_axis 1) = 1%R) by (unfold spacing; cbn; field).
  split; [|split; [cbn; lia|split; [|cbn; lia]]]; (split; [lia|]; split; [cbn; lia|]; split; [cbn; lia|]; split; [cbn; lia|]; split; [cbn; lra|]; split; [cbn; lra|]; split; [cbn; lra|]; split; [lra|]); rewrite ?S1, ?S2; unfold int_max; cbn; lra.
Qed.

(** The lists of a 2 x 2 x 2 mesh on three processors, in binary64 with a horizon of 1.25 cells *)
Definition trunc64 (x : FN) : option nat := match floor64 x with Some z => if (z <? 0)%Z then None else Some (Z.to_nat z) | None => None end.
Example C28_case64 :
  let sx := Spec1 (N:=FN) 2 (fofZ 0) (fofZ 2) in
  match generate (N:=FN) trunc64 3 (Num.div (n:=FN) (fofZ 5) (fofZ 4)) sx sx sx (spherical (N:=FN)) with
  | Ok ds => Some (map (fun d => (gd_ids d, gd_ptr d, gd_list d)) ds)
  | _ => None
  end = Some [([0; 1], [0; 4], [3; 1; 2; 4; 3; 0; 3; 5]); ([2; 3], [0; 4], [3; 0; 3; 6; 3; 1; 2; 7]);
              ([4; 5; 6; 7], [0; 4; 8; 12], [3; 0; 5; 6; 3; 1; 4; 7; 3; 2; 4; 7; 3; 3; 5; 6])].
Proof. vm_compute. reflexivity. Qed.
