(** * Tensor product meshes over the reals: coordinates and exact neighbour lists *)
From Coq Require Import Reals Lra Lia Psatz.
From Verif Require Import Base Num ModelScalar ModelGrid SpecGeom SpecGrid ProofGlobal ProofGeom ProofSphere ProofSphere2 ProofGrid.

(** ** Lists *)
Lemma flat_map_window (f : nat -> list nat) n a m : (a + m <= n)%nat -> (forall u, (u < n)%nat -> f u <> [] -> (a <= u < a + m)%nat) ->
  flat_map f (seq 0 n) = flat_map f (seq a m).
Proof.
  intros L H. replace n with (a + (m + (n - a - m)))%nat by lia. rewrite !seq_app, !flat_map_app. cbn [Nat.add].
  assert (E1 : flat_map f (seq 0 a) = []).
  { assert (G : forall l, (forall u, In u l -> f u = []) -> flat_map f l = []) by (induction l as [|x l IH]; intros Hl; cbn; [reflexivity|rewrite Hl by (now left); apply IH; intros; apply Hl; now right]).
    apply G. intros u I. apply in_seq in I. destruct (f u) eqn:E; [reflexivity|]. specialize (H u ltac:(lia)). rewrite E in H. specialize (H ltac:(discriminate)). lia. }
  assert (E2 : flat_map f (seq (a + m) (n - a - m)) = []).
  { assert (G : forall l, (forall u, In u l -> f u = []) -> flat_map f l = []) by (induction l as [|x l IH]; intros Hl; cbn; [reflexivity|rewrite Hl by (now left); apply IH; intros; apply Hl; now right]).
    apply G. intros u I. apply in_seq in I. destruct (f u) eqn:E; [reflexivity|]. specialize (H u ltac:(lia)). rewrite E in H. specialize (H ltac:(discriminate)). lia. }
  rewrite E1, E2, app_nil_r. reflexivity.
Qed.

Lemma filter_flat (P : nat -> bool) l : List.filter P l = flat_map (fun x => if P x then [x] else []) l.
Proof. induction l as [|x l IH]; cbn; [reflexivity|]. rewrite IH. now destruct (P x). Qed.

Lemma flat_map_map {A B C} (f : B -> list C) (h : A -> B) l : flat_map f (map h l) = flat_map (fun x => f (h x)) l.
Proof. induction l as [|x l IH]; cbn; [reflexivity|]. now rewrite IH. Qed.

Lemma seq_product n m : forall a, seq (a * m) (n * m) = flat_map (fun q => map (fun r => (r + q * m)%nat) (seq 0 m)) (seq a n).
Proof.
  induction n as [|n IH]; intros a; [reflexivity|]. cbn [seq flat_map]. replace (S n * m)%nat with (m + n * m)%nat by lia. rewrite seq_app. f_equal.
  - clear. assert (G : forall k b c, seq (b + c) k = map (fun r => (r + c)%nat) (seq b k)).
    { induction k as [|k IHk]; intros b c; [reflexivity|]. cbn. f_equal. apply (IHk (S b) c). }
    exact (G m 0%nat (a * m)%nat).
  - rewrite <- IH. f_equal. lia.
Qed.

Lemma flat_map_flat_map {A B C} (f : B -> list C) (h : A -> list B) l : flat_map f (flat_map h l) = flat_map (fun x => flat_map f (h x)) l.
Proof. induction l as [|x l IH]; cbn; [reflexivity|]. now rewrite flat_map_app, IH. Qed.

Lemma flat_map_same {A B} (f h : A -> list B) l : (forall x, In x l -> f x = h x) -> flat_map f l = flat_map h l.
Proof. induction l as [|x l IH]; intros H; cbn; [reflexivity|]. rewrite H by (now left). f_equal. apply IH. intros; apply H; now right. Qed.

(** All cells, layer by layer *)
Lemma cells_in_order nx ny nz (f : nat -> list nat) :
  flat_map f (seq 0 (nx * ny * nz)) =
  flat_map (fun k => flat_map (fun j => flat_map (fun i => f (lin nx ny i j k)) (seq 0 nx)) (seq 0 ny)) (seq 0 nz).
Proof.
  replace (nx * ny * nz)%nat with (nz * (ny * nx))%nat by ring. pose proof (seq_product nz (ny * nx) 0) as E1. rewrite Nat.mul_0_l in E1. rewrite E1, flat_map_flat_map.
  apply flat_map_same. intros k _. rewrite flat_map_map. pose proof (seq_product ny nx 0) as E2. rewrite Nat.mul_0_l in E2. rewrite E2, flat_map_flat_map. apply flat_map_same. intros j _. rewrite flat_map_map. apply flat_map_same. intros i _. f_equal. unfold lin. ring.
Qed.

(** ** Over the reals *)
Local Open Scope R_scope.

Lemma ofZ_INR (n : nat) : ofZ (n:=RN) (Z.of_nat n) = INR n.
Proof. cbn. symmetry. apply INR_IZR_INZ. Qed.

Lemma spacing_eq (a : axis) : cell_size a = spacing a.
Proof. unfold cell_size, spacing. rewrite ofZ_INR. reflexivity. Qed.

Lemma coord_middle (a : axis) i : (i < cells a)%nat -> coord a i = middle a i.
Proof.
  unfold coord, discretization, middle. rewrite spacing_eq. generalize (spacing a). intros dx.
  assert (G : forall n p i, (i < n)%nat -> nth i ((fix go (n : nat) (p : T RN) : list (T RN) := match n with O => [] | S n' => p :: go n' (add p dx) end) n p) (ofZ 0) = p + INR i * dx).
  { induction n as [|n IH]; intros p [|j] H; try lia.
    - cbn. lra.
    - rewrite S_INR. refine (eq_trans (IH (add p dx) j ltac:(lia)) _). cbn. lra. }
  intros H. rewrite (G _ _ _ H). cbn. lra.
Qed.

Lemma whole_part_spec x n : whole_part x = Some n -> 0 <= x -> INR n <= x < INR n + 1.
Proof.
  unfold whole_part. destruct (Rlt_dec (-1) x); [|discriminate]. destruct (Rlt_dec x (2 ^ 64)); [|discriminate]. intros E X.
  assert (En : n = Z.to_nat (Int_part x)) by congruence. clear E. subst n. destruct (base_Int_part x) as (A & B).
  assert (P : (0 <= Int_part x)%Z) by (apply le_IZR; assert (-1 < IZR (Int_part x)) by lra; apply (lt_IZR (-1)) in H; apply IZR_le; lia).
  rewrite INR_IZR_INZ, Z2Nat.id by exact P. lra.
Qed.
Lemma whole_part_some x : 0 <= x < 2 ^ 64 -> exists n, whole_part x = Some n.
Proof. intros H. unfold whole_part. destruct (Rlt_dec (-1) x); [|lra]. destruct (Rlt_dec x (2 ^ 64)); [|lra]. eexists. reflexivity. Qed.

Lemma horizon_spec (a : axis) (r : R) : (0 < cells a)%nat -> 0 < x_length a -> 0 <= r -> r / spacing a < 2 ^ 64 ->
  exists h, cell_horizon (N:=RN) whole_part a r = Ok h /\ (h <= cells a)%nat /\ 2 * INR h <= 2 * (r / spacing a) + 1 /\
    forall m : nat, (m < cells a)%nat -> INR m * spacing a < r -> (m <= h)%nat.
Proof.
  intros C L R0 B. unfold cell_horizon. rewrite spacing_eq. assert (S0 : 0 < spacing a) by (apply Rdiv_lt_0_compat; [exact L|apply lt_0_INR; lia]).
  replace (mul (n:=RN) (spacing a) (ofZ 1)) with (spacing a) by (cbn; lra). change (div (n:=RN) r (spacing a)) with (r / spacing a).
  assert (Q : 0 <= r / spacing a) by (unfold Rdiv; assert (0 < / spacing a) by (now apply Rinv_0_lt_compat); nra).
  destruct (whole_part_some (r / spacing a) ltac:(lra)) as (n & E). rewrite E. destruct (whole_part_spec _ _ E Q) as (E1 & E2). cbv zeta.
  change (sub (n:=RN) (r / spacing a) (ofZ (Z.of_nat n))) with (r / spacing a - ofZ (n:=RN) (Z.of_nat n)). rewrite (ofZ_INR n).
  set (q := r / spacing a) in *.
  assert (D : (if ltb (n:=RN) (q - INR n) (ofZ 0) then opp (n:=RN) (q - INR n) else q - INR n) = q - INR n).
  { destruct (ltb (n:=RN) (q - INR n) (ofZ 0)) eqn:Z; [|reflexivity]. apply Rltb_true in Z. cbn in Z. lra. }
  rewrite D. set (n' := if leb (n:=RN) (lit 1 2) (q - INR n) then S n else n).
  assert (N' : (n <= n')%nat /\ 2 * INR n' <= 2 * q + 1).
  { unfold n'. destruct (leb (n:=RN) (lit 1 2) (q - INR n)) eqn:Z; [|split; [lia|lra]]. apply Rleb_true in Z. cbn in Z. rewrite S_INR. split; [lia|lra]. }
  destruct N' as (N1 & N2). exists (if (cells a <? n')%nat then cells a else n'). split; [reflexivity|]. split; [destruct (Nat.ltb_spec (cells a) n'); lia|]. split.
  - destruct (Nat.ltb_spec (cells a) n') as [Z|Z]; [|exact N2]. assert (INR (cells a) <= INR n') by (apply le_INR; lia). lra.
  - intros m M H. assert (Mq : INR m < q) by (unfold q; apply Rmult_lt_reg_r with (spacing a); [exact S0|]; unfold Rdiv; rewrite Rmult_assoc, Rinv_l by lra; lra).
    assert (Mn : (m <= n)%nat) by (apply Nat.lt_succ_r, INR_lt; rewrite S_INR; lra). destruct (Nat.ltb_spec (cells a) n'); lia.
Qed.

(** The centres of cells far apart along an axis are far apart. *)
Lemma middle_apart (a : axis) (r : R) (h i u : nat) : 0 < spacing a -> 0 <= r ->
  (forall m : nat, (m < cells a)%nat -> INR m * spacing a < r -> (m <= h)%nat) -> (i < cells a)%nat -> (u < cells a)%nat ->
  (middle a i - middle a u) * (middle a i - middle a u) < r * r -> (u <= i + h)%nat /\ (i <= u + h)%nat.
Proof.
  intros S0 R0 H I U D. assert (G : forall p q : nat, (p < cells a)%nat -> (q <= p)%nat -> (middle a p - middle a q) * (middle a p - middle a q) < r * r -> (p <= q + h)%nat).
  { intros p q P Q Z. assert (M : (p - q <= h)%nat); [|lia]. apply H; [lia|]. rewrite minus_INR by exact Q.
    assert (E : middle a p - middle a q = (INR p - INR q) * spacing a) by (unfold middle; ring). rewrite E in Z.
    assert (INR q <= INR p) by (now apply le_INR). assert (0 <= (INR p - INR q) * spacing a) by (apply Rmult_le_pos; lra). nra. }
  destruct (Nat.le_ge_cases i u) as [L|L].
  - split; [|lia]. apply G; auto. replace ((middle a u - middle a i) * (middle a u - middle a i)) with ((middle a i - middle a u) * (middle a i - middle a u)) by ring. exact D.
  - split; [lia|]. apply G; auto.
Qed.

(** The list of a cell is a filter of all cells. *)
Lemma spherical_spec (p q : point) (r : R) : spherical (N:=RN) p q r = true <-> dot (vsub q p) (vsub q p) < r * r.
Proof.
  unfold spherical. rewrite Rltb_true. destruct p as [p1 p2 p3], q as [q1 q2 q3]. cbn. split; intros; lra.
Qed.

Section Exact.
  Variables ax ay az : axis.
  Variable r : R.
  Variables hx hy hz : nat.
  Variable shares : list nat.
  Let g : generator RN := {| g_norm := spherical (N:=RN); g_radius := r; g_sx := ax; g_sy := ay; g_sz := az; g_hx := hx; g_hy := hy; g_hz := hz; g_shares := shares |}.
  Hypothesis Cx : (0 < cells ax)%nat.
  Hypothesis Cy : (0 < cells ay)%nat.
  Hypothesis Sx : 0 < spacing ax.
  Hypothesis Sy : 0 < spacing ay.
  Hypothesis Sz : 0 < spacing az.
  Hypothesis R0 : 0 <= r.
  Hypothesis Lx : (hx <= cells ax)%nat.
  Hypothesis Ly : (hy <= cells ay)%nat.
  Hypothesis Lz : (hz <= cells az)%nat.
  Hypothesis Fx : forall m : nat, (m < cells ax)%nat -> INR m * spacing ax < r -> (m <= hx)%nat.
  Hypothesis Fy : forall m : nat, (m < cells ay)%nat -> INR m * spacing ay < r -> (m <= hy)%nat.
  Hypothesis Fz : forall m : nat, (m < cells az)%nat -> INR m * spacing az < r -> (m <= hz)%nat.

  Definition is_near (n m : nat) : bool := (negb (Nat.eqb m n) && spherical (N:=RN) (cell_centre ax ay az m) (cell_centre ax ay az n) r)%bool.

  Lemma centre_eq i j k : (i < cells ax)%nat -> (j < cells ay)%nat -> (k < cells az)%nat -> centre g i j k = v3 (N:=RN) (middle ax i) (middle ay j) (middle az k).
  Proof. intros A B C. unfold centre. cbn [g_sx g_sy g_sz g]. now rewrite !coord_middle. Qed.

  Lemma nb_exact n : (n < num_cells ax ay az)%nat -> nb_of g n = List.filter (is_near n) (seq 0 (num_cells ax ay az)).
  Proof.
    intros Hn. destruct (lin_encode (cells ax) (cells ay) Cx Cy n) as (I & J & En). pose proof (cz_lt (cells ax) (cells ay) Cx Cy n (cells az) Hn) as K.
    rewrite filter_flat. unfold num_cells. rewrite cells_in_order. unfold nb_of, nbs. change (cells (g_sx g)) with (cells ax). change (cells (g_sy g)) with (cells ay). change (cells (g_sz g)) with (cells az).
    change (g_hx g) with hx. change (g_hy g) with hy. change (g_hz g) with hz.
    set (i := cx (cells ax) n) in *. set (j := cy (cells ax) (cells ay) n) in *. set (k := cz (cells ax) (cells ay) n) in *.
    assert (Key : forall ii jj kk, (ii < cells ax)%nat -> (jj < cells ay)%nat -> (kk < cells az)%nat -> keeps g i j k ii jj kk = is_near n (lin (cells ax) (cells ay) ii jj kk)).
    { intros ii jj kk A B C. unfold keeps, is_near. destruct (lin_decode (cells ax) (cells ay) Cx Cy ii jj kk A B) as (D1 & D2 & D3).
      change (g_norm g) with (spherical (N:=RN)). change (g_radius g) with r.
      rewrite !centre_eq by auto. f_equal.
      - f_equal. apply Bool.eq_iff_eq_true. rewrite !Bool.andb_true_iff, !Nat.eqb_eq. split; [intros ((-> & ->) & ->); exact En|]. intros Em. rewrite Em in D1, D2, D3. auto.
      - f_equal. unfold cell_centre.
        change (lin (cells ax) (cells ay) ii jj kk mod cells ax) with (cx (cells ax) (lin (cells ax) (cells ay) ii jj kk)).
        change ((lin (cells ax) (cells ay) ii jj kk / cells ax) mod cells ay) with (cy (cells ax) (cells ay) (lin (cells ax) (cells ay) ii jj kk)).
        change (lin (cells ax) (cells ay) ii jj kk / (cells ax * cells ay))%nat with (cz (cells ax) (cells ay) (lin (cells ax) (cells ay) ii jj kk)).
        now rewrite D1, D2, D3. }
    assert (Win : forall ii jj kk, (ii < cells ax)%nat -> (jj < cells ay)%nat -> (kk < cells az)%nat -> keeps g i j k ii jj kk = true ->
      ((ii <= i + hx)%nat /\ (i <= ii + hx)%nat) /\ ((jj <= j + hy)%nat /\ (j <= jj + hy)%nat) /\ ((kk <= k + hz)%nat /\ (k <= kk + hz)%nat)).
    { intros ii jj kk A B C H. unfold keeps in H. apply Bool.andb_true_iff in H as (_ & H). rewrite !centre_eq in H by auto. change (g_norm g) with (spherical (N:=RN)) in H. change (g_radius g) with r in H.
      apply spherical_spec in H. cbn in H.
      set (d1 := middle ax i - middle ax ii) in *. set (d2 := middle ay j - middle ay jj) in *. set (d3 := middle az k - middle az kk) in *.
      assert (Q : forall x : R, 0 <= x * x) by (intros x; nra). pose proof (Q d1). pose proof (Q d2). pose proof (Q d3).
      split; [apply (middle_apart ax r hx i ii); auto; fold d1; lra|]. split; [apply (middle_apart ay r hy j jj); auto; fold d2; lra|apply (middle_apart az r hz k kk); auto; fold d3; lra]. }
    symmetry. rewrite (flat_map_window _ (cells az) (hstart hz k) (hcells hz (cells az) k)).
    - apply flat_map_same. intros kk Kk. apply in_range in Kk as (Kk & _); [|lia|lia].
      rewrite (flat_map_window _ (cells ay) (hstart hy j) (hcells hy (cells ay) j)).
      + apply flat_map_same. intros jj Jj. apply in_range in Jj as (Jj & _); [|lia|lia].
        rewrite (flat_map_window _ (cells ax) (hstart hx i) (hcells hx (cells ax) i)).
        * apply flat_map_same. intros ii Ii. apply in_range in Ii as (Ii & _); [|lia|lia]. now rewrite Key.
        * destruct (hcells_spec hx (cells ax) i I Lx) as (E & _). rewrite E. now apply hend_le.
        * intros u U F. rewrite <- Key in F by auto. destruct (keeps g i j k u jj kk) eqn:Z; [|congruence]. destruct (Win u jj kk U Jj Kk Z) as (W & _).
          apply in_seq, in_range; auto. 
      + destruct (hcells_spec hy (cells ay) j J Ly) as (E & _). rewrite E. now apply hend_le.
      + intros u U F. apply in_seq, in_range; auto. split; [exact U|].
        destruct (flat_map (fun ii => if is_near n (lin (cells ax) (cells ay) ii u kk) then [lin (cells ax) (cells ay) ii u kk] else []) (seq 0 (cells ax))) as [|w l] eqn:Z; [congruence|].
        assert (In w (w :: l)) by (now left). rewrite <- Z in H. apply in_flat_map in H as (ii & Ii & H). apply in_seq in Ii. rewrite <- Key in H by (auto; lia).
        destruct (keeps g i j k ii u kk) eqn:Z2; [|destruct H]. apply (Win ii u kk ltac:(lia) U Kk Z2).
    - destruct (hcells_spec hz (cells az) k K Lz) as (E & _). rewrite E. now apply hend_le.
    - intros u U F. apply in_seq, in_range; auto. split; [exact U|].
      match type of F with ?X <> [] => destruct X as [|w l] eqn:Z; [congruence|] end.
      assert (In w (w :: l)) by (now left). rewrite <- Z in H. apply in_flat_map in H as (jj & Jj & H). apply in_seq in Jj. apply in_flat_map in H as (ii & Ii & H). apply in_seq in Ii.
      rewrite <- Key in H by (auto; lia). destruct (keeps g i j k ii jj u) eqn:Z2; [|destruct H]. apply (Win ii jj u ltac:(lia) ltac:(lia) U Z2).
  Qed.

  Lemma centre_of_exact n : (n < num_cells ax ay az)%nat -> centre_of g n = cell_centre ax ay az n.
  Proof.
    intros Hn. destruct (lin_encode (cells ax) (cells ay) Cx Cy n) as (I & J & En). pose proof (cz_lt (cells ax) (cells ay) Cx Cy n (cells az) Hn) as K.
    unfold centre_of. rewrite centre_eq; auto.
  Qed.
End Exact.

Lemma is_near_spec ax ay az r n m : 0 <= r -> (is_near ax ay az r n m = true <-> m <> n /\ distance (cell_centre ax ay az n) (cell_centre ax ay az m) < r).
Proof.
  intros R0. unfold is_near. rewrite Bool.andb_true_iff, Bool.negb_true_iff, Nat.eqb_neq, spherical_spec, (dist_lt _ _ r R0). reflexivity.
Qed.

(** ** Shares *)
Lemma per_processor p n : (Z.of_nat n <= int_max)%Z -> cells_per_processor n (S p) = Ok (repeat (n / S p)%nat p ++ [(n / S p + n mod S p)%nat]).
Proof.
  intros H. unfold cells_per_processor, to_int. pose proof (Nat.div_mod n (S p) ltac:(lia)).
  assert (n / S p + n mod S p <= n)%nat by nia.
  destruct (Z.leb_spec (Z.of_nat (n / S p)) int_max); [|lia]. cbn [bind]. destruct (Z.leb_spec (Z.of_nat (n / S p + n mod S p)) int_max); [|lia]. reflexivity.
Qed.
Lemma sum_shares p n : sum_list (repeat (n / S p)%nat p ++ [(n / S p + n mod S p)%nat]) = n.
Proof.
  unfold sum_list. rewrite fold_right_app. cbn [fold_right]. assert (G : forall q x acc, fold_right Nat.add acc (repeat x q) = (q * x + acc)%nat) by (induction q as [|q IH]; intros; cbn; [reflexivity|rewrite IH; lia]).
  rewrite G. pose proof (Nat.div_mod n (S p) ltac:(lia)). lia.
Qed.
Lemma last_biggest p n m : In m (repeat (n / S p)%nat p ++ [(n / S p + n mod S p)%nat]) ->
  (m <= nth (length (repeat (n / S p) p ++ [n / S p + n mod S p]) - 1) (repeat (n / S p) p ++ [n / S p + n mod S p]) 0)%nat.
Proof.
  intros I. rewrite app_length, repeat_length. cbn [length]. replace (p + 1 - 1)%nat with p by lia. rewrite app_nth2 by (rewrite repeat_length; lia). rewrite repeat_length, Nat.sub_diag. cbn [nth].
  apply in_app_or in I as [I|[<-|[]]]; [|apply Nat.le_refl]. apply repeat_spec in I. subst m. apply Nat.le_add_r.
Qed.
