(** * Tensor product meshes: the cells of each share, their neighbours and the size of the list *)
From Coq Require Import Lia.
From Verif Require Import Base Num ModelScalar ModelGrid.

(** ** Linear numbers of cells *)
Section Linear.
  Variables nx ny : nat.
  Definition lin (i j k : nat) : nat := i + j * nx + k * nx * ny.
  Definition cx (n : nat) := n mod nx.
  Definition cy (n : nat) := (n / nx) mod ny.
  Definition cz (n : nat) := n / (nx * ny).
  Hypothesis Hx : 0 < nx.
  Hypothesis Hy : 0 < ny.

  Lemma lin_decode i j k : i < nx -> j < ny -> cx (lin i j k) = i /\ cy (lin i j k) = j /\ cz (lin i j k) = k.
  Proof.
    intros A B. unfold lin, cx, cy, cz.
    assert (E1 : i + j * nx + k * nx * ny = i + (j + k * ny) * nx) by ring.
    assert (E2 : (i + j * nx + k * nx * ny) / nx = j + k * ny).
    { rewrite E1, Nat.div_add by lia. rewrite (Nat.div_small i nx) by lia. lia. }
    split; [|split].
    - rewrite E1, Nat.mod_add by lia. now apply Nat.mod_small.
    - rewrite E2, Nat.mod_add by lia. now apply Nat.mod_small.
    - rewrite <- Nat.div_div, E2, Nat.div_add by lia. rewrite (Nat.div_small j ny) by lia. lia.
  Qed.

  Lemma lin_encode n : cx n < nx /\ cy n < ny /\ lin (cx n) (cy n) (cz n) = n.
  Proof.
    unfold lin, cx, cy, cz. split; [apply Nat.mod_upper_bound; lia|]. split; [apply Nat.mod_upper_bound; lia|].
    rewrite <- Nat.div_div by lia. pose proof (Nat.div_mod n nx ltac:(lia)). pose proof (Nat.div_mod (n / nx) ny ltac:(lia)).
    set (q := n / nx) in *. set (r := n mod nx) in *. set (q2 := q / ny) in *. set (r2 := q mod ny) in *. clearbody q r q2 r2. subst q. rewrite H. ring.
  Qed.

  Lemma cz_lt n nz : n < nx * ny * nz -> cz n < nz.
  Proof. intros H. unfold cz. apply Nat.div_lt_upper_bound; nia. Qed.
End Linear.

(** ** Horizons *)
Lemma hend_le h n i : i < n -> h <= n -> hend h n i <= n.
Proof. intros A B. unfold hend. destruct (Nat.ltb_spec i (n - h)); lia. Qed.
Lemma hstart_le h i : hstart h i <= i.
Proof. unfold hstart. destruct (Nat.ltb_spec h i); lia. Qed.
Lemma hend_gt h n i : i < n -> h <= n -> i < hend h n i.
Proof. intros A B. unfold hend. destruct (Nat.ltb_spec i (n - h)); lia. Qed.
Lemma hcells_spec h n i : i < n -> h <= n -> hstart h i + hcells h n i = hend h n i /\ 0 < hcells h n i.
Proof. intros A B. unfold hcells. pose proof (hend_gt h n i A B). pose proof (hstart_le h i). lia. Qed.
Lemma in_range h n i u : i < n -> h <= n -> (In u (seq (hstart h i) (hcells h n i)) <-> u < n /\ u <= i + h /\ i <= u + h).
Proof.
  intros A B. rewrite in_seq. destruct (hcells_spec h n i A B) as (E & _). rewrite E. unfold hstart, hend. destruct (Nat.ltb_spec h i), (Nat.ltb_spec i (n - h)); lia.
Qed.

Section Proofs.
  Context {N : Num}.
  Variable g : generator N.
  Notation nx := (cells (g_sx g)).
  Notation ny := (cells (g_sy g)).
  Notation nz := (cells (g_sz g)).
  Notation hx := (g_hx g).
  Notation hy := (g_hy g).
  Notation hz := (g_hz g).
  Hypothesis Hx : 0 < nx.
  Hypothesis Hy : 0 < ny.
  Hypothesis Hhx : hx <= nx.
  Hypothesis Hhy : hy <= ny.
  Hypothesis Hhz : hz <= nz.

  Definition coord (s : spec1 N) (i : nat) : N := nth i (discretization s) (ofZ 0).
  Definition centre (i j k : nat) : V3 N := v3 (coord (g_sx g) i) (coord (g_sy g) j) (coord (g_sz g) k).

  Lemma discretization_length (s : spec1 N) : length (discretization s) = cells s.
  Proof.
    unfold discretization. generalize (add (x_start s) (div (cell_size s) (ofZ 2))). generalize (cells s). intros n. generalize (cell_size s). intros dx.
    induction n as [|n IH]; intros p; cbn; [reflexivity|]. now rewrite IH.
  Qed.
  Lemma coord_at (s : spec1 N) i : i < cells s -> at_ub (discretization s) i = Ok (coord s i).
  Proof.
    intros H. unfold at_ub, coord. rewrite (nth_error_nth' _ (ofZ 0)); [reflexivity|]. now rewrite discretization_length.
  Qed.

  (** *** Neighbours *)
  Definition keeps (i j k ii jj kk : nat) : bool :=
    (negb (Nat.eqb ii i && Nat.eqb jj j && Nat.eqb kk k) && g_norm g (centre ii jj kk) (centre i j k) (g_radius g))%bool.
  Definition nbs (i j k : nat) : list nat :=
    flat_map (fun kk => flat_map (fun jj => flat_map (fun ii => if keeps i j k ii jj kk then [lin nx ny ii jj kk] else [])
      (seq (hstart hx i) (hcells hx nx i))) (seq (hstart hy j) (hcells hy ny j))) (seq (hstart hz k) (hcells hz nz k)).

  Lemma foldM_flat (f : list nat -> nat -> outcome (list nat)) (h : nat -> list nat) l acc :
    (forall acc x, In x l -> f acc x = Ok (acc ++ h x)) -> foldM f acc l = Ok (acc ++ flat_map h l).
  Proof.
    revert acc. induction l as [|x l IH]; intros acc H; cbn; [now rewrite app_nil_r|]. rewrite H by (left; reflexivity). cbn. rewrite IH by (intros; apply H; now right).
    now rewrite app_assoc.
  Qed.

  Lemma neighbors_ok i j k : i < nx -> j < ny -> k < nz -> neighbors g i j k (centre i j k) = Ok (nbs i j k).
  Proof.
    intros A B C. unfold neighbors, nbs. refine (eq_trans (foldM_flat _ _ _ [] _) eq_refl). intros acc kk Kk. apply in_range in Kk as (Kk & _); [|lia|lia].
    refine (foldM_flat _ _ _ acc _). intros acc2 jj Jj. apply in_range in Jj as (Jj & _); [|lia|lia].
    refine (foldM_flat _ _ _ acc2 _). intros acc3 ii Ii. apply in_range in Ii as (Ii & _); [|lia|lia].
    unfold keeps. destruct (Nat.eqb ii i && Nat.eqb jj j && Nat.eqb kk k)%bool; cbn; [now rewrite app_nil_r|].
    rewrite !coord_at by lia. cbn. fold (centre ii jj kk). unfold centre at 1. destruct (g_norm _ _ _); [reflexivity|now rewrite app_nil_r].
  Qed.

  Lemma flat_map_length_le {A} (f : A -> list nat) l b : (forall x, In x l -> length (f x) <= b) -> length (flat_map f l) <= length l * b.
  Proof.
    induction l as [|x l IH]; intros H; cbn; [lia|]. rewrite app_length. specialize (IH ltac:(intros; apply H; now right)). specialize (H x (or_introl eq_refl)). lia.
  Qed.
  Lemma flat_map_length_lt {A} (f : A -> list nat) l b x0 : In x0 l -> length (f x0) < b -> (forall x, In x l -> length (f x) <= b) -> length (flat_map f l) < length l * b.
  Proof.
    intros I L H. apply in_split in I as (l1 & l2 & ->). rewrite flat_map_app. cbn. rewrite !app_length. cbn.
    pose proof (flat_map_length_le f l1 b ltac:(intros; apply H, in_or_app; now left)). pose proof (flat_map_length_le f l2 b ltac:(intros; apply H, in_or_app; right; now right)). nia.
  Qed.
  Lemma nbs_length i j k : i < nx -> j < ny -> k < nz -> length (nbs i j k) <= num_neighbors g i j k.
  Proof.
    intros A B C. unfold num_neighbors.
    assert (L : length (nbs i j k) < hcells hz nz k * (hcells hy ny j * (hcells hx nx i * 1))).
    { unfold nbs. rewrite <- (seq_length (hcells hz nz k) (hstart hz k)) at 2. apply (flat_map_length_lt _ _ _ k).
      - apply in_range; lia.
      - rewrite <- (seq_length (hcells hy ny j) (hstart hy j)) at 2. apply (flat_map_length_lt _ _ _ j); [apply in_range; lia| |].
        + rewrite <- (seq_length (hcells hx nx i) (hstart hx i)) at 2. apply (flat_map_length_lt _ _ _ i); [apply in_range; lia| |].
          * unfold keeps. rewrite !Nat.eqb_refl. cbn. lia.
          * intros x _. destruct (keeps _ _ _ _ _ _); cbn; lia.
        + intros jj _. rewrite <- (seq_length (hcells hx nx i) (hstart hx i)) at 2. apply flat_map_length_le. intros x _. destruct (keeps _ _ _ _ _ _); cbn; lia.
      - intros kk _. rewrite <- (seq_length (hcells hy ny j) (hstart hy j)) at 2. apply flat_map_length_le.
        intros jj _. rewrite <- (seq_length (hcells hx nx i) (hstart hx i)) at 2. apply flat_map_length_le. intros x _. destruct (keeps _ _ _ _ _ _); cbn; lia. }
    lia.
  Qed.

  (** *** What one share should contain *)
  Definition nb_of (n : nat) : list nat := nbs (cx nx n) (cy nx ny n) (cz nx ny n).
  Definition centre_of (n : nat) : V3 N := centre (cx nx n) (cy nx ny n) (cz nx ny n).
  Definition entry_of (n : nat) : list nat := length (nb_of n) :: nb_of n.
  Definition room_of (n : nat) : nat := num_neighbors g (cx nx n) (cy nx ny n) (cz nx ny n).
  Definition vol : N := mul (mul (cell_size (g_sx g)) (cell_size (g_sy g))) (cell_size (g_sz g)).
  Fixpoint total (f : nat -> nat) (a n : nat) : nat := match n with O => 0 | S n' => f a + total f (S a) n' end.
  Lemma total_snoc f n : forall a, total f a (S n) = total f a n + f (a + n).
  Proof.
    induction n as [|n IH]; intros a; [cbn; now rewrite !Nat.add_0_r|]. change (total f a (S (S n))) with (f a + total f (S a) (S n)). rewrite (IH (S a)). cbn [total].
    replace (S a + n) with (a + S n) by lia. lia.
  Qed.
  Lemma total_le f f' n : forall a, (forall x, a <= x < a + n -> f x <= f' x) -> total f a n <= total f' a n.
  Proof. induction n as [|n IH]; intros a H; cbn; [lia|]. pose proof (H a ltac:(lia)). pose proof (IH (S a) ltac:(intros; apply H; lia)). lia. Qed.
  Lemma total_more f m n : m <= n -> forall a, total f a m <= total f a n.
  Proof. revert n. induction m as [|m IH]; intros n H a; cbn; [lia|]. destruct n as [|n]; [lia|]. cbn. pose proof (IH n ltac:(lia) (S a)). lia. Qed.

  (** *** Size of the list *)
  Section Share.
  Variables g0 mine : nat.
  Hypothesis Hfit : g0 + mine <= nx * ny * nz.

  Definition SInv (c : nat) (s : sizing) : Prop := z_cell s = c /\ c <= mine /\ z_size s = mine + total room_of g0 c.

  Lemma size_i_ok k : k < nz -> forall f i j s c, f = nx - i -> i <= nx -> j < ny -> SInv c s -> (c < mine -> g0 + c = lin nx ny i j k) ->
    exists c', SInv c' (size_i g f mine i j k s) /\ c <= c' /\ z_j0 (size_i g f mine i j k s) = z_j0 s /\
      (c' < mine -> g0 + c' = lin nx ny nx j k /\ (i < nx -> z_i0 (size_i g f mine i j k s) = 0)).
  Proof.
    intros Hk. induction f as [|f IH]; intros i j s c F I J (C & Cm & Z) P.
    - exists c. cbn. split; [repeat split; auto|]. split; [lia|]. split; [reflexivity|]. intros L. split; [|lia]. rewrite (P L). f_equal. lia.
    - cbn [size_i]. rewrite C. destruct (Nat.ltb_spec c mine) as [L|L].
      + set (s1 := {| z_i0 := 0; z_j0 := z_j0 s; z_cell := S c; z_size := z_size s + num_neighbors g i j k |}).
        destruct (IH (S i) j s1 (S c)) as (c' & A1 & A2 & A3 & A4); [lia|lia|lia| | |].
        * split; [reflexivity|]. split; [lia|]. unfold s1. cbn [z_size]. rewrite total_snoc, Z. unfold room_of. rewrite (P L).
          destruct (lin_decode nx ny Hx Hy i j k) as (D1 & D2 & D3); [lia|lia|]. rewrite D1, D2, D3. lia.
        * intros _. specialize (P L). unfold lin in *. lia.
        * exists c'. split; [exact A1|]. split; [lia|]. split; [exact A3|]. intros L'. destruct (A4 L') as (B1 & B2). split; [exact B1|]. intros _.
          destruct (Nat.eq_dec (S i) nx) as [E|E]; [|apply B2; lia]. assert (f = 0) by lia. subst f. reflexivity.
      + exists c. split; [split; [auto|split; auto]|]. split; [lia|]. split; [reflexivity|]. lia.
  Qed.

  Lemma size_j_ok k : k < nz -> forall f j s c, f = ny - j -> j <= ny -> SInv c s ->
    (c < mine -> z_i0 s < nx /\ g0 + c = lin nx ny (z_i0 s) j k /\ (j = ny -> z_i0 s = 0 /\ z_j0 s = 0)) ->
    exists c', SInv c' (size_j g f mine j k s) /\ c <= c' /\
      (c' < mine -> g0 + c' = lin nx ny 0 0 (S k) /\ z_i0 (size_j g f mine j k s) = 0 /\ z_j0 (size_j g f mine j k s) = 0).
  Proof.
    intros Hk. induction f as [|f IH]; intros j s c F J Inv P.
    - exists c. cbn. split; [exact Inv|]. split; [lia|]. intros L. assert (j = ny) by lia. destruct (P L) as (_ & P2 & P3). destruct (P3 H) as (Z1 & Z2). split; [|auto].
      rewrite P2, Z1. subst j. unfold lin. ring.
    - cbn [size_j]. set (s0 := {| z_i0 := z_i0 s; z_j0 := 0; z_cell := z_cell s; z_size := z_size s |}). cbn [z_i0].
      change (z_i0 s) with (z_i0 s0).
      destruct (Nat.lt_ge_cases c mine) as [L|L].
      + destruct (P L) as (P1 & P2 & _). destruct (size_i_ok k Hk (nx - z_i0 s0) (z_i0 s0) j s0 c eq_refl) as (c1 & A1 & A2 & A3 & A4); [cbn; lia|lia|exact Inv|intros; exact P2|].
        set (s1 := size_i g (nx - z_i0 s0) mine (z_i0 s0) j k s0) in *. clearbody s1.
        destruct (IH (S j) s1 c1) as (c' & B1 & B2 & B3); [lia|lia|exact A1| |].
        * intros L1. destruct (A4 L1) as (E1 & E2). rewrite (E2 P1). split; [lia|]. split; [rewrite E1; unfold lin; cbn; lia|]. intros _. split; [reflexivity|exact A3].
        * exists c'. split; [exact B1|]. split; [lia|exact B3].
      + assert (Q : forall fu i, exists t, size_i g fu mine i j k s0 = t /\ SInv c t).
        { intros fu i. eexists. split; [reflexivity|]. assert (E : size_i g fu mine i j k s0 = s0).
          { destruct fu; [reflexivity|]. cbn [size_i s0 z_cell]. destruct Inv as (C & _). destruct (Nat.ltb_spec (z_cell s) mine); [lia|reflexivity]. }
          rewrite E. exact Inv. }
        destruct (Q (nx - z_i0 s0) (z_i0 s0)) as (t & -> & It).
        destruct (IH (S j) t c) as (c' & B1 & B2 & B3); [lia|lia|exact It|lia|]. exists c'. split; [exact B1|]. split; [lia|exact B3].
  Qed.

  Lemma size_k_ok : forall f k s c, f = nz - k -> k <= nz -> SInv c s ->
    (c < mine -> z_i0 s < nx /\ z_j0 s < ny /\ g0 + c = lin nx ny (z_i0 s) (z_j0 s) k) ->
    SInv mine (size_k g f mine k s).
  Proof.
    induction f as [|f IH]; intros k s c F K Inv P.
    - cbn. destruct (Nat.lt_ge_cases c mine) as [L|L]; [|destruct Inv as (? & ? & ?); replace mine with c at 1 by lia; repeat split; auto; lia].
      exfalso. destruct (P L) as (_ & _ & P3). assert (k = nz) by lia. subst k. unfold lin in P3. nia.
    - cbn [size_k]. destruct (Nat.lt_ge_cases c mine) as [L|L].
      + destruct (P L) as (P1 & P2 & P3).
        destruct (size_j_ok k ltac:(lia) (ny - z_j0 s) (z_j0 s) s c eq_refl) as (c1 & A1 & A2 & A3); [lia|exact Inv|intros _; split; [exact P1|split; [exact P3|lia]]|].
        apply (IH (S k) _ c1); [lia|lia|exact A1|]. intros L1. destruct (A3 L1) as (E1 & E2 & E3). rewrite E2, E3. split; [lia|]. split; [lia|exact E1].
      + assert (Q : forall fu j, j = ny - fu \/ True -> SInv c (size_j g fu mine j k s)).
        { intros fu j _. assert (G : forall fu j t, SInv c t -> SInv c (size_j g fu mine j k t)).
          { clear fu j. induction fu as [|fu IHf]; intros j t It; cbn [size_j]; [exact It|]. apply IHf.
            set (s0 := {| z_i0 := z_i0 t; z_j0 := 0; z_cell := z_cell t; z_size := z_size t |}).
            assert (E : forall fi i, size_i g fi mine i j k s0 = s0).
            { intros fi i. destruct fi; [reflexivity|]. cbn [size_i s0 z_cell]. destruct It as (C & _). destruct (Nat.ltb_spec (z_cell t) mine); [lia|reflexivity]. }
            rewrite E. exact It. }
          apply G, Inv. }
        apply (IH (S k) _ c); [lia|lia|apply Q; auto|lia].
  Qed.

  Lemma size_ok loc : ci loc < nx -> cj loc < ny -> ck loc <= nz -> (0 < mine -> lin nx ny (ci loc) (cj loc) (ck loc) = g0) ->
    size_neighbor_list g mine loc = mine + total room_of g0 mine.
  Proof.
    intros A B C D. unfold size_neighbor_list.
    destruct (size_k_ok (nz - ck loc) (ck loc) {| z_i0 := ci loc; z_j0 := cj loc; z_cell := 0; z_size := mine |} 0 eq_refl C) as (_ & _ & Z); [| |exact Z].
    - repeat split; cbn; lia.
    - intros L. cbn. split; [exact A|]. split; [exact B|]. pose proof (D L) as E. unfold lin in *. lia.
  Qed.

  (** *** Building *)
  Variables cap room : nat.
  Hypothesis Hcap : mine <= cap.
  Hypothesis Hroom : room = mine + total room_of g0 mine.

  Definition BInv (c : nat) (s : building) : Prop :=
    b_cell s = c /\ c <= mine /\ b_ids s = seq g0 c /\ b_points s = map centre_of (seq g0 c) /\
    b_volumes s = repeat vol c /\ b_list s = flat_map entry_of (seq g0 c).

  Lemma seq_snoc a n : seq a (S n) = seq a n ++ [a + n].
  Proof. exact (seq_S n a). Qed.
  Lemma repeat_snoc {A} (x : A) n : repeat x (S n) = repeat x n ++ [x].
  Proof. induction n as [|n IH]; [reflexivity|]. cbn in *. now rewrite <- IH. Qed.
  Lemma list_length c : c <= mine -> length (flat_map entry_of (seq g0 c)) <= room.
  Proof.
    intros H. assert (E : forall n a, a + n <= nx * ny * nz -> length (flat_map entry_of (seq a n)) <= n + total room_of a n).
    { induction n as [|n IH]; intros a Ha; cbn; [lia|]. rewrite app_length. specialize (IH (S a) ltac:(lia)).
      assert (length (nb_of a) <= room_of a).
      { destruct (lin_encode nx ny Hx Hy a) as (U1 & U2 & _). apply nbs_length; [exact U1|exact U2|]. apply cz_lt; auto. lia. }
      lia. }
    specialize (E c g0 ltac:(lia)). pose proof (total_more room_of c mine H g0). lia.
  Qed.

  Lemma add_cell_ok i j k s c : i < nx -> j < ny -> k < nz -> c < mine -> g0 + c = lin nx ny i j k -> BInv c s ->
    exists s', add_cell g cap room i j k s = Ok s' /\ BInv (S c) s' /\ b_i0 s' = 0 /\ b_j0 s' = b_j0 s /\
      b_loc s' = Cell (S (ci (b_loc s))) (cj (b_loc s)) (ck (b_loc s)).
  Proof.
    intros A B C L E (I1 & I2 & I3 & I4 & I5 & I6). unfold add_cell. rewrite !coord_at by lia. cbn [bind]. fold (centre i j k).
    rewrite I3, seq_length. destruct (Nat.ltb_spec c cap) as [_|?]; [|lia]. rewrite (neighbors_ok i j k A B C). cbn [bind].
    destruct (lin_decode nx ny Hx Hy i j k A B) as (D1 & D2 & D3). rewrite <- E in D1, D2, D3.
    assert (En : length (nbs i j k) :: nbs i j k = entry_of (g0 + c)) by (unfold entry_of, nb_of; now rewrite D1, D2, D3).
    rewrite En, I6.
    assert (El : flat_map entry_of (seq g0 c) ++ entry_of (g0 + c) = flat_map entry_of (seq g0 (S c))).
    { rewrite seq_snoc, flat_map_app. cbn. now rewrite app_nil_r. }
    rewrite El. destruct (Nat.leb_spec (length (flat_map entry_of (seq g0 (S c)))) room) as [_|Z]; [|pose proof (list_length (S c) L); lia].
    eexists. split; [reflexivity|]. cbn. split; [|split; [reflexivity|split; reflexivity]].
    split; [cbn; lia|]. split; [lia|]. split; [|split; [|split; [|reflexivity]]]; cbn [b_ids b_points b_volumes].
    - change (i + j * nx + k * nx * ny) with (lin nx ny i j k). rewrite <- E. now rewrite <- seq_snoc.
    - rewrite I4, (seq_snoc g0 c), map_app. cbn [map]. unfold centre_of at 3. now rewrite D1, D2, D3.
    - rewrite I5. symmetry. apply repeat_snoc.
  Qed.

  Lemma build_i_ok k : k < nz -> forall f i j s c, f = nx - i -> i <= nx -> j < ny -> BInv c s -> (c < mine -> g0 + c = lin nx ny i j k) -> ci (b_loc s) = i ->
    exists c' s', build_i g f cap room mine i j k s = Ok s' /\ BInv c' s' /\ c <= c' /\ b_j0 s' = b_j0 s /\
      b_loc s' = Cell (i + (c' - c)) (cj (b_loc s)) (ck (b_loc s)) /\ i + (c' - c) <= nx /\
      (c' < mine -> i + (c' - c) = nx) /\ (b_i0 s = 0 \/ (i < nx /\ c < mine) -> b_i0 s' = 0) /\ (c < mine -> g0 + c' = lin nx ny (i + (c' - c)) j k).
  Proof.
    intros Hk. induction f as [|f IH]; intros i j s c F I J Inv P Lc.
    - exists c, s. cbn. rewrite Nat.sub_diag, Nat.add_0_r. split; [reflexivity|]. split; [exact Inv|]. split; [lia|]. split; [reflexivity|]. split; [destruct (b_loc s); cbn in *; now subst|].
      split; [lia|]. split; [lia|]. split; [|exact P]. intros [Z|Z]; [exact Z|lia].
    - cbn [build_i]. destruct Inv as (C & Inv'). rewrite C. destruct (Nat.ltb_spec c mine) as [L|L].
      + destruct (add_cell_ok i j k s c) as (s1 & -> & A1 & A2 & A3 & A4); [lia|lia|lia|lia|auto|split; auto|]. cbn [bind].
        destruct (IH (S i) j s1 (S c)) as (c' & s' & -> & B1 & B2 & B3 & B4 & B5 & B6 & B7 & B8); [lia|lia|lia|exact A1| | |].
        * intros _. specialize (P L). unfold lin in *. lia.
        * rewrite A4. cbn. now rewrite Lc.
        * exists c', s'. split; [reflexivity|]. split; [exact B1|]. split; [lia|]. split; [congruence|].
          assert (E : S i + (c' - S c) = i + (c' - c)) by lia. rewrite E in *. split; [rewrite B4, A4; reflexivity|]. split; [exact B5|]. split; [exact B6|]. split.
          -- intros _. apply B7. now left.
          -- intros _. destruct (Nat.lt_ge_cases (S c) mine) as [L2|L2]; [apply B8; exact L2|]. destruct B1 as (_ & Cm & _). assert (c' = S c) by lia. subst c'.
             replace (i + (S c - c)) with (S i) by lia. specialize (P L). unfold lin in *. lia.
      + exists c, s. rewrite Nat.sub_diag, Nat.add_0_r. split; [reflexivity|]. split; [split; auto|]. split; [lia|]. split; [reflexivity|]. split; [destruct (b_loc s); cbn in *; now subst|].
        split; [lia|]. split; [lia|]. split; [|lia]. intros [Z|Z]; [exact Z|lia].
  Qed.

  (** The locator after the share *)
  Definition handed_over (l : cell3) : Prop := ci l < nx /\ cj l < ny /\ lin nx ny (ci l) (cj l) (ck l) = g0 + mine.

  Lemma end_row_inv c s : BInv c s -> BInv c (end_row g mine s).
  Proof. intros (A & B & C & D & E & F). repeat split; assumption. Qed.

  Lemma build_j_done f j k s c : BInv c s -> mine <= c -> build_j g f cap room mine j k s = Ok s.
  Proof. intros (C & _) L. destruct f; [reflexivity|]. cbn [build_j]. destruct (Nat.ltb_spec (b_cell s) mine); [lia|reflexivity]. Qed.

  Lemma build_j_ok k : k < nz -> forall f j s c, f = ny - j -> j <= ny -> BInv c s ->
    (c < mine -> ck (b_loc s) = k /\ b_i0 s < nx /\ ci (b_loc s) = b_i0 s /\ g0 + c = lin nx ny (b_i0 s) j k /\ (j = ny -> b_i0 s = 0 /\ b_j0 s = 0)) ->
    (mine <= c -> handed_over (b_loc s)) ->
    exists c' s', build_j g f cap room mine j k s = Ok s' /\ BInv c' s' /\ c <= c' /\
      (c' < mine -> g0 + c' = lin nx ny 0 0 (S k) /\ b_i0 s' = 0 /\ b_j0 s' = 0 /\ ci (b_loc s') = 0) /\
      (mine <= c' -> handed_over (b_loc s')).
  Proof.
    intros Hk. induction f as [|f IH]; intros j s c F J Inv P D.
    - exists c, s. cbn [build_j]. split; [reflexivity|]. split; [exact Inv|]. split; [lia|]. split; [|exact D]. intros L. assert (Ej : j = ny) by lia. destruct (P L) as (K & P0 & P1 & P2 & P3).
      destruct (P3 Ej) as (Z1 & Z2). split; [|rewrite P1; auto]. rewrite P2, Z1. subst j. unfold lin. ring.
    - destruct (Nat.lt_ge_cases c mine) as [L|L]; [|exists c, s; split; [eapply build_j_done; eassumption|]; split; [exact Inv|]; split; [lia|]; split; [lia|auto]].
      cbn [build_j]. destruct Inv as (C & Inv'). rewrite C. destruct (Nat.ltb_spec c mine); [|lia].
      destruct (P L) as (K & P0 & P1 & P2 & _). set (s0 := start_row j s). change (b_i0 s0) with (b_i0 s).
      destruct (build_i_ok k Hk (nx - b_i0 s) (b_i0 s) j s0 c eq_refl) as (c1 & s1 & -> & A1 & A2 & A3 & A4 & A5 & A6 & A7 & A8); [lia|lia|split; [exact C|exact Inv']|auto|exact P1|].
      cbn [bind]. assert (Z0 : b_i0 s1 = 0) by (apply A7; right; auto). assert (J0 : b_j0 s1 = 0) by exact A3. specialize (A8 L).
      change (cj (b_loc s0)) with j in A4. change (ck (b_loc s0)) with (ck (b_loc s)) in A4. rewrite K in A4.
      set (i1 := b_i0 s + (c1 - c)) in *. assert (C1 := proj1 A1). assert (Cm := proj1 (proj2 A1)).
      assert (E1 : b_loc (end_row g mine s1) = if Nat.eqb i1 nx then if Nat.eqb c1 mine then if Nat.eqb (S j) ny then Cell 0 0 (S k) else Cell 0 (S j) k else Cell 0 j k else Cell i1 j k).
      { unfold end_row. cbn [b_loc]. rewrite A4, C1. reflexivity. }
      destruct (IH (S j) (end_row g mine s1) c1) as (c' & s' & -> & B1 & B2 & B3 & B4).
      + lia.
      + lia.
      + apply end_row_inv, A1.
      + intros L1. rewrite E1. assert (X := A6 L1). rewrite X, Nat.eqb_refl. destruct (Nat.eqb_spec c1 mine); [lia|]. change (b_i0 (end_row g mine s1)) with (b_i0 s1). change (b_j0 (end_row g mine s1)) with (b_j0 s1).
        rewrite Z0. cbn [ci cj ck]. split; [reflexivity|]. split; [lia|]. split; [reflexivity|]. split; [rewrite A8, X; unfold lin; ring|auto].
      + intros L1. assert (Cq : c1 = mine) by lia. clearbody i1. rewrite E1. unfold handed_over. destruct (Nat.eqb_spec c1 mine) as [_|Z]; [|lia]. rewrite <- Cq. destruct (Nat.eqb_spec i1 nx) as [X|X].
        * rewrite X in A8. destruct (Nat.eqb_spec (S j) ny) as [Y|Y]; cbn [ci cj ck]; split; try lia; split; try lia; rewrite A8; unfold lin; [|ring]. rewrite <- Y. ring.
        * cbn [ci cj ck]. split; [lia|]. split; [lia|]. now rewrite A8.
      + exists c', s'. split; [reflexivity|]. split; [exact B1|]. split; [lia|]. split; [exact B3|exact B4].
  Qed.

  Lemma build_k_ok : forall f k s c, f = nz - k -> k <= nz -> BInv c s ->
    (c < mine -> b_i0 s < nx /\ b_j0 s < ny /\ ci (b_loc s) = b_i0 s /\ g0 + c = lin nx ny (b_i0 s) (b_j0 s) k) ->
    (mine <= c -> handed_over (b_loc s)) ->
    exists s', build_k g f cap room mine k s = Ok s' /\ BInv mine s' /\ handed_over (b_loc s').
  Proof.
    induction f as [|f IH]; intros k s c F K Inv P D.
    - exists s. cbn [build_k]. split; [reflexivity|]. destruct (Nat.lt_ge_cases c mine) as [L|L].
      + exfalso. destruct (P L) as (_ & _ & _ & P3). assert (k = nz) by lia. subst k. unfold lin in P3. nia.
      + assert (c = mine) by (destruct Inv as (_ & ? & _); lia). subst c. split; [exact Inv|auto].
    - cbn [build_k]. assert (C := proj1 Inv). rewrite C. destruct (Nat.ltb_spec c mine) as [L|L].
      + destruct (P L) as (P1 & P2 & P3 & P4). set (s0 := start_layer k s). change (b_j0 s0) with (b_j0 s).
        destruct (build_j_ok k ltac:(lia) (ny - b_j0 s) (b_j0 s) s0 c eq_refl) as (c1 & s1 & -> & A1 & A2 & A3 & A4); [lia|exact Inv| |lia|].
        * intros _. change (b_i0 s0) with (b_i0 s). change (ck (b_loc s0)) with k. change (ci (b_loc s0)) with (ci (b_loc s)). repeat split; try assumption; lia.
        * cbn [bind]. apply (IH (S k) s1 c1); [lia|lia|exact A1| |exact A4].
          intros L1. destruct (A3 L1) as (E1 & E2 & E3 & E4). rewrite E2, E3, E4. repeat split; lia.
      + assert (Eq : c = mine) by (destruct Inv as (_ & ? & _); lia). exists s. split; [reflexivity|]. split; [rewrite <- Eq; exact Inv|auto].
  Qed.
  End Share.

  (** *** Pointers *)
  Lemma at_0 (x : nat) l : at_ub (x :: l) 0 = Ok x. Proof. reflexivity. Qed.
  Definition offsets (a n : nat) : list nat := map (fun m => length (flat_map entry_of (seq a m))) (seq 0 n).
  Lemma pointers_ok : forall n a sum, pointers n sum (flat_map entry_of (seq a n)) = Ok (map (fun m => sum + length (flat_map entry_of (seq a m))) (seq 0 n)).
  Proof.
    induction n as [|n IH]; intros a sum; [reflexivity|]. cbn [pointers seq flat_map]. unfold entry_of at 1. cbn [app]. rewrite at_0. cbn [bind].
    unfold entry_of at 1. cbn [app skipn]. rewrite skipn_app, skipn_all, Nat.sub_diag. cbn [app skipn].
    rewrite IH. cbn [bind]. f_equal. cbn [map flat_map length]. rewrite Nat.add_0_r. f_equal. rewrite <- seq_shift, map_map. apply map_ext. intros m.
    cbn [seq flat_map length]. rewrite app_length. unfold entry_of at 2. cbn [length]. lia.
  Qed.

  (** *** One share, then all *)
  Definition share_spec (g0 mine : nat) (d : grid_data N) : Prop :=
    gd_global d = nx * ny * nz /\ gd_num d = mine /\ gd_ids d = seq g0 mine /\ gd_points d = map centre_of (seq g0 mine) /\
    gd_volumes d = repeat vol mine /\ gd_list d = flat_map entry_of (seq g0 mine) /\ gd_size d = length (gd_list d) /\
    gd_ptr d = offsets g0 mine.

  Lemma share_ok g0 mine proc loc : at_ub (g_shares g) proc = Ok mine -> (exists cap, at_ub (g_shares g) (length (g_shares g) - 1) = Ok cap /\ mine <= cap) ->
    g0 + mine <= nx * ny * nz -> ci loc < nx -> cj loc < ny -> lin nx ny (ci loc) (cj loc) (ck loc) = g0 ->
    (Z.of_nat (mine + total room_of g0 mine) <= int_max)%Z ->
    exists loc' d, compute_share g proc loc = Ok (loc', d) /\ handed_over g0 mine loc' /\ share_spec g0 mine d.
  Proof.
    intros Hm (cap & Hc & Lc) Fit A B E Small. unfold compute_share. rewrite Hm, Hc. cbn [bind].
    assert (K : ck loc <= nz).
    { apply (Nat.mul_le_mono_pos_r _ _ (nx * ny)); [nia|]. unfold lin in E. rewrite Nat.mul_assoc. lia. }
    rewrite (size_ok g0 mine Fit loc A B K ltac:(auto)). unfold to_int. destruct (Z.leb_spec (Z.of_nat (mine + total room_of g0 mine)) int_max); [|lia]. cbn [bind].
    destruct (build_k_ok g0 mine Fit cap (mine + total room_of g0 mine) Lc eq_refl (nz - ck loc) (ck loc)
      {| b_i0 := ci loc; b_j0 := cj loc; b_cell := 0; b_loc := loc; b_ids := []; b_points := []; b_volumes := []; b_list := [] |} 0 eq_refl K) as (s & Es & Inv & Ho).
    - repeat split; cbn; lia.
    - intros _. cbn [b_i0 b_j0 b_loc]. repeat split; auto. rewrite E. lia.
    - intros Z0. assert (mine = 0) by lia. subst mine. split; [exact A|]. split; [exact B|]. cbn [b_loc]. rewrite E. lia.
    - rewrite Es. cbn [bind]. destruct Inv as (I1 & I2 & I3 & I4 & I5 & I6). rewrite I6, pointers_ok. cbn [bind].
      eexists. eexists. split; [reflexivity|]. split; [exact Ho|]. unfold share_spec. cbn. repeat split; auto.
  Qed.

  Fixpoint shares_spec (a : nat) (l : list nat) (ds : list (grid_data N)) : Prop :=
    match l, ds with
    | [], [] => True
    | m :: l', d :: ds' => share_spec a m d /\ shares_spec (a + m) l' ds'
    | _, _ => False
    end.

  Definition sum_list (l : list nat) : nat := fold_right Nat.add 0 l.
  Lemma remaining_ok : forall l pre loc a, g_shares g = pre ++ l -> (forall m, In m (g_shares g) -> m <= nth (length (g_shares g) - 1) (g_shares g) 0) ->
    a + sum_list l <= nx * ny * nz -> ci loc < nx -> cj loc < ny -> lin nx ny (ci loc) (cj loc) (ck loc) = a ->
    (Z.of_nat (nx * ny * nz + total room_of 0 (nx * ny * nz)) <= int_max)%Z ->
    exists ds, remaining_shares g (length l) (length pre) loc = Ok ds /\ shares_spec a l ds.
  Proof.
    induction l as [|m l IH]; intros pre loc a Es Big Fit A B E Small; [exists []; split; [reflexivity|exact I]|]. cbn [length remaining_shares]. cbn [sum_list fold_right] in Fit. fold (sum_list l) in Fit.
    assert (Hm : at_ub (g_shares g) (length pre) = Ok m).
    { unfold at_ub. rewrite Es, nth_error_app2, Nat.sub_diag by lia. reflexivity. }
    assert (Hl : exists cap, at_ub (g_shares g) (length (g_shares g) - 1) = Ok cap /\ m <= cap).
    { exists (nth (length (g_shares g) - 1) (g_shares g) 0). split.
      - unfold at_ub. rewrite (nth_error_nth' _ 0); [reflexivity|]. rewrite Es, app_length. cbn. lia.
      - apply Big. rewrite Es. apply in_or_app. right. now left. }
    assert (Sm : (Z.of_nat (m + total room_of a m) <= int_max)%Z).
    { assert (T : forall n b, total room_of 0 (b + n) = total room_of 0 b + total room_of b n).
      { induction n as [|n IHn]; intros b; [cbn; rewrite !Nat.add_0_r; reflexivity|]. replace (b + S n) with (S b + n) by lia. rewrite (IHn (S b)), total_snoc. cbn. lia. }
      pose proof (T m a). pose proof (total_more room_of (a + m) (nx * ny * nz) ltac:(lia) 0). lia. }
    destruct (share_ok a m (length pre) loc Hm Hl ltac:(lia) A B E Sm) as (loc' & d & -> & (H1 & H2 & H3) & Sp). cbn [bind fst snd].
    destruct (IH (pre ++ [m]) loc' (a + m)) as (ds & Ed & Sd); auto.
    - rewrite Es, <- app_assoc. reflexivity.
    - lia.
    - rewrite app_length in Ed. cbn in Ed. rewrite Nat.add_1_r in Ed. rewrite Ed. cbn [bind]. exists (d :: ds). split; [reflexivity|]. split; [exact Sp|exact Sd].
  Qed.
End Proofs.
