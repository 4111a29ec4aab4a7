(** * C21: bond filters cut the bonds that cross their surface; C57: no bonds between blocks *)
From Coq Require Import Reals Lra Psatz Permutation SpecFloat.
From Verif Require Import Base Num ModelGeom ModelFilter SpecGeom SpecFilter ProofGlobal ProofGeom ProofGeom2 ProofGeom3 ProofSphere ProofSphere2 ProofFilter ProofFilter2.
Local Open Scope R_scope.

(** ** Which bonds are cut *)

(** A rectangular plane with a unit normal and a unit vector along its bottom edge, as documented. *)
Theorem C21_plane (n corner b : point) (lb la : R) (p q : point) :
  vdot n n = 1 -> vdot b b = 1 -> vdot b n = 0 -> 0 < la -> 0 < lb ->
  (cuts (ByPlane (finite_plane n corner b lb la) false) p q = true <->
   / 10 ^ 14 <= extent n p q /\ exists y, segment p q y /\ rectangle_grown (/ 10 ^ 15) n corner b lb la y).
Proof. exact (plane_spec n corner b lb la p q). Qed.
Print Assumptions C21_plane.

Theorem C21_plane_crossing (n corner b : point) (lb la : R) (p q y : point) :
  vdot n n = 1 -> vdot b b = 1 -> vdot b n = 0 -> 0 < la -> 0 < lb ->
  / 10 ^ 14 <= extent n p q -> segment p q y -> rectangle n corner b lb la y ->
  cuts (ByPlane (finite_plane n corner b lb la) false) p q = true.
Proof.
  intros Hn Hb Hbn La Lb E S (s & t & A & B & ->). apply C21_plane; auto. split; [exact E|]. eexists. split; [exact S|]. exists s, t.
  assert (0 < / 10 ^ 15) by lra. repeat split; try lra; nra.
Qed.
Print Assumptions C21_plane_crossing.

Theorem C21_disk (centre n : point) (r : R) (p q : point) : 0 <= r ->
  (cuts (ByDisk centre n r) p q = true <-> / 10 ^ 15 <= extent n p q /\ exists y, segment p q y /\ disk centre n r y).
Proof. exact (disk_spec centre n r p q). Qed.
Print Assumptions C21_disk.

Theorem C21_triangle (a b c p q : point) : proper_triangle a b c ->
  (cuts (ByTriangle a b c) p q = true <->
   / 10 ^ 14 <= extent (normal_of a b c) p q /\ exists y, segment p q y /\ triangle_grown (/ 10 ^ 14) a b c y).
Proof. exact (triangle_filter_spec a b c p q). Qed.
Print Assumptions C21_triangle.

Theorem C21_triangle_crossing (a b c p q y : point) : proper_triangle a b c ->
  / 10 ^ 14 <= extent (normal_of a b c) p q -> segment p q y -> in_triangle a b c y ->
  cuts (ByTriangle a b c) p q = true.
Proof. intros P E S T. apply C21_triangle; auto. split; [exact E|]. exists y. split; [exact S|]. apply triangle_in_grown; [lra|exact T]. Qed.
Print Assumptions C21_triangle_crossing.

(** A plane quadrilateral counts as the two triangles at its diagonal from corner 1 to corner 3. *)
Theorem C21_quad (a b c d p q : point) : proper_triangle a b c -> proper_triangle a d c -> proper_triangle a b d ->
  vdot (vsub c a) (vcross (vsub b a) (vsub d a)) = 0 ->
  (cuts (ByQuad a b c d) p q = true <->
   / 10 ^ 14 <= extent (normal_of a b d) p q /\ exists y, segment p q y /\ (triangle_grown (/ 10 ^ 14) a b c y \/ triangle_grown (/ 10 ^ 14) a d c y)).
Proof. exact (quad_filter_spec a b c d p q). Qed.
Print Assumptions C21_quad.

(** In particular a convex plane quadrilateral counts as the convex hull of its corners. *)
Theorem C21_quad_crossing (a b c d p q y : point) : proper_triangle a b c -> proper_triangle a d c -> proper_triangle a b d -> convex_quad a b c d ->
  / 10 ^ 14 <= extent (normal_of a b d) p q -> segment p q y -> hull [a; b; c; d] y ->
  cuts (ByQuad a b c d) p q = true.
Proof.
  intros P1 P2 P3 C E S H.
  assert (F : dot (vsub c a) (vcross (vsub b a) (vsub d a)) = 0).
  { destruct C as (m & n & M & Nn & X). apply Rmult_eq_reg_l with m; [|lra]. rewrite Rmult_0_r.
    transitivity (dot (vsub (mix2 (1 - m) m a c) a) (vcross (vsub b a) (vsub d a))); [unfold mix2; destruct a, b, c, d; coords; ring|]. rewrite X.
    unfold mix2. destruct a, b, d. coords. ring. }
  apply C21_quad; auto. split; [exact E|]. exists y. split; [exact S|]. apply (convex_cover a b c d y C) in H as [H|H]; [left|right]; apply triangle_in_grown; auto; lra.
Qed.
Print Assumptions C21_quad_crossing.

(** Over the reals a bond is cut whichever end it is seen from, and no point is cut from itself. *)
Theorem C21_symmetric (f : filter RN) (p q : point) : cuts f p q = cuts f q p.
Proof. exact (cuts_sym f p q). Qed.
Print Assumptions C21_symmetric.

(** ** Neighbour lists *)

(** The neighbours of a point, over any numbers (the reals or binary64): its list is well formed, and
    is the list of the candidates in their order without those that a filter removes; a filter removes
    the point itself (unless told otherwise) and the other ends of the bonds it cuts, nothing else. *)
Theorem C21_neighbors (N : Num) (fs : list (filter N)) (ids : list nat) (pt : V3 N) (self : nat) (xs : list (V3 N)) :
  (forall u, In u ids -> (u < length xs)%nat) ->
  exists kept keeps, neighborhood_entry fs ids pt self xs = Ok (length kept :: kept) /\ kept = List.filter keeps ids /\
  forall u p, In u ids -> nth_error xs u = Some p ->
    (In u kept <-> forall f, In f fs -> ~ (u = self /\ include_self f = false) /\ cuts f pt p = false).
Proof.
  intros H. pose proof (entry_spec fs pt self xs ids H) as E. cbv zeta in E. eexists. eexists. split; [exact E|]. split; [reflexivity|].
  intros u p I X. rewrite filter_In, Bool.negb_true_iff. split.
  - intros (_ & D) f F. assert (Df : drops pt self xs f u = false).
    { apply Bool.not_true_is_false. intros T. assert (existsb (fun g => drops pt self xs g u) fs = true) by (apply existsb_exists; exists f; auto). congruence. }
    unfold drops in Df. rewrite X in Df. apply Bool.orb_false_iff in Df as (D1 & D2). split; [|exact D2]. intros (-> & S). rewrite Nat.eqb_refl, S in D1. discriminate.
  - intros K. split; [exact I|]. apply Bool.not_true_is_false. intros T. apply existsb_exists in T as (f & F & D). destruct (K f F) as (K1 & K2).
    unfold drops in D. rewrite X, K2, Bool.orb_false_r in D. apply Bool.andb_true_iff in D as (D1 & D2). apply Nat.eqb_eq in D1. apply K1. split; [auto|].
    now apply Bool.negb_true_iff in D2.
Qed.
Print Assumptions C21_neighbors.

(** The order of the filters does not matter, and repeating them changes nothing. *)
Theorem C21_order (N : Num) (fs fs' : list (filter N)) (ids : list nat) (pt : V3 N) (self : nat) (xs : list (V3 N)) :
  (forall u, In u ids -> (u < length xs)%nat) -> (forall f, In f fs <-> In f fs') ->
  neighborhood_entry fs ids pt self xs = neighborhood_entry fs' ids pt self xs.
Proof.
  intros H P. rewrite !entry_spec by exact H. assert (E : forall u, existsb (fun f => drops pt self xs f u) fs = existsb (fun f => drops pt self xs f u) fs').
  { intros u. apply bool_iff. rewrite !existsb_exists. split; intros (f & F & D); exists f; split; auto; now apply P. }
  assert (F : List.filter (fun u => negb (existsb (fun f => drops pt self xs f u) fs)) ids = List.filter (fun u => negb (existsb (fun f => drops pt self xs f u) fs')) ids).
  { apply filter_ext. intros u. now rewrite E. }
  now rewrite F.
Qed.
Print Assumptions C21_order.

(** If the candidates are symmetric, so are the filtered lists (over the reals). *)
Theorem C21_lists_symmetric (fs : list (filter RN)) (candidates : nat -> list nat) (xs : list point) (i j : nat) (pi pj : point) li lj :
  (forall k u, In u (candidates k) -> (u < length xs)%nat) -> (forall k u, In u (candidates k) <-> In k (candidates u)) ->
  nth_error xs i = Some pi -> nth_error xs j = Some pj ->
  neighborhood_entry fs (candidates i) pi i xs = Ok (length li :: li) ->
  neighborhood_entry fs (candidates j) pj j xs = Ok (length lj :: lj) ->
  (In j li <-> In i lj).
Proof.
  intros H S Xi Xj Ei Ej.
  rewrite entry_spec in Ei by (apply H). rewrite entry_spec in Ej by (apply H).
  assert (Li : li = List.filter (fun u => negb (existsb (fun f => drops pi i xs f u) fs)) (candidates i)) by (injection Ei; auto).
  assert (Lj : lj = List.filter (fun u => negb (existsb (fun f => drops pj j xs f u) fs)) (candidates j)) by (injection Ej; auto).
  clear Ei Ej. subst li lj. rewrite !filter_In, (S i j).
  assert (E : existsb (fun f => drops pi i xs f j) fs = existsb (fun f => drops pj j xs f i) fs).
  { induction fs as [|f fs' IH]; [reflexivity|]. cbn [existsb]. rewrite IH. f_equal. unfold drops. rewrite Xi, Xj, (cuts_sym f pi pj), (Nat.eqb_sym i j). reflexivity. }
  rewrite E. tauto.
Qed.
Print Assumptions C21_lists_symmetric.

(** A point is its own neighbour only if every filter includes it (over the reals). *)
Theorem C21_self (fs : list (filter RN)) (ids : list nat) (pt : point) (self : nat) (xs : list point) l :
  (forall u, In u ids -> (u < length xs)%nat) -> In self ids -> nth_error xs self = Some pt ->
  neighborhood_entry fs ids pt self xs = Ok (length l :: l) -> (In self l <-> forall f, In f fs -> include_self f = true).
Proof.
  intros H I X E. destruct (C21_neighbors RN fs ids pt self xs H) as (k & g & E' & _ & K). rewrite E' in E. injection E as _ <-.
  rewrite (K self pt I X). split; intros F f Ff; specialize (F f Ff).
  - destruct F as (F & _). destruct (include_self f); [reflexivity|exfalso; apply F; auto].
  - split; [intros (_ & Z); congruence|apply cuts_self].
Qed.
Print Assumptions C21_self.

(** As initial damage the same filters break exactly the bonds they cut. *)
Theorem C21_initial_damage (fs : list (filter RN)) (p q : point) :
  ((exists f, In f fs /\ cuts f p q = true) -> initial_bond_damage fs p q = Ok (1 : T RN)) /\
  ((forall f, In f fs -> cuts f p q = false) -> initial_bond_damage fs p q = Ok (0 : T RN)).
Proof.
  unfold initial_bond_damage. rewrite damage_from. split.
  - intros (f & F & C). assert (E : existsb (fun f => cuts f p q) fs = true) by (apply existsb_exists; exists f; auto). now rewrite E.
  - intros C. assert (E : existsb (fun f => cuts f p q) fs = false).
    { apply Bool.not_true_is_false. intros T. apply existsb_exists in T as (f & F & D). rewrite (C f F) in D. discriminate. }
    now rewrite E.
Qed.
Print Assumptions C21_initial_damage.

(** ** What does not hold *)

(** A bond is cut although it only ends on the surface (here: in the disk) and none of its inner
    points lies in the plane of the disk. *)
Theorem C21_end_on_surface_refuted (centre n : point) (r : R) (p q : point) : 0 <= r -> / 10 ^ 15 <= extent n p q -> disk centre n r q ->
  cuts (ByDisk centre n r) p q = true /\ (forall y, open_segment p q y -> ~ disk centre n r y).
Proof.
  intros R0 E D. split.
  - apply C21_disk; auto. split; [exact E|]. exists q. split; [|exact D]. exists 1. split; [lra|]. unfold mix2. vring.
  - intros y (t & T & ->) (Z & _). destruct D as (Zq & _). assert (X : dot (vsub q p) n = 0).
    { apply Rmult_eq_reg_l with (1 - t); [|lra]. rewrite Rmult_0_r.
      transitivity (dot (vsub q centre) n - dot (vsub (mix2 (1 - t) t p q) centre) n); [unfold mix2; destruct p, q, centre, n; coords; ring|].
      rewrite Zq, Z. apply Rminus_0_r. }
    unfold extent in E. rewrite X, Rabs_R0 in E. lra.
Qed.
Print Assumptions C21_end_on_surface_refuted.

(** A bond that crosses the disk is kept if its extent across the disk is below 1e-15, whatever the
    size of the disk and the unit of length: with coordinates given in small numbers nothing is cut. *)
Theorem C21_short_bond_refuted (centre n : point) (r : R) (p q y : point) : 0 <= r -> 0 < extent n p q < / 10 ^ 15 -> open_segment p q y -> disk centre n r y ->
  cuts (ByDisk centre n r) p q = false.
Proof.
  intros R0 E _ _. apply Bool.not_true_is_false. intros H. apply C21_disk in H as (H & _); [lra|exact R0].
Qed.
Print Assumptions C21_short_bond_refuted.

(** In binary64 the two ends of a bond can disagree.  Points of a grid of spacing 0.1 in the plane z = 0,
    disk with centre (0.6, 0.3, 0), unit normal (0.6, 0.8, 0) and radius 5: the bond between
    (1.5, 0, 0) and (1, 0, 0) is kept in the list of the former and dropped from that of the latter. *)
Definition d10 (k : Z) : spec_float := lit (n:=FN) k 10.
Definition grid_points : list (V3 FN) := [v3 (N:=FN) (d10 15) (d10 0) (d10 0); v3 (N:=FN) (d10 10) (d10 0) (d10 0)].
Definition tilted_disk : filter FN := ByDisk (N:=FN) (v3 (N:=FN) (d10 6) (d10 3) (d10 0)) (v3 (N:=FN) (d10 6) (d10 8) (d10 0)) (fofZ 5).
Theorem C21_symmetric_binary64_refuted :
  neighborhood_entry [tilted_disk] [0; 1]%nat (v3 (N:=FN) (d10 15) (d10 0) (d10 0)) 0 grid_points = Ok [1; 1]%nat /\
  neighborhood_entry [tilted_disk] [0; 1]%nat (v3 (N:=FN) (d10 10) (d10 0) (d10 0)) 1 grid_points = Ok [0]%nat.
Proof. split; vm_compute; reflexivity. Qed.
Print Assumptions C21_symmetric_binary64_refuted.

(** ** Bonds between blocks *)

(** With blocks numbered 1 to k the bonds within blocks stay, in order, the others go. *)
Theorem C57_between_blocks (k : nat) (block : list Z) (lists : list (list nat)) :
  (forall b, In b block -> (1 <= b <= Z.of_nat k)%Z) -> (forall ns n, In ns lists -> In n ns -> (n < length block)%nat) -> (length lists <= length block)%nat ->
  exists lists', omit_between_blocks k block lists = Ok lists' /\ length lists' = length lists /\
  forall i ns, nth_error lists i = Some ns ->
    exists same ns', nth_error lists' i = Some ns' /\ ns' = List.filter same ns /\
      (forall n, In n ns -> (In n ns' <-> nth_error block n = nth_error block i)).
Proof.
  intros B H L. eexists. split; [exact (omit_go k block lists 0 B H L)|]. split; [rewrite map_length, combine_length, seq_length; lia|].
  intros i ns E. assert (Li : (i < length lists)%nat) by (apply nth_error_Some; congruence).
  exists (fun n => (nth i block 0 =? nth n block 0)%Z), (List.filter (fun n => (nth i block 0 =? nth n block 0)%Z) ns).
  split; [|split; [reflexivity|]].
  - rewrite nth_error_map. assert (C : nth_error (combine (seq 0 (length lists)) lists) i = Some (i, ns)).
    { clear -E Li. assert (G : forall (l : list (list nat)) a j x, nth_error l j = Some x -> nth_error (combine (seq a (length l)) l) j = Some ((a + j)%nat, x)).
      { induction l as [|y l IH]; intros a [|j] x X; cbn in *; try discriminate; [injection X as <-; now rewrite Nat.add_0_r|]. rewrite (IH (S a) j x X). f_equal. f_equal. lia. }
      now rewrite (G lists 0%nat i ns E). }
    rewrite C. reflexivity.
  - intros n I. assert (Ln : (n < length block)%nat) by (apply (H ns); [eapply nth_error_In; exact E|exact I]).
    rewrite filter_In, Z.eqb_eq, (nth_error_nth' block 0%Z Ln), (nth_error_nth' block 0%Z) by lia. split; [intros (_ & X); congruence|intros X; split; [exact I|congruence]].
Qed.
Print Assumptions C57_between_blocks.

(** Symmetric lists stay symmetric. *)
Theorem C57_symmetric (k : nat) (block : list Z) (lists lists' : list (list nat)) i j li lj li' lj' :
  (forall b, In b block -> (1 <= b <= Z.of_nat k)%Z) -> (forall ns n, In ns lists -> In n ns -> (n < length block)%nat) -> (length lists <= length block)%nat ->
  omit_between_blocks k block lists = Ok lists' ->
  nth_error lists i = Some li -> nth_error lists j = Some lj -> nth_error lists' i = Some li' -> nth_error lists' j = Some lj' ->
  (In j li <-> In i lj) -> (In j li' <-> In i lj').
Proof.
  intros B H L E Ei Ej Ei' Ej' S. destruct (C57_between_blocks k block lists B H L) as (l2 & E2 & _ & K). rewrite E in E2. injection E2 as <-.
  destruct (K i li Ei) as (g & a & Xa & Ga & Ka). destruct (K j lj Ej) as (g' & b & Xb & Gb & Kb). rewrite Ei' in Xa. rewrite Ej' in Xb. injection Xa as <-. injection Xb as <-.
  split; intros I.
  - assert (J : In j li) by (rewrite Ga in I; now apply filter_In in I). apply Kb; [now apply S|]. symmetry. now apply Ka.
  - assert (J : In i lj) by (rewrite Gb in I; now apply filter_In in I). apply Ka; [now apply S|]. symmetry. now apply Kb.
Qed.
Print Assumptions C57_symmetric.

(** Block numbers are used as subscripts: with a number above the count of the blocks (blocks 1 and
    3, say) the first neighbour read is undefined behaviour, however the blocks are laid out. *)
Theorem C57_block_numbers_refuted (k : nat) (block : list Z) (n : nat) (ns : list nat) (lists : list (list nat)) (b : Z) (block' : list Z) :
  block = b :: block' -> (Z.of_nat k < b)%Z -> (n < length block)%nat ->
  omit_between_blocks k block ((n :: ns) :: lists) = UB.
Proof.
  intros -> Hb Hn. unfold omit_between_blocks. cbn [at_ub nth_error bind foldM].
  unfold at_ub at 1. destruct (nth_error (b :: block') n) as [b2|] eqn:E; [|apply nth_error_None in E; lia]. cbn [bind]. unfold bonded at 1.
  assert (C : (b <=? Z.of_nat k)%Z = false) by (apply Z.leb_gt; lia). rewrite C, Bool.andb_false_r. reflexivity.
Qed.
Print Assumptions C57_block_numbers_refuted.

(** ** Cases *)

(** A bond through the middle of the unit square z = 0 is cut by it as rectangle, as two triangles' quadrilateral and as triangle;
    one beside it is not. *)
Definition pt (x y z : R) : point := v3 (N:=RN) x y z.
Example C21_case :
  vdot (pt 0 0 1) (pt 0 0 1) = 1 /\ vdot (pt 1 0 0) (pt 1 0 0) = 1 /\ vdot (pt 1 0 0) (pt 0 0 1) = 0 /\
  cuts (ByPlane (finite_plane (N:=RN) (pt 0 0 1) (pt 0 1 0) (pt 1 0 0) 1 1) false) (pt (1/4) (1/4) (-1)) (pt (1/4) (1/4) 1) = true /\
  cuts (ByPlane (finite_plane (N:=RN) (pt 0 0 1) (pt 0 1 0) (pt 1 0 0) 1 1) false) (pt 2 0 (-1)) (pt 2 0 1) = false /\
  proper_triangle (pt 0 0 0) (pt 1 0 0) (pt 0 1 0) /\
  cuts (ByTriangle (pt 0 0 0) (pt 1 0 0) (pt 0 1 0)) (pt (1/4) (1/4) (-1)) (pt (1/4) (1/4) 1) = true /\
  convex_quad (pt 0 0 0) (pt 1 0 0) (pt 1 1 0) (pt 0 1 0) /\
  cuts (ByQuad (pt 0 0 0) (pt 1 0 0) (pt 1 1 0) (pt 0 1 0)) (pt (3/4) (3/4) (-1)) (pt (3/4) (3/4) 1) = true.
Proof.
  assert (Ex : extent (pt 0 0 1) (pt (1/4) (1/4) (-1)) (pt (1/4) (1/4) 1) = 2) by (unfold extent; cbn; to_R; rewrite Rabs_right; lra).
  assert (Pr : forall a b : point, vz (vcross a b) <> 0 -> vcross a b <> pt 0 0 0) by (intros a b H E; apply H; now rewrite E).
  assert (T1 : proper_triangle (pt 0 0 0) (pt 1 0 0) (pt 0 1 0)) by (apply Pr; cbn; lra).
  assert (T2 : proper_triangle (pt 0 0 0) (pt 1 0 0) (pt 1 1 0)) by (apply Pr; cbn; lra).
  assert (T3 : proper_triangle (pt 0 0 0) (pt 0 1 0) (pt 1 1 0)) by (apply Pr; cbn; lra).
  assert (No : forall b c : point, vcross (vsub b (pt 0 0 0)) (vsub c (pt 0 0 0)) = pt 0 0 1 -> normal_of (pt 0 0 0) b c = pt 0 0 1).
  { intros b c E. unfold normal_of. cbv zeta. rewrite E. assert (L : vlen (pt 0 0 1) = 1) by (unfold vlen; cbn; replace (0 * 0 + 0 * 0 + 1 * 1) with 1 by lra; apply sqrt_1). rewrite L. unfold vscale. cbn. unfold pt. f_equal; lra. }
  split; [cbn; lra|]. split; [cbn; lra|]. split; [cbn; lra|]. split; [|split; [|split; [exact T1|split; [|split]]]].
  - apply (C21_plane_crossing _ _ _ _ _ _ _ (pt (1/4) (1/4) 0)); [cbn; lra|cbn; lra|cbn; lra|lra|lra| | |].
    + replace (extent (pt 0 0 1) (pt (1/4) (1/4) (-1)) (pt (1/4) (1/4) 1)) with 2 by (symmetry; exact Ex). lra.
    + exists (1/2). split; [lra|]. unfold mix2, pt. apply vext; cbn; lra.
    + exists (3/4), (1/4). repeat split; try lra. unfold pt. apply vext; cbn; lra.
  - apply Bool.not_true_is_false. intros H. apply C21_plane in H; [|cbn; lra|cbn; lra|cbn; lra|lra|lra]. destruct H as (_ & y & (t & T & Y) & (s & u & S & U & Y')).
    apply (f_equal vx) in Y. apply (f_equal vx) in Y'. cbn in Y, Y'. rewrite Y in Y'. lra.
  - apply (C21_triangle_crossing _ _ _ _ _ (pt (1/4) (1/4) 0)); auto.
    + rewrite No; [rewrite Ex; lra|]. unfold pt. apply vext; cbn; lra.
    + exists (1/2). split; [lra|]. unfold mix2, pt. apply vext; cbn; lra.
    + exists (1/2), (1/4), (1/4). repeat split; try lra. unfold mix3, mix2, pt. apply vext; cbn; lra.
  - exists (1/2), (1/2). repeat split; try lra. unfold mix2, pt. apply vext; cbn; lra.
  - apply (C21_quad_crossing _ _ _ _ _ _ (pt (3/4) (3/4) 0)); auto.
    + exists (1/2), (1/2). repeat split; try lra. unfold mix2, pt. apply vext; cbn; lra.
    + rewrite No; [|unfold pt; apply vext; cbn; lra]. unfold extent. cbn. rewrite Rabs_right; lra.
    + exists (1/2). split; [lra|]. unfold mix2, pt. apply vext; cbn; lra.
    + replace (pt (3/4) (3/4) 0) with (mix2 (1 - 3/4) (3/4) (pt 0 0 0) (pt 1 1 0)) by (unfold mix2, pt; apply vext; cbn; lra).
      apply hull_mix; [lra| |]; apply hull_node; cbn; tauto.
Qed.

Example C21_refuted_case :
  / 10 ^ 15 <= extent (pt 0 0 1) (pt 0 0 (-1)) (pt 0 0 0) /\ disk (pt 0 0 0) (pt 0 0 1) 1 (pt 0 0 0) /\
  0 < extent (pt 0 0 1) (pt 0 0 (- / 10 ^ 16)) (pt 0 0 (/ 10 ^ 16)) < / 10 ^ 15 /\ open_segment (pt 0 0 (- / 10 ^ 16)) (pt 0 0 (/ 10 ^ 16)) (pt 0 0 0).
Proof.
  split; [|split; [|split]].
  - unfold extent. cbn. rewrite Rabs_right; lra.
  - split; [cbn; lra|]. apply dist_lt; [lra|]. cbn. lra.
  - assert (H : 0 < / 10 ^ 16 /\ 2 * / 10 ^ 16 < / 10 ^ 15) by lra. revert H. generalize (/ 10 ^ 15), (/ 10 ^ 16). intros d e H. unfold extent. cbn. rewrite Rabs_right; lra.
  - generalize (/ 10 ^ 16). intros e. exists (1/2). split; [lra|]. unfold mix2, pt. apply vext; cbn; lra.
Qed.

Example C57_case :
  omit_between_blocks 2 [1; 2; 1]%Z [[1; 2]; [0; 2]; [0; 1]]%nat = Ok [[2]; []; [0]]%nat /\
  omit_between_blocks 2 [3; 1; 1]%Z [[1; 2]; [0; 2]; [0; 1]]%nat = UB.
Proof. split; reflexivity. Qed.
