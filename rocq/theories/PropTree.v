(** * C22, C23, C24: the search tree *)
From Coq Require Import Reals Lra Lia Psatz Sorting.Sorted Permutation SpecFloat.
From Verif Require Import Base Num ModelScalar ModelTree SpecGeom SpecTree ProofTree ProofTree2.
Local Open Scope R_scope.

Section Cloud.
  Variable pos : nat -> point.
  Variable n : nat.
  Variable order : part.
  Hypothesis sorted : sorted_order pos n order.

  Lemma order_part : part_ok pos order.
  Proof. intros a. destruct (sorted a) as (P & S). split; [exact S|]. eapply Permutation_trans; [exact P|apply Permutation_sym, sorted]. Qed.
  Lemma order_in i : In i (order CompX) <-> (i < n)%nat.
  Proof. destruct (sorted CompX) as (P & _). split; intros H; [apply (Permutation_in _ P), in_seq in H; lia|apply (Permutation_in _ (Permutation_sym P)), in_seq; lia]. Qed.
  Lemma order_length : length (order CompX) = n.
  Proof. destruct (sorted CompX) as (P & _). rewrite (Permutation_length P). apply seq_length. Qed.
  Lemma order_nodup : NoDup (order CompX).
  Proof. destruct (sorted CompX) as (P & _). eapply Permutation_NoDup; [apply Permutation_sym, P|apply seq_NoDup]. Qed.

  Lemma get_tree_ok : all_distinct pos n -> exists t, get_tree (N:=RN) pos order n = Ok {| kd_points := n; kd_root := t |} /\
    ((0 < n)%nat -> tree_ok pos t /\ Permutation (leaves t) (seq 0 n)).
  Proof.
    intros D. unfold get_tree. destruct n as [|[|k]] eqn:E; [exists Null; split; [reflexivity|lia]|exists (Leaf 0); split; [reflexivity|]; intros _; split; [exact I|apply Permutation_refl]|].
    rewrite <- E in *. destruct (make_tree_ok pos (2 * n) (2 * n - 1) order order_part order_nodup) as (t & Et & P & O); [intros i j Hi Hj; apply D; now apply order_in|rewrite order_length; lia|rewrite order_length; lia|rewrite order_length; lia|].
    rewrite Et. cbn [bind fst]. exists t. split; [reflexivity|]. intros _. split; [exact O|]. eapply Permutation_trans; [exact P|apply sorted].
  Qed.
End Cloud.

Lemma distance_d2 (pos : nat -> point) i q : distance (pos i) q = sqrt (distance_squared (N:=RN) pos i q).
Proof. reflexivity. Qed.

Lemma whole_inside M p : representable M p -> inside (whole_range (N:=RN) M) p.
Proof. intros H c. specialize (H c). destruct c; exact H. Qed.

(** A point in the cube is within the radius or is examined; see kdtree.h 607-647. *)
Lemma sphere_real (px py pz cx cy cz r : R) (H : bool) : 0 <= r -> let h := 2 * r / sqrt 3 / 2 in let d := (px - cx) * (px - cx) + (py - cy) * (py - cy) + (pz - cz) * (pz - cz) in
  (H = true -> (cx - h <= px <= cx + h) /\ (cy - h <= py <= cy + h) /\ (cz - h <= pz <= cz + h)) ->
  (if H then true else Rleb ((cx - px) * (cx - px) + (cy - py) * (cy - py) + (cz - pz) * (cz - pz)) (r * r)) = true <-> sqrt d <= r.
Proof.
  intros R0 h d C. assert (Q0 : forall x : R, 0 <= x * x) by (intros x; nra). assert (Dnn : 0 <= d) by (clear C; unfold d; pose proof (Q0 (px - cx)); pose proof (Q0 (py - cy)); pose proof (Q0 (pz - cz)); lra).
  assert (Iff : sqrt d <= r <-> d <= r * r).
  { split; intros Q; [rewrite <- (sqrt_sqrt d Dnn); pose proof (sqrt_pos d); nra|]. apply Rsqr_incr_0_var; [|exact R0]. rewrite Rsqr_sqrt by exact Dnn. exact Q. }
  rewrite Iff. assert (Ed : (cx - px) * (cx - px) + (cy - py) * (cy - py) + (cz - pz) * (cz - pz) = d) by (unfold d; ring). rewrite Ed.
  destruct H; [|apply Rleb_true]. split; [intros _|reflexivity]. destruct (C eq_refl) as (X & Y & Z).
  assert (S3 : sqrt 3 * sqrt 3 = 3) by (apply sqrt_sqrt; lra). assert (S0 : 0 < sqrt 3) by (apply sqrt_lt_R0; lra).
  assert (Hh : 3 * (h * h) = r * r). { assert (E : h * sqrt 3 = r) by (unfold h; field; lra). rewrite <- E. replace (h * sqrt 3 * (h * sqrt 3)) with (h * h * (sqrt 3 * sqrt 3)) by ring. rewrite S3. ring. }
  assert (Sq : forall u v, u - h <= v <= u + h -> (v - u) * (v - u) <= h * h) by (intros; nra).
  pose proof (Sq cx px X). pose proof (Sq cy py Y). pose proof (Sq cz pz Z). unfold d. lra.
Qed.

Lemma sphere_spec (pos : nat -> point) center r i : contains_point (N:=RN) (cube (N:=RN) center r) (pos i) = true ->
  (if contains_point (N:=RN) (cube (N:=RN) center (2 * r / sqrt 3 / 2)) (pos i) then true
   else Rleb ((vx center - vx (pos i)) * (vx center - vx (pos i)) + (vy center - vy (pos i)) * (vy center - vy (pos i)) + (vz center - vz (pos i)) * (vz center - vz (pos i))) (r * r)) = true
  <-> distance (pos i) center <= r.
Proof.
  intros C. apply contains_spec in C. pose proof (C CompX) as (X1 & X2). refine (sphere_real _ _ _ _ _ _ _ _ _ _).
  - change (vx center - r <= vx (pos i)) in X1. change (vx (pos i) <= vx center + r) in X2. assert (Q : forall a b : R, a - r <= b -> b <= a + r -> 0 <= r) by (intros; lra). exact (Q _ _ X1 X2).
  - intros H. apply contains_spec in H. split; [exact (H CompX)|]. split; [exact (H CompY)|exact (H CompZ)].
Qed.

(** ** C22: for every cloud of distinct points, every result of sorting, every centre and radius, the
    search finds every point within the radius, each once, and no other. *)
Theorem C22_radius (M : R) (pos : nat -> point) (n : nat) (order : part) (center : point) (r : R) :
  sorted_order pos n order -> all_distinct pos n -> (forall i, (i < n)%nat -> representable M (pos i)) ->
  exists found, FindPointsWithinRadius (N:=RN) M pos order n center r = Ok found /\ NoDup found /\
    forall i, In i found <-> (i < n)%nat /\ distance (pos i) center <= r.
Proof.
  intros S D Rep. unfold FindPointsWithinRadius. destruct (get_tree_ok pos n order S D) as (t & Et & Ok_t). rewrite Et. cbn [bind]. unfold all_neighbors_within_radius.
  assert (Cube : exists l, all_neighbors_cube (N:=RN) M pos {| kd_points := n; kd_root := t |} center r = Ok l /\ NoDup l /\ (length l <= n)%nat /\ forall i, In i l <-> (i < n)%nat /\ contains_point (N:=RN) (cube (N:=RN) center r) (pos i) = true).
  { unfold all_neighbors_cube. cbn [kd_points kd_root]. destruct n as [|[|k]] eqn:E.
    - exists []. split; [reflexivity|]. split; [constructor|]. split; [cbn; lia|]. cbn. intros; split; [tauto|lia].
    - eexists. split; [reflexivity|]. destruct (contains_point _ _) eqn:C; (split; [repeat constructor; cbn; tauto|]; split; [cbn; lia|]); intros i; cbn; split.
      + intros [<-|[]]. split; [lia|exact C].
      + intros (Hi & _). left. lia.
      + tauto.
      + intros (Hi & Ci). assert (i = 0)%nat by lia. subst. congruence.
    - rewrite <- E in *. destruct Ok_t as (O & P); [lia|]. rewrite (search_ok pos _ t _ O).
      + eexists. split; [reflexivity|]. split; [apply NoDup_filter; eapply Permutation_NoDup; [apply Permutation_sym, P|apply seq_NoDup]|]. split.
        * pose proof (filter_split_length (fun i => contains_point (N:=RN) (cube (N:=RN) center r) (pos i)) (leaves t)) as L. rewrite (Permutation_length P), seq_length in L. lia.
        * intros i. rewrite filter_In. split; intros (A & B); (split; [|exact B]); [apply (Permutation_in _ P), in_seq in A; lia|apply (Permutation_in _ (Permutation_sym P)), in_seq; lia].
      + intros i Hi. apply whole_inside, Rep. apply (Permutation_in _ P), in_seq in Hi. lia. }
  destruct Cube as (l & El & Nd & Ll & In_l). rewrite El. cbn [bind kd_points].
  match goal with |- context [List.filter ?f l] => set (keep := f) end.
  assert (Lk : (length (List.filter keep l) <= n)%nat) by (pose proof (filter_split_length keep l); lia).
  destruct (Nat.leb_spec (length (List.filter keep l)) n); [|lia]. eexists. split; [reflexivity|]. split; [now apply NoDup_filter|].
  intros i. rewrite filter_In, In_l. split.
  - intros ((Hi & C) & K). split; [exact Hi|]. apply (sphere_spec pos center r i C). exact K.
  - intros (Hi & Dist).
    assert (C : contains_point (N:=RN) (cube (N:=RN) center r) (pos i) = true).
    { apply contains_spec. intros c. rewrite distance_d2 in Dist. pose proof (d2_coord pos i center c) as Dc. pose proof (d2_nonneg pos i center) as Dnn. pose proof (sqrt_pos (distance_squared (N:=RN) pos i center)) as Sp. pose proof (sqrt_sqrt _ Dnn) as Ss.
      set (s := sqrt (distance_squared (N:=RN) pos i center)) in *. rewrite <- Ss in Dc. change (coordinate (N:=RN) pos c i) with (get (N:=RN) (pos i) c) in Dc.
      assert (Gl : get (N:=RN) (low (cube (N:=RN) center r)) c = get (N:=RN) center c - r) by (destruct c; reflexivity). assert (Gh : get (N:=RN) (high (cube (N:=RN) center r)) c = get (N:=RN) center c + r) by (destruct c; reflexivity).
      rewrite Gl, Gh. set (x := get (N:=RN) (pos i) c) in *. set (y := get (N:=RN) center c) in *. change (y - r <= x <= y + r). change ((x - y) * (x - y) <= s * s) in Dc. split; nra. }
    split; [auto|]. apply (sphere_spec pos center r i C). exact Dist.
Qed.
Print Assumptions C22_radius.

(** In binary64 a point of the inscribed cube is accepted without a test of its distance, but the cube is
    rounded: with radius 1 around the origin the point (t,t,t) with t = 5200308914369309 / 2^53 is found,
    although 3 t^2 > 1. *)
Definition t64 : FN := S754_finite false 5200308914369309 (-53).
Theorem C22_binary64_refuted :
  FindPointsWithinRadius (N:=FN) (fofZ 1000) (fun _ => v3 t64 t64 t64) (fun _ => [0%nat]) 1 (v3 (N:=FN) (fofZ 0) (fofZ 0) (fofZ 0)) (fofZ 1) = Ok [0%nat] /\
  (3 * 5200308914369309 ^ 2 > (2 ^ 53) ^ 2)%Z.
Proof. split; [vm_compute; reflexivity|lia]. Qed.
Print Assumptions C22_binary64_refuted.

(** ** C23: the construction ends normally exactly for clouds without coincident points; with coincident
    points it takes nodes beyond the array of nodes, whatever the result of sorting. *)
Theorem C23_construction (pos : nat -> point) (n : nat) (order : part) : sorted_order pos n order ->
  all_distinct pos n -> exists t, get_tree (N:=RN) pos order n = Ok t.
Proof. intros S D. destruct (get_tree_ok pos n order S D) as (t & E & _). eauto. Qed.
Print Assumptions C23_construction.

Theorem C23_coincident_refuted (pos : nat -> point) (n : nat) (order : part) (i j : nat) : sorted_order pos n order ->
  (i < n)%nat -> (j < n)%nat -> i <> j -> pos i = pos j -> get_tree (N:=RN) pos order n = UB.
Proof.
  intros S Hi Hj Nij E. unfold get_tree. destruct n as [|[|k]] eqn:En; try lia. rewrite <- En in *.
  rewrite (make_tree_coincident pos (2 * n) (2 * n - 1) order i j (order_part pos n order S)); auto; now apply (order_in pos n order S).
Qed.
Print Assumptions C23_coincident_refuted.

(** In binary64 this also happens for two different points: 1 and the next larger number. *)
Definition one_up : FN := S754_finite false 4503599627370497 (-52).
Definition pos_adjacent (i : nat) : V3 FN := match i with O => v3 (N:=FN) (fofZ 1) (fofZ 0) (fofZ 0) | _ => v3 (N:=FN) one_up (fofZ 0) (fofZ 0) end.
Theorem C23_binary64_refuted : ltb (n:=FN) (fofZ 1) one_up = true /\
  match get_tree (N:=FN) pos_adjacent (fun _ => [0; 1]%nat) 2 with UB => true | _ => false end = true.
Proof. split; vm_compute; reflexivity. Qed.
Print Assumptions C23_binary64_refuted.

(** ** C24: the point found is a point of the cloud and none is nearer. *)
Theorem C24_nearest (M : R) (pos : nat -> point) (n : nat) (order : part) (q : point) :
  sorted_order pos n order -> all_distinct pos n -> (forall i, (i < n)%nat -> representable M (pos i)) -> (0 < n)%nat ->
  exists t b, get_tree (N:=RN) pos order n = Ok t /\ nearest_neighbor_search (N:=RN) M pos t q = Ok b /\
    (b < n)%nat /\ forall i, (i < n)%nat -> distance (pos b) q <= distance (pos i) q.
Proof.
  intros S D Rep N0. destruct (get_tree_ok pos n order S D) as (t & Et & Ok_t). destruct (Ok_t N0) as (O & P). unfold nearest_neighbor_search.
  destruct (nn_ok pos q t (whole_range (N:=RN) M) O) as (b & Eb & Ib & Mb).
  { intros i Hi. apply whole_inside, Rep. apply (Permutation_in _ P), in_seq in Hi. lia. }
  eexists. assert (Bn : (b < n)%nat) by (apply (Permutation_in _ P), in_seq in Ib; lia).
  assert (Res : match n with 0%nat => Err | 1%nat => Ok 0%nat | _ => nn_search (N:=RN) pos t (whole_range (N:=RN) M) q end = Ok b).
  { destruct n as [|[|k]]; [lia| |exact Eb]. f_equal. lia. }
  exists b. split; [exact Et|]. cbn [kd_points kd_root]. split; [exact Res|]. split; [exact Bn|]. intros i Hi. rewrite !distance_d2. apply sqrt_le_1; [apply d2_nonneg|apply d2_nonneg|].
  apply Mb. apply (Permutation_in _ (Permutation_sym P)), in_seq. lia.
Qed.
Print Assumptions C24_nearest.

(** An empty cloud is refused. *)
Theorem C24_empty (M : R) (pos : nat -> point) (order : part) (q : point) :
  exists t, get_tree (N:=RN) pos order 0 = Ok t /\ nearest_neighbor_search (N:=RN) M pos t q = Err.
Proof. eexists. split; reflexivity. Qed.
Print Assumptions C24_empty.

(** ** Cases: three points on the x axis *)
Definition pos_line (i : nat) : point := v3 (N:=RN) (INR i) 0 0.
Example C22_case : sorted_order pos_line 3 (fun _ => [0; 1; 2]%nat) /\ all_distinct pos_line 3 /\ (forall i, (i < 3)%nat -> representable 10 (pos_line i)).
Proof.
  split; [|split].
  - intros c. split; [apply Permutation_refl|]. destruct c; repeat constructor; unfold coordinate, pos_line; cbn [get vx vy vz]; try lra; cbn; lra.
  - intros i j Hi Hj E. injection E as E. now apply INR_eq.
  - intros i Hi c. destruct i as [|[|[|]]]; try lia; destruct c; cbn; lra.
Qed.
(** Two coincident points *)
Example C23_case : sorted_order (fun _ => v3 (N:=RN) 0 0 0) 2 (fun _ => [1; 0]%nat).
Proof. intros c. split; [apply perm_swap|]. repeat constructor; destruct c; cbn; lra. Qed.
(** The same searches in binary64 *)
Definition pos_line64 (i : nat) : V3 FN := v3 (N:=FN) (fofZ (Z.of_nat i)) (fofZ 0) (fofZ 0).
Example C22_case64 : FindPointsWithinRadius (N:=FN) (fofZ 1000) pos_line64 (fun _ => [0; 1; 2; 3; 4]%nat) 5 (v3 (N:=FN) (fofZ 2) (fofZ 0) (fofZ 0)) (fofZ 1) = Ok [1; 2; 3]%nat /\
  (let? t := get_tree (N:=FN) pos_line64 (fun _ => [0; 1; 2; 3; 4]%nat) 5 in nearest_neighbor_search (N:=FN) (fofZ 1000) pos_line64 t (v3 (N:=FN) (fofZ 7) (fofZ 1) (fofZ 0))) = Ok 4%nat.
Proof. split; vm_compute; reflexivity. Qed.
