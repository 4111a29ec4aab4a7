(** * Cylinders: distances of cells and the members of their lists *)
From Coq Require Import Reals Lra Lia Psatz.
From Verif Require Import Base Num ModelScalar ModelGrid ModelCylinder SpecGeom SpecGrid ProofGlobal ProofGeom ProofSphere ProofSphere2 ProofGrid ProofGrid2 ProofCylinder SpecCylinder.

(** ** Rays *)
Lemma mod_cases n x : 0 < n -> x < 3 * n -> (x < n /\ x mod n = x) \/ (n <= x < 2 * n /\ x mod n = x - n) \/ (2 * n <= x /\ x mod n = x - 2 * n).
Proof.
  intros N X. destruct (Nat.lt_ge_cases x n) as [L|L]; [left; split; [exact L|now apply Nat.mod_small]|]. right. destruct (Nat.lt_ge_cases x (2 * n)) as [L2|L2]; [left|right]; (split; [lia|]).
  - replace x with (x - n + 1 * n) at 1 by lia. rewrite Nat.mod_add by lia. apply Nat.mod_small. lia.
  - replace x with (x - 2 * n + 2 * n) at 1 by lia. rewrite Nat.mod_add by lia. apply Nat.mod_small. lia.
Qed.
Lemma apart_mod n j u : j < n -> u < n -> (j + n - u) mod n = if j <? u then j + n - u else j - u.
Proof. intros J U. destruct (mod_cases n (j + n - u)) as [(A & ->)|[(A & ->)|(A & ->)]]; [lia|lia|destruct (Nat.ltb_spec j u); lia..]. Qed.
Lemma rays_in h n j u : j < n -> u < n -> h <= n -> (In u (rays_of h n j) <-> Nat.min ((j + n - u) mod n) ((u + n - j) mod n) <= h).
Proof.
  intros J U H. unfold rays_of. rewrite in_map_iff.
  assert (A : (j + n - u) mod n = if j <? u then j + n - u else j - u) by (destruct (mod_cases n (j + n - u)) as [(A & ->)|[(A & ->)|(A & ->)]]; [lia|lia|destruct (Nat.ltb_spec j u); lia..]).
  assert (B : (u + n - j) mod n = if u <? j then u + n - j else u - j) by (destruct (mod_cases n (u + n - j)) as [(B & ->)|[(B & ->)|(B & ->)]]; [lia|lia|destruct (Nat.ltb_spec u j); lia..]).
  rewrite A, B. split.
  - intros (m & E & I). apply in_seq in I. destruct (mod_cases n (j + n - h + m)) as [(C & F)|[(C & F)|(C & F)]]; [lia|lia|..]; rewrite F in E; destruct (Nat.ltb_spec j u); destruct (Nat.ltb_spec u j); lia.
  - intros M. set (a := if j <? u then j + n - u else j - u) in *. set (b := if u <? j then u + n - j else u - j) in *.
    destruct (Nat.le_gt_cases a h) as [L|L]; [exists (h - a)|exists (h + b)]; (split; [|apply in_seq; lia]).
    + destruct (mod_cases n (j + n - h + (h - a))) as [(C & ->)|[(C & ->)|(C & ->)]]; unfold a in *; destruct (Nat.ltb_spec j u); lia.
    + destruct (mod_cases n (j + n - h + (h + b))) as [(C & ->)|[(C & ->)|(C & ->)]]; unfold b in *; destruct (Nat.ltb_spec u j); lia.
Qed.
Lemma rays_nodup h n j : j < n -> 2 * h + 1 <= n -> NoDup (rays_of h n j).
Proof.
  intros J H. unfold rays_of. apply (NoDup_nth _ 0). rewrite map_length, seq_length. intros a b A B E.
  rewrite !(nth_indep _ 0 ((fun m => (j + n - h + m) mod n) 0)) in E by (rewrite map_length, seq_length; lia). rewrite !(map_nth (fun m => (j + n - h + m) mod n)) in E. rewrite !seq_nth in E by lia. cbn [Nat.add] in E.
  destruct (mod_cases n (j + n - h + a) ltac:(assumption || lia) ltac:(assumption || lia)) as [(C & F)|[(C & F)|(C & F)]]; destruct (mod_cases n (j + n - h + b) ltac:(assumption || lia) ltac:(assumption || lia)) as [(D & G)|[(D & G)|(D & G)]]; lia.
Qed.
Lemma count_two {A} (dec : forall x y : A, {x = y} + {x <> y}) l a b x : a < b -> nth_error l a = Some x -> nth_error l b = Some x -> 2 <= count_occ dec l x.
Proof.
  revert a b. induction l as [|y l IH]; intros a b L A0 B0; [destruct a; discriminate|]. destruct b as [|b]; [lia|]. cbn in B0. destruct a as [|a]; cbn in A0.
  - injection A0 as ->. cbn. destruct (dec x x) as [_|C]; [|congruence]. assert (count_occ dec l x > 0) by (apply count_occ_In; eapply nth_error_In; eauto). lia.
  - specialize (IH a b ltac:(lia) A0 B0). cbn. destruct (dec y x); lia.
Qed.
Lemma rays_twice h n j : j < n -> h <= n -> n < 2 * h + 1 -> 2 <= count_occ Nat.eq_dec (rays_of h n j) ((j + h) mod n).
Proof.
  intros J H L. apply (count_two _ _ (2 * h - n) (2 * h)); [lia| |]; unfold rays_of; rewrite nth_error_map, (nth_error_nth' _ 0), seq_nth by (rewrite ?seq_length; lia); cbn [option_map Nat.add]; f_equal.
  - f_equal. lia.
  - replace (j + n - h + 2 * h) with (j + h + 1 * n) by lia. apply Nat.mod_add. lia.
Qed.

(** ** Occurrences in the list *)
Lemma count_flat (f : nat -> list nat) l t m : (forall x, In x l -> x <> t -> count_occ Nat.eq_dec (f x) m = 0) ->
  count_occ Nat.eq_dec (flat_map f l) m = count_occ Nat.eq_dec l t * count_occ Nat.eq_dec (f t) m.
Proof.
  induction l as [|x l IH]; intros H; [reflexivity|]. cbn [flat_map count_occ]. rewrite count_occ_app, IH by (intros; apply H; [now right|assumption]).
  destruct (Nat.eq_dec x t) as [->|D]; [cbn; lia|]. rewrite (H x (or_introl eq_refl) D). lia.
Qed.
Lemma count_seq a n t : count_occ Nat.eq_dec (seq a n) t = if in_dec Nat.eq_dec t (seq a n) then 1 else 0.
Proof.
  destruct (in_dec _ _ _) as [I|I]; [|now apply count_occ_not_In]. pose proof (proj1 (NoDup_count_occ Nat.eq_dec (seq a n)) (seq_NoDup n a) t). apply (count_occ_In Nat.eq_dec) in I. lia.
Qed.
Lemma count_none (l : list nat) m : ~ In m l -> count_occ Nat.eq_dec l m = 0.
Proof. apply count_occ_not_In. Qed.


Section Count.
  Context {N : Num} (g : cylinder N).
  Notation nx := (cells (c_sr g)).
  Notation ny := (cells (c_st g)).
  Notation nz := (cells (c_sz g)).
  Hypothesis Hx : 0 < nx.
  Hypothesis Hy : 0 < ny.
  Hypothesis Lr : c_hr g <= nx.

  Lemma count_nbs i j k ii jj kk : i < nx -> ii < nx -> jj < ny ->
    count_occ Nat.eq_dec (nbs g i j k) (lin nx ny ii jj kk) =
    count_occ Nat.eq_dec (seq (hstart (c_hz g) k) (hcells (c_hz g) nz k)) kk * (count_occ Nat.eq_dec (rays_of (c_ht g) ny j) jj *
      (count_occ Nat.eq_dec (seq (hstart (c_hr g) i) (hcells (c_hr g) nx i)) ii * (if keeps g i j k ii jj kk then 1 else 0))).
  Proof.
    intros I0 A B. unfold nbs. set (m := lin nx ny ii jj kk). destruct (lin_decode nx ny Hx Hy ii jj kk A B) as (D1 & D2 & D3). fold m in D1, D2, D3.
    assert (In1 : forall u v w, u < nx -> v < ny -> lin nx ny u v w = m -> u = ii /\ v = jj /\ w = kk).
    { intros u v w U V E. destruct (lin_decode nx ny Hx Hy u v w U V) as (F1 & F2 & F3). rewrite E in F1, F2, F3. rewrite D1 in F1. rewrite D2 in F2. rewrite D3 in F3. auto. }
    assert (Hi : forall u, In u (seq (hstart (c_hr g) i) (hcells (c_hr g) nx i)) -> u < nx) by (intros u I; apply in_range in I; [lia|auto|auto]).
    rewrite (count_flat _ _ kk).
    2:{ intros w W Dw. apply count_none. rewrite in_flat_map. intros (v & V & I). apply rays_lt in V; [|lia]. apply in_flat_map in I as (u & U & I). apply Hi in U.
      destruct (keeps g i j k u v w); [|destruct I]. destruct I as [I|[]]. destruct (In1 _ _ _ U V I) as (_ & _ & ?). contradiction. }
    f_equal. rewrite (count_flat _ _ jj).
    2:{ intros v V Dv. apply rays_lt in V; [|lia]. apply count_none. rewrite in_flat_map. intros (u & U & I). apply Hi in U.
      destruct (keeps g i j k u v kk); [|destruct I]. destruct I as [I|[]]. destruct (In1 _ _ _ U V I) as (_ & ? & _). contradiction. }
    f_equal. rewrite (count_flat _ _ ii).
    2:{ intros u U Du. apply Hi in U. apply count_none. intros I. destruct (keeps g i j k u jj kk); [|destruct I]. destruct I as [I|[]]. destruct (In1 _ _ _ U B I) as (? & _). contradiction. }
    f_equal. destruct (keeps g i j k ii jj kk); [|reflexivity]. cbn. destruct (Nat.eq_dec _ _) as [_|C]; [reflexivity|]. now contradict C.
  Qed.
End Count.

Local Open Scope R_scope.

(** ** Distances *)
Lemma place_distance t n m x y : 
  let r1 := ring_radius t (ring_of t n) in let r2 := ring_radius t (ring_of t m) in
  let s := sin ((INR (ray_of t n) - INR (ray_of t m)) * (ray_angle t / 2)) in
  let z := (INR (layer_of t n) - INR (layer_of t m)) * layer_height t in
  dot (vsub (place t x y n) (place t x y m)) (vsub (place t x y n) (place t x y m)) = (r1 - r2) * (r1 - r2) + 4 * r1 * r2 * (s * s) + z * z.
Proof.
  cbv zeta. set (r1 := ring_radius t (ring_of t n)). set (r2 := ring_radius t (ring_of t m)).
  set (a := (INR (ray_of t n) + / 2) * ray_angle t). set (b := (INR (ray_of t m) + / 2) * ray_angle t).
  set (s := sin ((INR (ray_of t n) - INR (ray_of t m)) * (ray_angle t / 2))). set (z := (INR (layer_of t n) - INR (layer_of t m)) * layer_height t).
  assert (C : cos (a - b) = 1 - 2 * s * s).
  { unfold s. rewrite <- cos_2a_sin. f_equal. unfold a, b. field. }
  rewrite cos_minus in C. pose proof (sin2_cos2 a) as A1. pose proof (sin2_cos2 b) as B1. unfold Rsqr in A1, B1.
  assert (E : dot (vsub (place t x y n) (place t x y m)) (vsub (place t x y n) (place t x y m)) = (r1 * cos a - r2 * cos b) * (r1 * cos a - r2 * cos b) + (r1 * sin a - r2 * sin b) * (r1 * sin a - r2 * sin b) + z * z).
  { unfold place. fold r1 r2 a b. cbn. unfold z. ring. }
  rewrite E. replace ((r1 * cos a - r2 * cos b) * (r1 * cos a - r2 * cos b) + (r1 * sin a - r2 * sin b) * (r1 * sin a - r2 * sin b)) with
    (r1 * r1 * (sin a * sin a + cos a * cos a) + r2 * r2 * (sin b * sin b + cos b * cos b) - 2 * r1 * r2 * (cos a * cos b + sin a * sin b)) by ring.
  rewrite A1, B1, C. match goal with |- ?x = ?y => change (@eq R x y) end. ring.
Qed.

(** The angle between two rays, by the shorter way round *)
Lemma apart_sin t j j' : (j < t_rays t)%nat -> (j' < t_rays t)%nat ->
  let s := sin ((INR j - INR j') * (ray_angle t / 2)) in let d := rays_apart t j j' in
  s * s = sin (INR d * (PI / INR (t_rays t))) * sin (INR d * (PI / INR (t_rays t))) /\ 2 * INR d <= INR (t_rays t).
Proof.
  intros J J'. cbv zeta. assert (N0 : 0 < INR (t_rays t)) by (apply lt_0_INR; lia).
  assert (Sq : forall a b : R, (a = b \/ a = - b) -> a * a = b * b) by (intros a b [E|E]; rewrite E; ring).
  assert (D : (j' <= j)%nat /\ (rays_apart t j j' = (j - j')%nat /\ (2 * (j - j') <= t_rays t)%nat \/ rays_apart t j j' = (t_rays t - (j - j'))%nat /\ (t_rays t <= 2 * (j - j'))%nat) \/
              (j < j')%nat /\ (rays_apart t j j' = (j' - j)%nat /\ (2 * (j' - j) <= t_rays t)%nat \/ rays_apart t j j' = (t_rays t - (j' - j))%nat /\ (t_rays t <= 2 * (j' - j))%nat)).
  { unfold rays_apart. rewrite (apart_mod _ j j' J J'), (apart_mod _ j' j J' J). destruct (Nat.ltb_spec j j'); destruct (Nat.ltb_spec j' j); lia. }
  assert (H2 : forall u : nat, (2 * u <= t_rays t)%nat -> 2 * INR u <= INR (t_rays t)) by (intros u U; apply le_INR in U; rewrite mult_INR in U; exact U).
  assert (Half : ray_angle t / 2 = PI / INR (t_rays t)) by (unfold ray_angle; field; lra). rewrite Half. set (w := PI / INR (t_rays t)). assert (W : INR (t_rays t) * w = PI) by (unfold w; field; lra).
  destruct D as [(L & [(-> & D)|(-> & D)])|(L & [(-> & D)|(-> & D)])].
  - split; [|now apply H2]. apply Sq. left. rewrite minus_INR by lia. reflexivity.
  - split; [|apply H2; lia]. apply Sq. left. rewrite !minus_INR by lia. rewrite <- sin_PI_x. f_equal. rewrite <- W. ring.
  - split; [|now apply H2]. apply Sq. right. rewrite minus_INR by lia. rewrite <- sin_neg. f_equal. ring.
  - split; [|apply H2; lia]. apply Sq. right. rewrite !minus_INR by lia. replace ((INR j - INR j') * w) with (- ((INR j' - INR j) * w)) by ring. rewrite sin_neg. apply f_equal. rewrite <- sin_PI_x. apply f_equal. rewrite <- W. ring.
Qed.
