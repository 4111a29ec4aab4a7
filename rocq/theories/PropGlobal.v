(** * C48 global output quantities, C50 time-dependent data files *)
From Coq Require Import Reals Lra Permutation.
From Verif Require Import Base Num ModelScalar ModelGlobal SpecGlobal ProofGlobal ProofGlobal2.
Local Open Scope R_scope.
Opaque dbl_max dbl_min.

Lemma Rsum2 (a b : R) : Rsum [a; b] = a + b.
Proof. rewrite !Rsum_cons, Rsum_nil. lra. Qed.

(** ** C48 *)
(** Kinetic energy: the sum over all points, for any processors and blocks. *)
Theorem C48_kinetic_energy_is_the_sum : forall w psss n,
  world_points w psss -> same_blocks n w ->
  global_ke w = Ok (Rsum (map kinetic (all_points psss))).
Proof. exact global_ke_ok. Qed.
(** Two decompositions of the same points give the same number. *)
Theorem C48_kinetic_energy_independent_of_decomposition : forall w psss n w' psss' n',
  world_points w psss -> same_blocks n w -> world_points w' psss' -> same_blocks n' w' ->
  Permutation (all_points psss) (all_points psss') -> global_ke w = global_ke w'.
Proof.
  intros w psss n w' psss' n' W S W' S' P. rewrite (global_ke_ok w psss n W S), (global_ke_ok w' psss' n' W' S').
  apply f_equal. apply Rsum_perm. now apply Permutation_map.
Qed.
Print Assumptions C48_kinetic_energy_is_the_sum.
Print Assumptions C48_kinetic_energy_independent_of_decomposition.

(** Linear and angular momentum: what is computed for any number of blocks is the sum over
    the blocks of the magnitudes. *)
Theorem C48_linear_momentum_is_sum_of_block_magnitudes : forall w psss n,
  world_points w psss -> same_blocks n w ->
  global_lm w = Ok (Rsum (map (fun k => vlen (Vsum (map momentum (block_column k psss)))) (seq 0 n))).
Proof. intros w psss n W S. exact (global_mom_ok local_lm momentum local_lm_ok w psss n W S). Qed.
Theorem C48_angular_momentum_is_sum_of_block_magnitudes : forall w psss n,
  world_points w psss -> same_blocks n w ->
  global_am w = Ok (Rsum (map (fun k => vlen (Vsum (map ang_momentum (block_column k psss)))) (seq 0 n))).
Proof.
  intros w psss n W S. etransitivity; [exact (global_mom_ok local_am ang_neg local_am_ok w psss n W S)|].
  apply f_equal, f_equal, map_ext. intros k. apply vlen_neg.
Qed.
(** With one block this is the magnitude of the total momentum.  Missing for the full
    claim: several blocks, where it is false (refuted below). *)
Theorem C48_linear_momentum_one_block_partial : forall w psss,
  world_points w psss -> same_blocks 1 w ->
  global_lm w = Ok (vlen (Vsum (map momentum (all_points psss)))).
Proof.
  intros w psss W S. rewrite (C48_linear_momentum_is_sum_of_block_magnitudes w psss 1 W S).
  rewrite (one_block psss (rank_len _ _ W 1 (proj2 S))). apply f_equal. exact (Rplus_0_r _).
Qed.
Theorem C48_angular_momentum_one_block_partial : forall w psss,
  world_points w psss -> same_blocks 1 w ->
  global_am w = Ok (vlen (Vsum (map ang_momentum (all_points psss)))).
Proof.
  intros w psss W S. rewrite (C48_angular_momentum_is_sum_of_block_magnitudes w psss 1 W S).
  rewrite (one_block psss (rank_len _ _ W 1 (proj2 S))). apply f_equal. exact (Rplus_0_r _).
Qed.
(** In general the number is at least the magnitude of the total. *)
Theorem C48_momentum_never_underestimated : forall w psss n,
  world_points w psss -> same_blocks n w ->
  exists p l, global_lm w = Ok (p : R) /\ global_am w = Ok (l : R) /\
    vlen (Vsum (map momentum (all_points psss))) <= p /\
    vlen (Vsum (map ang_momentum (all_points psss))) <= l.
Proof.
  intros w psss n W S. eexists. eexists. split; [exact (C48_linear_momentum_is_sum_of_block_magnitudes w psss n W S)|].
  split; [exact (C48_angular_momentum_is_sum_of_block_magnitudes w psss n W S)|].
  pose proof (rank_len _ _ W n (proj2 S)). split; now apply total_le.
Qed.
Print Assumptions C48_linear_momentum_is_sum_of_block_magnitudes.
Print Assumptions C48_angular_momentum_is_sum_of_block_magnitudes.
Print Assumptions C48_linear_momentum_one_block_partial.
Print Assumptions C48_angular_momentum_one_block_partial.
Print Assumptions C48_momentum_never_underestimated.

(** One processor, two blocks of one point each. *)
Definition vec (a b c : R) : V3 RN := v3 (N:=RN) a b c.
Definition ex_block (id : Z) (v : R) (d : R) : rblock RN :=
  {| rb_id := id; rb_rho := 2 : T RN; rb_owned := [0%nat]; rb_vol := [1 : T RN]; rb_vel := [vec v 0 0];
     rb_y := [vec 0 1 0]; rb_x := [vec 0 1 0]; rb_gid := [id]; rb_data := [d : T RN] |}.
Definition ex_point (id : Z) (v d : R) : point :=
  {| p_rho := 2; p_vol := 1; p_v := vec v 0 0; p_y := vec 0 1 0; p_x := vec 0 1 0; p_id := id; p_val := d |}.
Lemma ex_points id v d : block_points (ex_block id v d) [ex_point id v d].
Proof. constructor; [|constructor]. repeat split; reflexivity. Qed.
Definition ex_w (v v' d d' : R) : list (rank RN) := [[ex_block 1 v d; ex_block 2 v' d']].
Definition ex_ps (v v' d d' : R) := [[[ex_point 1 v d]; [ex_point 2 v' d']]].
Lemma ex_world v v' d d' : world_points (ex_w v v' d d') (ex_ps v v' d d').
Proof. repeat constructor; apply ex_points. Qed.
Lemma ex_same v v' d d' : same_blocks 2 (ex_w v v' d d').
Proof. split; [discriminate|]. repeat constructor. Qed.
Lemma ex_first v v' d d' : owned_first (ex_w v v' d d').
Proof. intros r b [<-|[]] [<-|[<-|[]]]; reflexivity. Qed.
Lemma vlen_x a : vlen (vec a 0 0) = Rabs a.
Proof. unfold vlen, vdot, vec. cbn. rewrite <- sqrt_Rsqr_abs. f_equal. unfold Rsqr. lra. Qed.
Lemma vlen_z a : vlen (vec 0 0 a) = Rabs a.
Proof. unfold vlen, vdot, vec. cbn. rewrite <- sqrt_Rsqr_abs. f_equal. unfold Rsqr. lra. Qed.

(** Two blocks moving against each other at any speed: the total momentum is zero, the
    number reported is not. *)
Theorem C48_momentum_of_several_blocks_refuted : forall v, v <> 0 ->
  exists w psss, world_points w psss /\ same_blocks 2 w /\
    Vsum (map momentum (all_points psss)) = vec 0 0 0 /\ Vsum (map ang_momentum (all_points psss)) = vec 0 0 0 /\
    global_lm w = Ok (4 * Rabs v : T RN) /\ global_am w = Ok (4 * Rabs v : T RN).
Proof.
  intros v Hv. exists (ex_w v (- v) 0 0), (ex_ps v (- v) 0 0). split; [apply ex_world|]. split; [apply ex_same|].
  assert (E1 : forall u i d, Vsum (map momentum [ex_point i u d]) = vec (2 * u) 0 0).
  { intros. unfold Vsum, momentum, mass, ex_point, vec. cbn. rewrite !Rsum_cons, !Rsum_nil. apply vext; cbn; ring. }
  assert (E2 : forall u i d, Vsum (map ang_momentum [ex_point i u d]) = vec 0 0 (-2 * u)).
  { intros. unfold Vsum, ang_momentum, mass, ex_point, vec, vcross. cbn. rewrite !Rsum_cons, !Rsum_nil. apply vext; cbn; ring. }
  assert (AL : forall q, Vsum (map q (all_points (ex_ps v (- v) 0 0))) = vadd (N:=RN) (Vsum (map q [ex_point 1 v 0])) (Vsum (map q [ex_point 2 (- v) 0]))).
  { intros q. rewrite <- Vsum_app. reflexivity. }
  split; [rewrite AL, !E1; apply vext; cbn; ring|]. split; [rewrite AL, !E2; apply vext; cbn; ring|].
  split.
  - rewrite (C48_linear_momentum_is_sum_of_block_magnitudes _ _ _ (ex_world v (- v) 0 0) (ex_same v (- v) 0 0)).
    apply f_equal. etransitivity; [exact (Rsum2 _ _)|].
    change (block_column 0 (ex_ps v (- v) 0 0)) with [ex_point 1 v 0]. change (block_column 1 (ex_ps v (- v) 0 0)) with [ex_point 2 (- v) 0].
    rewrite !E1, !vlen_x. replace (2 * - v) with (- (2 * v)) by ring. rewrite Rabs_Ropp, Rabs_mult, (Rabs_pos_eq 2) by lra. ring.
  - rewrite (C48_angular_momentum_is_sum_of_block_magnitudes _ _ _ (ex_world v (- v) 0 0) (ex_same v (- v) 0 0)).
    apply f_equal. etransitivity; [exact (Rsum2 _ _)|].
    change (block_column 0 (ex_ps v (- v) 0 0)) with [ex_point 1 v 0]. change (block_column 1 (ex_ps v (- v) 0 0)) with [ex_point 2 (- v) 0].
    rewrite !E2, !vlen_z. replace (-2 * - v) with (2 * v) by ring. replace (-2 * v) with (- (2 * v)) by ring.
    rewrite Rabs_Ropp, Rabs_mult, (Rabs_pos_eq 2) by lra. ring.
Qed.
Print Assumptions C48_momentum_of_several_blocks_refuted.

(** Block_Data. *)
Theorem C48_block_minimum : forall bid w psss,
  world_points w psss -> owned_first w -> w <> [] -> points_of bid w psss <> [] ->
  (forall p, In p (points_of bid w psss) -> p_val p <= dbl_max (N:=RN)) ->
  exists m, block_data_value Minimum bid w = Ok (m : R) /\ is_least (map p_val (points_of bid w psss)) m.
Proof.
  intros bid w psss W O NE NP B. destruct (block_min bid w psss W O NE) as (m & E & H & Hle & Hall).
  exists m. split; [exact E|]. split; [|exact Hall]. destruct H as [H|H]; [|exact H].
  destruct (points_of bid w psss) as [|p t]; [now destruct NP|]. 
  assert (p_val p = m).
  { apply Rle_antisym; [rewrite H; apply B; now left|apply Hall; now left]. }
  left. exact H0.
Qed.
(** Missing for the full claim: values all below DBL_MIN, in particular all negative. *)
Theorem C48_block_maximum_partial : forall bid w psss,
  world_points w psss -> owned_first w -> w <> [] ->
  (exists p, In p (points_of bid w psss) /\ dbl_min (N:=RN) <= p_val p) ->
  exists m, block_data_value Maximum bid w = Ok (m : R) /\ is_greatest (map p_val (points_of bid w psss)) m.
Proof.
  intros bid w psss W O NE (p & Hp & HB). destruct (block_max bid w psss W O NE) as (m & E & H & Hle & Hall).
  exists m. split; [exact E|]. split; [|exact Hall]. destruct H as [H|H]; [|exact H].
  assert (p_val p = m).
  { apply Rle_antisym; [apply Hall; now apply in_map|]. rewrite H. exact HB. }
  rewrite <- H0. now apply in_map.
Qed.
(** Whenever all values are below the smallest positive normal double (zero and negative
    values included), the "maximum" is that number, which is no value of the block. *)
Theorem C48_block_maximum_refuted : forall bid w psss,
  world_points w psss -> owned_first w -> w <> [] ->
  (forall p, In p (points_of bid w psss) -> p_val p < dbl_min (N:=RN)) ->
  block_data_value Maximum bid w = Ok (dbl_min (N:=RN)) /\
  ~ In (dbl_min (N:=RN)) (map p_val (points_of bid w psss)).
Proof.
  intros bid w psss W O NE B. destruct (block_max bid w psss W O NE) as (m & E & H & Hle & Hall).
  assert (NI : forall x, In x (map p_val (points_of bid w psss)) -> x < dbl_min (N:=RN)).
  { intros x Hx. apply in_map_iff in Hx as (p & <- & Hp). now apply B. }
  destruct H as [H|H].
  - rewrite H in E. split; [exact E|]. intros C. exact (Rlt_irrefl _ (NI _ C)).
  - exfalso. exact (Rlt_irrefl _ (Rle_lt_trans _ _ _ Hle (NI _ H))).
Qed.
Theorem C48_block_sum : forall bid w psss,
  world_points w psss -> owned_first w -> w <> [] ->
  block_data_value Sum bid w = Ok (Rsum (map p_val (points_of bid w psss))).
Proof. exact block_sum. Qed.
(** Nearest point. *)
Theorem C48_nearest_point : forall q w psss,
  world_points w psss -> owned_first w -> w <> [] ->
  (forall p, In p (all_points psss) -> (p_id p < INT_MAX)%Z) ->
  (exists p, In p (all_points psss) /\ dist2 (p_x p) q <= dbl_max (N:=RN)) ->
  exists i, nearest q w = Ok i /\ nearest_id (all_points psss) q i.
Proof.
  intros q w psss W O NE HI HD. destruct (nearest_ok q w psss W O NE HI HD) as (i & E & p & Hp & Hi & HA).
  exists i. split; [exact E|]. exists p. split; [exact Hp|]. split; [exact Hi|]. intros p' Hp'. apply dist_key. now apply HA.
Qed.
Print Assumptions C48_block_minimum.
Print Assumptions C48_block_maximum_partial.
Print Assumptions C48_block_maximum_refuted.
Print Assumptions C48_block_sum.
Print Assumptions C48_nearest_point.

Lemma dbl_min_pos : 0 < dbl_min (N:=RN).
Proof. Transparent dbl_min. unfold dbl_min. to_R. apply Rdiv_lt_0_compat; [lra|]. apply (IZR_lt 0). reflexivity. Opaque dbl_min. Qed.
Lemma dbl_max_big : 10 <= dbl_max (N:=RN).
Proof. Transparent dbl_max. unfold dbl_max. to_R. apply (IZR_le 10). vm_compute. discriminate. Opaque dbl_max. Qed.
Example C48_ex :
  same_blocks 2 (ex_w 3 5 (-1) 7) /\ owned_first (ex_w 3 5 (-1) 7) /\
  (exists e, global_ke (ex_w 3 5 (-1) 7) = Ok (e : R) /\ e = 34) /\
  (forall p, In p (points_of 1 (ex_w 3 5 (-1) 7) (ex_ps 3 5 (-1) 7)) -> p_val p < dbl_min (N:=RN)) /\
  points_of 1 (ex_w 3 5 (-1) 7) (ex_ps 3 5 (-1) 7) <> [] /\
  (forall p, In p (points_of 2 (ex_w 3 5 (-1) 7) (ex_ps 3 5 (-1) 7)) -> p_val p <= dbl_max (N:=RN)) /\
  (exists p, In p (all_points (ex_ps 3 5 (-1) 7)) /\ dist2 (p_x p) (vec 0 0 0) <= dbl_max (N:=RN)) /\
  (forall p, In p (all_points (ex_ps 3 5 (-1) 7)) -> (p_id p < INT_MAX)%Z).
Proof.
  pose proof dbl_min_pos. pose proof dbl_max_big.
  split; [apply ex_same|]. split; [apply ex_first|]. split.
  { eexists. split; [exact (C48_kinetic_energy_is_the_sum _ _ _ (ex_world 3 5 (-1) 7) (ex_same 3 5 (-1) 7))|].
    unfold all_points, ex_ps. cbn [concat map app]. rewrite !Rsum_cons, Rsum_nil. unfold kinetic, mass, ex_point, vec, vdot. cbn. lra. }
  split. { intros p [<-|[]]. cbn [p_val ex_point]. apply Rlt_trans with 0; [lra|exact H]. }
  split; [discriminate|].
  split. { intros p [<-|[]]. cbn [p_val ex_point]. apply Rle_trans with 10; [lra|exact H0]. }
  split. { exists (ex_point 1 3 (-1)). split; [now left|]. apply Rle_trans with 10; [|exact H0].
    unfold dist2, ex_point, vec. cbn. lra. }
  intros p [<-|[<-|[]]]; reflexivity.
Qed.

(** ** C50 *)
(** Every request before an error gives the interpolated values, or an error outside the
    file.  Missing for the full claim: a first request at time -1, and requests after an
    error (refuted below). *)
Theorem C50_interpolated_until_first_error_partial : forall f n, increasing f -> rectangular n f ->
  forall ts, (forall t, nth_error ts 0 = Some t -> t <> - (1)) ->
  forall k t, nth_error ts k = Some t -> (forall j t', (j < k)%nat -> nth_error ts j = Some t' -> within f t') ->
  (within f t -> exists out, nth_error (load_run f (loader_init n) ts) k = Some (Ok out) /\ interpolates f t out) /\
  (~ within f t -> nth_error (load_run f (loader_init n) ts) k = Some Err).
Proof. exact load_run_init. Qed.
Print Assumptions C50_interpolated_until_first_error_partial.

(** A first request at -1 gives zeros for every file. *)
Theorem C50_first_request_at_minus_one_refuted : forall (f : datafile RN) n,
  load_run f (loader_init n) [ - (1) : T RN ] = [Ok (repeat (0 : T RN) n)].
Proof.
  intros f n. cbn [load_run]. unfold load_data. cbn [ld_time loader_init].
  destruct (eqb (n:=RN) (- (1)) (opp (n:=RN) (ofZ (n:=RN) 1))) eqn:E; [reflexivity|]. to_R. apply Reqb_false in E. now destruct E.
Qed.
(** Repeating a request that was refused returns the values of an earlier request, without
    an error, for every file and history. *)
Theorem C50_refused_request_repeated_refuted : forall (f : datafile RN) (l : loader RN) (t : R),
  snd (load_data f l t) = Err ->
  snd (load_data f (fst (load_data f l t)) t) = Ok (ld_out l).
Proof.
  intros f l t. unfold load_data at 1. destruct (eqb (n:=RN) t (ld_time l)) eqn:E0; [discriminate|].
  match goal with |- context [match ?o with Some _ => _ | None => _ end] => destruct o as [l2|] eqn:E1 end; [discriminate|]. intros _.
  assert (F : fst (load_data f l t) = {| ld_time := t : T RN; ld_t1 := ld_t1 l; ld_t2 := ld_t2 l; ld_d1 := ld_d1 l; ld_d2 := ld_d2 l; ld_out := ld_out l |}).
  { unfold load_data. rewrite E0. rewrite E1. reflexivity. }
  rewrite F. unfold load_data. cbn [ld_time]. 
  destruct (eqb (n:=RN) t t) eqn:E; [reflexivity|]. to_R. apply Reqb_false in E. now destruct E.
Qed.
Print Assumptions C50_first_request_at_minus_one_refuted.
Print Assumptions C50_refused_request_repeated_refuted.

Definition ex_file : datafile RN := [(0 : T RN, [1 : T RN]); (2 : T RN, [5 : T RN]); (3 : T RN, [4 : T RN])].
Example C50_ex : increasing ex_file /\ rectangular 1 ex_file /\ within ex_file 1 /\ within ex_file (5/2) /\ ~ within ex_file 4.
Proof.
  split; [|split; [|split; [|split]]].
  - intros [|[|[|i]]] a b H1 H2; cbn in H1, H2; inversion H1; inversion H2; subst; cbn; try lra; destruct i; discriminate.
  - intros a [<-|[<-|[<-|[]]]]; reflexivity.
  - exists (0 : T RN, [1 : T RN]), (2 : T RN, [5 : T RN]). cbn. repeat split; try tauto; lra.
  - exists (2 : T RN, [5 : T RN]), (3 : T RN, [4 : T RN]). cbn. repeat split; try tauto; lra.
  - intros (a & b & Ha & Hb & H1 & H2). cbn in Ha, Hb. destruct Hb as [<-|[<-|[<-|[]]]]; cbn in *; lra.
Qed.
(** A request at 4 is refused, the same request again gives the values of time 1. *)
Example C50_ex_stale : exists v : R, load_run ex_file (loader_init 1) [1 : T RN; 4 : T RN; 4 : T RN] = [Ok [v : T RN]; Err; Ok [v : T RN]] /\ v = 3.
Proof.
  assert (B : forall a b : R, (a < b -> Rltb a b = true) /\ (b <= a -> Rltb a b = false) /\ (a <= b -> Rleb a b = true) /\ (b < a -> Rleb a b = false) /\ (a <> b -> Reqb a b = false) /\ (a = b -> Reqb a b = true)).
  { intros a b. unfold Rltb, Rleb, Reqb. destruct (Rlt_dec a b), (Rle_dec a b), (Req_EM_T a b); repeat split; intros; auto; try lra. }
  eexists. split; [cbn [load_run]; unfold load_data; cbn; unfold Rltb, Rleb, Reqb;
    repeat match goal with
    | |- context [Req_EM_T ?a ?b] => destruct (Req_EM_T a b); [try (exfalso; lra)|try (exfalso; lra)]
    | |- context [Rlt_dec ?a ?b] => destruct (Rlt_dec a b); [try (exfalso; lra)|try (exfalso; lra)]
    | |- context [Rle_dec ?a ?b] => destruct (Rle_dec a b); [try (exfalso; lra)|try (exfalso; lra)]
    | _ => progress cbn
    end; reflexivity|]. cbn. lra.
Qed.
