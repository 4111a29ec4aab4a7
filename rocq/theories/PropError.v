(** * C66 the Error output *)
From Coq Require Import Reals Lra Permutation.
From Coquelicot Require Import Coquelicot.
From Verif Require Import Base Num ModelScalar ModelGlobal ModelError SpecGlobal ProofGlobal SpecError ProofError.
Local Open Scope R_scope.
Opaque dbl_max.

(** The value for a box-shaped element whose sides are at least 1e-10 and differ by at
    most 1e12: the integral, multiplied by the square of the side in x direction and
    divided by the product of the two other sides. *)
Theorem C66_value : forall nodes b X Y,
  spans nodes b -> sides_at_least (/ 10 ^ 10) b -> inside (dbl_max (N:=RN)) b ->
  Rabs (side_y b - side_x b) <= 10 ^ 12 -> Rabs (side_z b - side_x b) <= 10 ^ 12 ->
  exists e, element_error nodes X Y = Ok (e : R) /\ 0 < e /\
    e * side_y b * side_z b = squared_error (vsub Y X) b * side_x b ^ 2.
Proof.
  intros nodes b X Y SP P IN DY DZ. pose proof eps_pos as E0. fold eps in P.
  assert (P0 : sides_at_least 0 b) by (destruct P as (? & ? & ?); repeat split; lra).
  rewrite (element_eq nodes b SP P0 IN X Y). rewrite (proj2 (rectangular_iff nodes b SP P0 IN) P).
  destruct (error_value (vsub Y X) (x_lo b) (x_hi b) (y_lo b) (y_hi b) (z_lo b) (z_hi b) DY DZ) as (e & Ee & H).
  rewrite box_eta in H. exists e. split; [exact Ee|]. split; [|exact H].
  destruct P as (PX & PY & PZ). pose proof (squared_error_pos (vsub Y X) b) as S. fold (side_x b) (side_y b) (side_z b) in H.
  assert (0 < squared_error (vsub Y X) b) by (apply S; lra).
  assert (0 < side_y b * side_z b) by (apply Rmult_lt_0_compat; lra).
  assert (0 < side_x b ^ 2) by (apply pow_lt; lra).
  apply Rmult_lt_reg_r with (side_y b * side_z b); [assumption|]. rewrite Rmult_0_l, <- Rmult_assoc, H. now apply Rmult_lt_0_compat.
Qed.
Print Assumptions C66_value.

(** For a cube this is the integral of the squared difference.  Missing for the full
    claim: boxes that are no cubes, and elements with a side below 1e-10 (both refuted
    below). *)
Theorem C66_cube_partial : forall nodes b X Y,
  spans nodes b -> is_cube b -> / 10 ^ 10 <= side_x b -> inside (dbl_max (N:=RN)) b ->
  element_error nodes X Y = Ok (squared_error (vsub Y X) b : T RN).
Proof.
  intros nodes b X Y SP (C1 & C2) P IN. pose proof eps_pos as E0. fold eps in P.
  destruct (C66_value nodes b X Y SP) as (e & E & _ & H); auto.
  - fold eps. repeat split; lra.
  - rewrite C1, Rminus_diag_eq, Rabs_R0 by reflexivity. apply pow_le. lra.
  - rewrite C1, C2, Rminus_diag_eq, Rabs_R0 by reflexivity. apply pow_le. lra.
  - rewrite E. apply f_equal. rewrite <- C2, <- C1 in H.
    apply Rmult_eq_reg_r with (side_x b * side_x b); [|apply Rgt_not_eq, Rmult_lt_0_compat; lra].
    rewrite <- Rmult_assoc, H. ring.
Qed.
Print Assumptions C66_cube_partial.

(** Any other box whose two other sides have a different product is accepted and the value
    is wrong: the test for cubes compares with 1e12. *)
Theorem C66_box_refuted : forall nodes b X Y,
  spans nodes b -> sides_at_least (/ 10 ^ 10) b -> inside (dbl_max (N:=RN)) b ->
  Rabs (side_y b - side_x b) <= 10 ^ 12 -> Rabs (side_z b - side_x b) <= 10 ^ 12 ->
  side_y b * side_z b <> side_x b ^ 2 ->
  exists e, element_error nodes X Y = Ok (e : R) /\ e <> squared_error (vsub Y X) b.
Proof.
  intros nodes b X Y SP P IN DY DZ NE. destruct (C66_value nodes b X Y SP P IN DY DZ) as (e & E & _ & H).
  exists e. split; [exact E|]. intros ->. apply NE. fold eps in P. pose proof eps_pos. destruct P as (PX & PY & PZ).
  assert (S : 0 < squared_error (vsub Y X) b) by (apply squared_error_pos; lra).
  apply Rmult_eq_reg_l with (squared_error (vsub Y X) b); [|now apply Rgt_not_eq].
  now rewrite <- Rmult_assoc.
Qed.
Print Assumptions C66_box_refuted.

(** A box with a side below 1e-10 is refused as non-rectangular. *)
Theorem C66_small_refuted : forall nodes b X Y,
  spans nodes b -> sides_at_least 0 b -> inside (dbl_max (N:=RN)) b -> ~ sides_at_least (/ 10 ^ 10) b ->
  element_error nodes X Y = Err.
Proof.
  intros nodes b X Y SP P IN S. rewrite (element_eq nodes b SP P IN X Y).
  destruct (is_rectangular _ _ _ _ _ _ nodes) eqn:E; [|reflexivity].
  destruct S. now apply (rectangular_iff nodes b SP P IN).
Qed.
Print Assumptions C66_small_refuted.

(** The test for boxes: every node of an accepted element of eight nodes has each
    coordinate within 1e-10 of the smallest or the largest one.  Missing for the full
    claim: the nodes need not be the eight corners (refuted below). *)
Theorem C66_accepted_partial : forall (nodes : list (V3 RN)) X Y e,
  length nodes = 8%nat -> element_error nodes X Y = Ok e ->
  forall c : V3 RN -> R, In c [@vx RN; @vy RN; @vz RN] ->
  forall lo hi : R, lo = lower_limit (N:=RN) c nodes -> hi = upper_limit (N:=RN) c nodes ->
  2 * / 10 ^ 10 <= hi - lo ->
  forall p, In p nodes -> Rabs (c p - lo) < / 10 ^ 10 \/ Rabs (c p - hi) < / 10 ^ 10.
Proof.
  intros nodes X Y e L E c Hc lo hi El Eh W p Hp. unfold element_error in E. cbv zeta in E.
  destruct (is_rectangular _ _ _ _ _ _ nodes) eqn:Q; [|discriminate]. clear E.
  unfold is_rectangular in Q. rewrite !andb_true_iff, !Nat.eqb_eq in Q.
  assert (N : length (filter (near c lo) nodes) = 4%nat /\ length (filter (near c hi) nodes) = 4%nat).
  { rewrite <- !on_limit_count, El, Eh. destruct Hc as [<-|[<-|[<-|[]]]]; tauto. }
  fold eps in *. clear Q Hc El Eh X Y e. destruct N as (N1 & N2).
  assert (D : forall q, near c lo q = true -> near c hi q = true -> False).
  { intros q A B. unfold near in A, B. fold eps in A, B. apply Rltb_true in A, B.
    apply Rabs_def2 in A, B. lra. }
  assert (S : forall l, (forall q, In q l -> near c lo q = true \/ near c hi q = true) \/
                        (length (filter (near c lo) l) + length (filter (near c hi) l) < length l)%nat).
  { assert (G : forall l, (length (filter (near c lo) l) + length (filter (near c hi) l) <= length l)%nat).
    { induction l as [|q l IH]; [cbn; lia|]. cbn [filter]. specialize (D q).
      destruct (near c lo q), (near c hi q); cbn [length]; first [lia|now destruct D]. }
    induction l as [|q l IH]; [left; intros q []|]. cbn [filter]. specialize (G l). specialize (D q).
    destruct (near c lo q) eqn:A, (near c hi q) eqn:B; cbn [length].
    - now destruct D.
    - destruct IH as [IH|IH]; [left; intros r [<-|R]; auto|right; lia].
    - destruct IH as [IH|IH]; [left; intros r [<-|R]; auto|right; lia].
    - right. lia. }
  destruct (S nodes) as [S1|S1]; [|exfalso; rewrite N1, N2, L in S1; lia].
  destruct (S1 p Hp) as [A|A]; unfold near in A; fold eps in A; apply Rltb_true in A; auto.
Qed.
Print Assumptions C66_accepted_partial.

(** Eight nodes of which four are the lowest and four the highest corner of a box. *)
Definition collapsed (b : box) : list (V3 RN) :=
  let l := pt (x_lo b) (y_lo b) (z_lo b) in let h := pt (x_hi b) (y_hi b) (z_hi b) in [l; l; l; l; h; h; h; h].
(** They are the corners of no box with sides, and are accepted. *)
Theorem C66_collapsed_refuted : forall b X Y,
  sides_at_least (/ 10 ^ 10) b -> inside (dbl_max (N:=RN)) b ->
  Rabs (side_y b - side_x b) <= 10 ^ 12 -> Rabs (side_z b - side_x b) <= 10 ^ 12 ->
  (exists e, element_error (collapsed b) X Y = Ok e) /\
  ~ exists b', sides_at_least (/ 10 ^ 10) b' /\ spans (collapsed b) b'.
Proof.
  intros b X Y P IN DY DZ. fold eps in *. pose proof eps_pos as E0. destruct P as (PX & PY & PZ). split.
  - assert (P0 : sides_at_least 0 b) by (repeat split; lra).
    unfold element_error. cbv zeta.
    assert (EQ : forall c, In c [@vx RN; @vy RN; @vz RN] -> forall q : R, lower_limit (N:=RN) c (collapsed b) = lower_limit (N:=RN) c (corners b) /\
       upper_limit (N:=RN) c (collapsed b) = upper_limit (N:=RN) c (corners b)).
    { intros c Hc _. destruct (box_limits (corners b) b (Permutation_refl _) P0 IN) as (A & B & C & D & F & G).
      destruct IN as (I1 & I2 & I3 & I4 & I5 & I6). unfold side_x, side_y, side_z in *.
      change (T RN) with R in *.
      destruct Hc as [<-|[<-|[<-|[]]]]; [rewrite A, B|rewrite C, D|rewrite F, G]; split; (apply lower_is || apply upper_is); try lra;
        try (exists (pt (x_lo b) (y_lo b) (z_lo b)); split; [now left|reflexivity]);
        try (exists (pt (x_hi b) (y_hi b) (z_hi b)); split; [do 4 right; now left|reflexivity]);
        intros p Hp; unfold collapsed in Hp; cbn [In] in Hp; repeat (destruct Hp as [<-|Hp]; [cbn; lra|]); destruct Hp. }
    destruct (box_limits (corners b) b (Permutation_refl _) P0 IN) as (A & B & C & D & F & G).
    destruct (EQ vx ltac:(cbn; tauto) 0) as (-> & ->). destruct (EQ vy ltac:(cbn; tauto) 0) as (-> & ->). destruct (EQ vz ltac:(cbn; tauto) 0) as (-> & ->).
    rewrite A, B, C, D, F, G. unfold is_rectangular. rewrite !on_limit_count. unfold near. fold eps. unfold collapsed. cbn [filter].
    cbn [vx vy vz pt]. rewrite !near_self. unfold side_x, side_y, side_z in *.
    destruct (near_far _ _ PX) as (-> & ->), (near_far _ _ PY) as (-> & ->), (near_far _ _ PZ) as (-> & ->).
    cbn [length Nat.eqb andb].
    destruct (error_value (vsub Y X) (x_lo b) (x_hi b) (y_lo b) (y_hi b) (z_lo b) (z_hi b) DY DZ) as (e & Ee & _). now exists e.
  - intros (b' & (QX & QY & QZ) & SP). unfold spans in SP.
    assert (H : forall p, In p (corners b') -> In p (collapsed b)) by (intros p; apply Permutation_in, Permutation_sym, SP).
    pose proof (H _ (or_introl eq_refl)) as H1. pose proof (H _ (or_intror (or_introl eq_refl))) as H2.
    pose proof (H _ (or_intror (or_intror (or_introl eq_refl)))) as H3. unfold side_x, side_y, side_z in *.
    unfold collapsed, pt in H1, H2, H3. cbn [In] in H1, H2, H3.
    assert (K : forall a c d a' c' d' : R, v3 (N:=RN) a c d = v3 (N:=RN) a' c' d' -> a = a' /\ c = c' /\ d = d') by (intros a c d a' c' d' J; injection J; auto).
    repeat match goal with J : _ \/ _ |- _ => destruct J as [J|J]; [apply K in J as (? & ? & ?)|] | J : False |- _ => destruct J end; lra.
Qed.
Print Assumptions C66_collapsed_refuted.

(** The whole output for cube-shaped elements, on any number of processors and blocks: the
    field holds the integral for every point, the global value is the sum over all
    points. *)
Theorem C66_output_partial : forall w cs,
  w <> [] -> Forall2 (Forall2 stores) w cs ->
  (forall r l c, In r cs -> In l r -> In c l ->
     is_cube (c_box c) /\ / 10 ^ 10 <= side_x (c_box c) /\ inside (dbl_max (N:=RN)) (c_box c)) ->
  error_output w = Ok (map (map (map cell_error)) cs, Rsum (map cell_error (concat (map (@concat cell) cs)))).
Proof.
  intros w cs NE W H. unfold error_output.
  assert (E : mapO (mapO block_errors) w = Ok (map (map (map cell_error)) cs)).
  { revert H. clear NE. induction W as [|r l w cs Hr _ IH]; intros H; [reflexivity|]. cbn [mapO map].
    rewrite IH by (intros r' l' c R' L' C'; apply (H r' l' c); [now right|assumption|assumption]).
    assert (Hl : forall l' c, In l' l -> In c l' -> is_cube (c_box c) /\ / 10 ^ 10 <= side_x (c_box c) /\ inside (dbl_max (N:=RN)) (c_box c))
      by (intros l' c; apply H; now left).
    clear IH H. enough (G : mapO block_errors r = Ok (map (map cell_error) l)) by now rewrite G.
    induction Hr as [|b cl r l Hb _ IH]; [reflexivity|]. cbn [mapO map].
    rewrite IH by (intros l' c L' C'; apply (Hl l' c); [now right|assumption]).
    enough (G : block_errors b = Ok (map cell_error cl)) by now rewrite G.
    destruct Hb as (Ln & Hb). unfold block_errors. rewrite Ln. clear Ln.
    assert (Hc : forall c, In c cl -> is_cube (c_box c) /\ / 10 ^ 10 <= side_x (c_box c) /\ inside (dbl_max (N:=RN)) (c_box c))
      by (intros c; apply Hl; now left).
    set (k := 0%nat). assert (Hk : forall i c, nth_error cl i = Some c -> nth_error (eb_x b) (k + i) = Some (c_x c) /\ nth_error (eb_y b) (k + i) = Some (c_y c) /\
      exists nodes, Forall2 (fun field p => nth_error field (k + i) = Some p) (eb_nodes b) nodes /\ spans nodes (c_box c)) by exact Hb.
    clearbody k. clear Hb Hl IH. revert k Hk Hc. induction cl as [|c cl IH]; intros k Hk Hc; [reflexivity|]. cbn [length seq mapO map].
    rewrite (IH (S k)); [|intros i c' Hi; replace (S k + i)%nat with (k + S i)%nat by lia; now apply Hk|intros c' C'; apply Hc; now right].
    destruct (Hk 0%nat c eq_refl) as (HX & HY & nodes & HN & SP). rewrite Nat.add_0_r in *.
    assert (G : mapO (fun a => at_ub a k) (eb_nodes b) = Ok nodes).
    { clear - HN. induction HN as [|a p l m A _ IH]; [reflexivity|]. cbn [mapO]. unfold at_ub at 1. rewrite A. cbn [bind]. now rewrite IH. }
    rewrite G. cbn [bind]. unfold at_ub. rewrite HX, HY. cbn [bind].
    destruct (Hc c (or_introl eq_refl)) as (C1 & C2 & C3). rewrite (C66_cube_partial nodes (c_box c) _ _ SP C1 C2 C3). reflexivity. }
  rewrite E. cbn [bind].
  assert (NC : cs <> []) by (intros ->; inversion W; subst; now destruct NE).
  rewrite reduce_add; [|destruct cs; [now destruct NC|discriminate]]. cbn [bind]. rewrite rank_sums. apply f_equal, f_equal.
  apply f_equal. clear. induction cs as [|r cs IH]; [reflexivity|]. cbn [map concat]. rewrite IH, map_app. apply f_equal2; [|reflexivity].
  clear. induction r as [|l r IH]; [reflexivity|]. cbn [map concat]. now rewrite IH, map_app.
Qed.
Print Assumptions C66_output_partial.

(** ** Cases that meet the hypotheses *)
Definition unit_box : box := Box 1 2 0 1 0 1.
Definition slab : box := Box 0 1 0 2 0 3.
Lemma small10 : / 10 ^ 10 <= 1.
Proof. replace (10 ^ 10) with 10000000000 by ring. lra. Qed.
Lemma big12 : 1000 <= 10 ^ 12.
Proof. replace (10 ^ 12) with 1000000000000 by ring. lra. Qed.
Lemma max10 : 10 <= dbl_max (N:=RN).
Proof. Transparent dbl_max. unfold dbl_max. to_R. apply (IZR_le 10). vm_compute. discriminate. Opaque dbl_max. Qed.
Example C66_cube_met : is_cube unit_box /\ / 10 ^ 10 <= side_x unit_box /\ inside (dbl_max (N:=RN)) unit_box /\ spans (rev (corners unit_box)) unit_box.
Proof.
  pose proof small10. pose proof max10. unfold is_cube, inside, side_x, side_y, side_z, unit_box. cbn [x_lo x_hi y_lo y_hi z_lo z_hi]. change (T RN) with R in *.
  repeat split; try lra. apply Permutation_sym, Permutation_rev.
Qed.
Example C66_box_met : sides_at_least (/ 10 ^ 10) slab /\ inside (dbl_max (N:=RN)) slab /\ Rabs (side_y slab - side_x slab) <= 10 ^ 12 /\
  Rabs (side_z slab - side_x slab) <= 10 ^ 12 /\ side_y slab * side_z slab <> side_x slab ^ 2.
Proof.
  pose proof small10. pose proof max10. pose proof big12. unfold sides_at_least, inside, side_x, side_y, side_z, slab. cbn [x_lo x_hi y_lo y_hi z_lo z_hi]. change (T RN) with R in *.
  repeat split; try lra; rewrite Rabs_pos_eq; lra.
Qed.
(** A point that follows the reference field at the centre of its element: the integral
    over the unit cube is not zero. *)
Example C66_value_met : squared_error (pt (9 / 4) 0 0) unit_box = 61 / 80.
Proof. rewrite squared_error_eq. unfold side_x, side_y, side_z, unit_box, pt. cbn [x_lo x_hi y_lo y_hi z_lo z_hi vx vy vz]. to_R. change (T RN) with R. field. Qed.
