From Coq Require Import Reals Lra Permutation.
From Verif Require Import Base Num ModelScalar ModelGlobal SpecGlobal.
Local Open Scope R_scope.

Lemma mapO_rel {A B C} (P : A -> C -> Prop) (f : A -> outcome B) (h : C -> B) l m :
  (forall a c, P a c -> f a = Ok (h c)) -> Forall2 P l m -> mapO f l = Ok (map h m).
Proof.
  intros H F. induction F as [|a c l m Hp F IH]; [reflexivity|]. cbn [mapO map]. rewrite (H _ _ Hp). cbn [bind].
  now rewrite IH.
Qed.
Lemma foldM_rel {A C S} (P : A -> C -> Prop) (f : S -> A -> outcome S) (g : S -> C -> S) l m :
  (forall s a c, P a c -> f s a = Ok (g s c)) -> Forall2 P l m -> forall s, foldM f s l = Ok (fold_left g m s).
Proof.
  intros H F. induction F as [|a c l m Hp F IH]; intros s; [reflexivity|]. cbn [foldM fold_left]. rewrite (H _ _ _ Hp). cbn [bind]. apply IH.
Qed.
Lemma foldM_inv {A S} (P : S -> Prop) (f : S -> A -> outcome S) l :
  (forall s a, In a l -> P s -> exists s', f s a = Ok s' /\ P s') -> forall s, P s -> exists s', foldM f s l = Ok s' /\ P s'.
Proof.
  induction l as [|a t IH]; intros H s Hs; [exists s; auto|]. cbn [foldM].
  destruct (H s a (or_introl eq_refl) Hs) as (s1 & -> & H1). cbn [bind]. apply IH; auto. intros; apply H; auto. now right.
Qed.

(** ** Sums *)
Lemma Rsum_nil : Rsum [] = 0. Proof. reflexivity. Qed.
Lemma Rsum_cons a l : Rsum (a :: l) = a + Rsum l. Proof. reflexivity. Qed.
Arguments Rsum : simpl never.
Lemma Rsum_app l m : Rsum (l ++ m) = Rsum l + Rsum m.
Proof. induction l as [|a l IH]; cbn [app]; [rewrite Rsum_nil; lra|]. rewrite !Rsum_cons, IH. lra. Qed.
Lemma Rsum_perm l m : Permutation l m -> Rsum l = Rsum m.
Proof. induction 1; rewrite ?Rsum_cons; lra. Qed.
Lemma fold_left_Rsum {A} (f : A -> R) l : forall s, fold_left (fun s a => s + f a) l s = s + Rsum (map f l).
Proof. induction l as [|a l IH]; intros s; cbn; rewrite ?Rsum_nil, ?Rsum_cons; [lra|]. rewrite IH. lra. Qed.
Lemma vext (a b : V3 RN) : (vx a : R) = vx b -> (vy a : R) = vy b -> (vz a : R) = vz b -> a = b.
Proof. intros H1 H2 H3. exact (v3_ext (N:=RN) a b H1 H2 H3). Qed.
Lemma Vsum_app l m : Vsum (l ++ m) = vadd (N:=RN) (Vsum l) (Vsum m).
Proof. unfold Vsum. apply vext; cbn; rewrite map_app; apply Rsum_app. Qed.

Lemma nth_zip {A} (f : A -> A -> A) d : forall l m k, length l = length m -> (k < length l)%nat ->
  nth k (zip_with f l m) d = f (nth k l d) (nth k m d).
Proof.
  induction l as [|a l IH]; intros [|b m] k E H; cbn in *; try lia. destruct k; [reflexivity|]. apply IH; lia.
Qed.
Lemma zip_len {A} (f : A -> A -> A) : forall l m, length l = length m -> length (zip_with f l m) = length l.
Proof. induction l as [|a l IH]; intros [|b m] E; cbn in *; try lia. rewrite IH; lia. Qed.
Lemma map_nth_self {A} (d : A) l : l = map (fun k => nth k l d) (seq 0 (length l)).
Proof.
  induction l as [|a l IH]; [reflexivity|]. cbn [length seq map]. f_equal. rewrite <- seq_shift, map_map. exact IH.
Qed.
Lemma reduce_columns {A} (f : A -> A -> A) d n t : forall a, length a = n -> Forall (fun l => length l = n) t ->
  fold_left (zip_with f) t a = map (fun k => fold_left f (map (fun l => nth k l d) t) (nth k a d)) (seq 0 n).
Proof.
  induction t as [|b t IH]; intros a Ha F; cbn [fold_left map].
  - subst n. apply map_nth_self.
  - inversion F as [|? ? Hb Ft]; subst. rewrite IH; [|rewrite zip_len; congruence|auto].
    apply map_ext_in. intros k Hk. apply in_seq in Hk. rewrite nth_zip by lia. reflexivity.
Qed.

(** ** Kinetic energy *)
Definition pt (b : rblock RN) (i : nat) (p : point) : Prop :=
  p_rho p = rb_rho b /\ nth_error (rb_vol b) i = Some (p_vol p) /\
  nth_error (rb_vel b) i = Some (p_v p) /\ nth_error (rb_y b) i = Some (p_y p) /\
  nth_error (rb_x b) i = Some (p_x p) /\ nth_error (rb_gid b) i = Some (p_id p) /\
  nth_error (rb_data b) i = Some (p_val p).

Lemma local_ke_ok b ps : block_points b ps -> local_ke b = Ok (Rsum (map kinetic ps)).
Proof.
  intros H. unfold local_ke.
  etransitivity. { apply (foldM_rel (pt b) _ (fun s p => (s : R) + kinetic p)) with (m := ps); [|exact H].
    intros s i p (E1 & E2 & E3 & _). unfold at_ub. rewrite E2, E3. cbn [bind]. apply f_equal. to_R.
    unfold kinetic, mass, vdot. rewrite <- E1. cbn. lra. }
  apply f_equal. etransitivity; [apply fold_left_Rsum|]. cbn. lra.
Qed.

Lemma rank_len w psss : Forall2 (Forall2 block_points) w psss -> forall n, Forall (fun r => length r = n) w ->
  Forall (fun pss => length pss = n) psss.
Proof.
  induction 1 as [|r pss w psss H F IH]; intros n Fn; constructor; inversion Fn; subst.
  - clear -H. induction H; cbn; congruence.
  - now apply IH.
Qed.

Lemma zip_sum a : forall b, length a = length b -> Rsum (zip_with Rplus a b) = Rsum a + Rsum b.
Proof. induction a as [|x a IH]; intros [|y b] E; cbn in *; try lia; rewrite ?Rsum_nil, ?Rsum_cons; [lra|]. rewrite IH by lia. lra. Qed.
Lemma reduce_sum n t : forall a, length a = n -> Forall (fun l => length l = n) t ->
  Rsum (fold_left (zip_with Rplus) t a) = Rsum a + Rsum (map Rsum t).
Proof.
  induction t as [|b t IH]; intros a Ha F; cbn [fold_left map]; rewrite ?Rsum_nil, ?Rsum_cons; [lra|].
  inversion F; subst. rewrite IH; auto; [|rewrite zip_len; congruence]. rewrite zip_sum by congruence. lra.
Qed.
Lemma Rsum_concat {A} (f : A -> R) ls : Rsum (map f (concat ls)) = Rsum (map (fun l => Rsum (map f l)) ls).
Proof. induction ls as [|l ls IH]; [reflexivity|]. cbn [concat map]. now rewrite map_app, Rsum_app, Rsum_cons, IH. Qed.

Lemma global_ke_ok w psss n : world_points w psss -> same_blocks n w ->
  global_ke w = Ok (Rsum (map kinetic (all_points psss))).
Proof.
  intros W [Hne Hn]. unfold global_ke.
  assert (E : mapO (mapO local_ke) w = Ok (map (map (fun ps => Rsum (map kinetic ps))) psss)).
  { apply (mapO_rel (Forall2 block_points)); auto. intros r pss H. apply (mapO_rel block_points); auto. exact local_ke_ok. }
  match goal with |- bind ?a ?g = _ => etransitivity; [exact (f_equal (fun z => bind z g) E)|] end. cbn [bind].
  pose proof (rank_len _ _ W n Hn) as L.
  destruct psss as [|p0 t]; [inversion W; subst; easy|]. cbn [map all_reduce bind]. apply f_equal.
  inversion L; subst.
  assert (S0 : Rsum (fold_left (zip_with Rplus) (map (map (fun ps => Rsum (map kinetic ps))) t) (map (fun ps => Rsum (map kinetic ps)) p0))
    = Rsum (map kinetic (all_points (p0 :: t)))).
  { rewrite (reduce_sum (length p0)); [|apply map_length|].
    - unfold all_points. cbn [map concat]. rewrite map_app, Rsum_app, Rsum_concat, map_map, Rsum_concat.
      f_equal. rewrite map_map. apply f_equal. apply map_ext. intros pss. symmetry. apply Rsum_concat.
    - apply Forall_forall. intros l Hl. apply in_map_iff in Hl as (pss & <- & Hi). rewrite map_length.
      rewrite Forall_forall in H2. now apply H2. }
  etransitivity; [|exact S0].
  etransitivity; [apply (fold_left_Rsum (fun x : R => x))|]. rewrite map_id. cbn. lra.
Qed.

(** ** Momentum *)
Section Mom.
  Variable local : rblock RN -> outcome (V3 RN).
  Variable q : point -> V3 RN.
  Hypothesis local_ok : forall b ps, block_points b ps -> local b = Ok (Vsum (map q ps)).

  Lemma Vsum_columns k psss : forall ps0, fold_left vadd (map (fun pss => Vsum (map q (nth k pss []))) psss) (Vsum (map q ps0))
    = Vsum (map q (ps0 ++ block_column k psss)).
  Proof.
    induction psss as [|pss t IH]; intros ps0; unfold block_column; cbn [map fold_left concat].
    - now rewrite app_nil_r.
    - rewrite <- Vsum_app, <- map_app, IH, <- app_assoc. reflexivity.
  Qed.

  Lemma global_mom_ok w psss n : world_points w psss -> same_blocks n w ->
    (let? l := mapO (mapO local) w in let? g := all_reduce (zip_with vadd) l in
     Ok (fold_left (fun s p => (s + vlen p : T RN)%num) g (IZR 0))) =
    Ok (Rsum (map (fun k => vlen (Vsum (map q (block_column k psss)))) (seq 0 n))).
  Proof.
    intros W [Hne Hn].
    assert (E : mapO (mapO local) w = Ok (map (map (fun ps => Vsum (map q ps))) psss)).
    { apply (mapO_rel (Forall2 block_points)); auto. intros r pss H. apply (mapO_rel block_points); auto. }
    rewrite E. cbn [bind]. pose proof (rank_len _ _ W n Hn) as L.
    destruct psss as [|p0 t]; [inversion W; subst; easy|]. cbn [map all_reduce bind]. apply f_equal.
    inversion L as [|? ? L0 Lt]; subst.
    rewrite (reduce_columns vadd (Vsum []) (length p0)).
    2: apply map_length.
    2: { apply Forall_forall. intros l Hl. apply in_map_iff in Hl as (pss & <- & Hi). rewrite map_length.
         rewrite Forall_forall in Lt. now apply Lt. }
    etransitivity; [apply (fold_left_Rsum (fun v => vlen (N:=RN) v))|]. rewrite map_map, Rplus_0_l.
    apply f_equal. apply map_ext. intros k. apply f_equal.
    rewrite map_map. change (Vsum []) with (Vsum (map q [])) at 2.
    rewrite (map_nth (fun ps => Vsum (map q ps))).
    etransitivity; [|exact (Vsum_columns k t (nth k p0 []))].
    apply (f_equal (fun m => fold_left vadd m _)). apply map_ext. intros pss. 
    change (Vsum []) with (Vsum (map q [])). apply (map_nth (fun ps => Vsum (map q ps))).
  Qed.
End Mom.

Lemma local_lm_ok b ps : block_points b ps -> local_lm b = Ok (Vsum (map momentum ps)).
Proof.
  intros H. unfold local_lm.
  etransitivity. { apply (foldM_rel (pt b) _ (fun s p => vadd s (momentum p))) with (m := ps); [|exact H].
    intros s i p (E1 & E2 & E3 & _). unfold at_ub. rewrite E2, E3. cbn [bind]. apply f_equal.
    unfold momentum, mass, vscale, vadd. cbn. now rewrite <- E1. }
  apply f_equal. clear. 
  assert (G : forall s, fold_left (fun s p => vadd s (momentum p)) ps s = vadd s (Vsum (map momentum ps))).
  { induction ps as [|p ps IH]; intros s; cbn [fold_left map].
    - apply vext; cbn; rewrite ?Rsum_nil; lra.
    - rewrite IH. apply vext; cbn; rewrite ?Rsum_cons; lra. }
  rewrite G. apply vext; cbn; lra.
Qed.
(** The code accumulates v x y; same length as y x v. *)
Definition ang_neg (p : point) : V3 RN := vscale (N:=RN) (- 1) (ang_momentum p).
Lemma local_am_ok b ps : block_points b ps -> local_am b = Ok (Vsum (map ang_neg ps)).
Proof.
  intros H. unfold local_am.
  etransitivity. { apply (foldM_rel (pt b) _ (fun s p => vadd s (ang_neg p))) with (m := ps); [|exact H].
    intros s i p (E1 & E2 & E3 & E4 & _). unfold at_ub. rewrite E2, E3, E4. cbn [bind]. apply f_equal.
    unfold ang_neg, ang_momentum, mass, vscale, vadd, vcross. cbn. rewrite <- E1. apply vext; cbn; lra. }
  apply f_equal. clear. 
  assert (G : forall s, fold_left (fun s p => vadd s (ang_neg p)) ps s = vadd s (Vsum (map ang_neg ps))).
  { induction ps as [|p ps IH]; intros s; cbn [fold_left map].
    - apply vext; cbn; rewrite ?Rsum_nil; lra.
    - rewrite IH. apply vext; cbn; rewrite ?Rsum_cons; lra. }
  rewrite G. apply vext; cbn; lra.
Qed.
Lemma Rsum_neg {A} (f : A -> R) l : Rsum (map (fun a => - 1 * f a) l) = - 1 * Rsum (map f l).
Proof. induction l as [|a l IH]; cbn [map]; rewrite ?Rsum_nil, ?Rsum_cons; [lra|]. rewrite IH. lra. Qed.
Lemma vlen_neg ps : vlen (Vsum (map ang_neg ps)) = vlen (Vsum (map ang_momentum ps)).
Proof.
  unfold vlen. apply f_equal. unfold vdot, Vsum. cbn. rewrite !map_map. 
  assert (X : forall (c : V3 RN -> R), (forall v, c (vscale (N:=RN) (-1) v) = - 1 * c v) ->
     Rsum (map (fun x => c (ang_neg x)) ps) = - 1 * Rsum (map (fun x => c (ang_momentum x)) ps)).
  { intros c Hc. rewrite <- Rsum_neg. apply f_equal. apply map_ext. intros p. apply Hc. }
  rewrite (X (@vx RN)) by reflexivity. rewrite (X (@vy RN)) by reflexivity. rewrite (X (@vz RN)) by reflexivity. lra.
Qed.

(** ** Triangle inequality *)
Lemma vdot_nonneg (a : V3 RN) : 0 <= vdot a a.
Proof. unfold vdot. cbn. pose proof (Rle_0_sqr (vx a)). pose proof (Rle_0_sqr (vy a)). pose proof (Rle_0_sqr (vz a)). unfold Rsqr in *. lra. Qed.
Lemma vlen_sq (a : V3 RN) : vlen a * vlen a = vdot a a.
Proof. apply sqrt_sqrt. apply vdot_nonneg. Qed.
Lemma vlen_nonneg (a : V3 RN) : 0 <= vlen a.
Proof. apply sqrt_pos. Qed.
Lemma vlen_zero : vlen (Vsum []) = 0.
Proof. unfold vlen, Vsum, vdot. cbn. rewrite !Rsum_nil, Rmult_0_r, !Rplus_0_r. apply sqrt_0. Qed.
Lemma cauchy (a b : V3 RN) : vdot a b <= vlen a * vlen b.
Proof.
  apply Rsqr_incr_0_var; [|apply Rmult_le_pos; apply vlen_nonneg]. unfold Rsqr.
  replace (vlen a * vlen b * (vlen a * vlen b)) with ((vlen a * vlen a) * (vlen b * vlen b)) by ring.
  rewrite !vlen_sq. unfold vdot. destruct a as [a1 a2 a3], b as [b1 b2 b3]. cbn in *.
  pose proof (Rle_0_sqr (a1*b2-a2*b1)) as H1. pose proof (Rle_0_sqr (a1*b3-a3*b1)) as H2. pose proof (Rle_0_sqr (a2*b3-a3*b2)) as H3.
  unfold Rsqr in *. 
  assert (X : (a1*a1+a2*a2+a3*a3)*(b1*b1+b2*b2+b3*b3) - (a1*b1+a2*b2+a3*b3)*(a1*b1+a2*b2+a3*b3) =
    (a1*b2-a2*b1)*(a1*b2-a2*b1) + (a1*b3-a3*b1)*(a1*b3-a3*b1) + (a2*b3-a3*b2)*(a2*b3-a3*b2)) by ring.
  lra.
Qed.
Lemma triangle (a b : V3 RN) : vlen (vadd a b) <= vlen a + vlen b.
Proof.
  pose proof (vlen_nonneg a). pose proof (vlen_nonneg b).
  apply Rsqr_incr_0_var; [|lra]. unfold Rsqr. rewrite vlen_sq.
  pose proof (cauchy a b). pose proof (vlen_sq a) as A. pose proof (vlen_sq b) as B.
  assert (E : vdot (vadd a b) (vadd a b) = vdot a a + vdot b b + 2 * vdot a b).
  { unfold vdot, vadd. destruct a, b. cbn. ring. }
  to_R. nra.
Qed.
Lemma vlen_sum_le {A} (f : A -> V3 RN) l : vlen (Vsum (concat (map (fun a => [f a]) l))) <= Rsum (map (fun a => vlen (f a)) l).
Proof.
  induction l as [|a l IH]; cbn [map concat].
  - rewrite vlen_zero. cbn. rewrite Rsum_nil. lra.
  - rewrite Vsum_app. eapply Rle_trans; [apply triangle|]. rewrite Rsum_cons. apply Rplus_le_compat; [|exact IH].
    right. apply f_equal. apply vext; cbn; rewrite ?Rsum_cons, ?Rsum_nil; lra.
Qed.
Lemma Vsum_perm l m : Permutation l m -> Vsum l = Vsum m.
Proof. intros P. unfold Vsum. apply vext; cbn; apply Rsum_perm; now apply Permutation_map. Qed.
Lemma columns_perm n (psss : list (list (list point))) : Forall (fun pss => length pss = n) psss ->
  Permutation (all_points psss) (concat (map (fun k => block_column k psss) (seq 0 n))).
Proof.
  induction psss as [|pss t IH]; intros F.
  - unfold all_points. cbn. clear. induction (seq 0 n); cbn; auto.
  - inversion F as [|? ? H Ht]; subst. unfold all_points in *. cbn [map concat].
    rewrite (IH Ht). clear.
    assert (G : forall ks, Permutation (concat (map (fun k => nth k pss []) ks) ++ concat (map (fun k => block_column k t) ks))
       (concat (map (fun k => block_column k (pss :: t)) ks))).
    { induction ks as [|k ks IH]; [constructor|]. cbn [map concat]. unfold block_column at 3. cbn [map concat].
      fold (block_column k t). rewrite <- IH, !app_assoc. apply Permutation_app_tail.
      rewrite <- !app_assoc. apply Permutation_app_head. apply Permutation_app_comm. }
    etransitivity; [|apply G]. apply Permutation_app_tail. rewrite <- map_nth_self. reflexivity.
Qed.
Lemma Vsum_concat {A} (f : A -> V3 RN) ls :
  Vsum (map f (concat ls)) = Vsum (concat (map (fun l => [Vsum (map f l)]) ls)).
Proof.
  induction ls as [|l ls IH]; [reflexivity|]. cbn [map concat]. rewrite map_app, !Vsum_app, IH.
  f_equal. apply vext; cbn; rewrite ?Rsum_cons, ?Rsum_nil; lra.
Qed.
Lemma total_le (q : point -> V3 RN) psss n : Forall (fun pss => length pss = n) psss ->
  vlen (Vsum (map q (all_points psss))) <= Rsum (map (fun k => vlen (Vsum (map q (block_column k psss)))) (seq 0 n)).
Proof.
  intros F. rewrite (Vsum_perm _ _ (Permutation_map q (columns_perm n psss F))).
  rewrite Vsum_concat, map_map. apply (vlen_sum_le (fun k => Vsum (map q (block_column k psss)))).
Qed.
Lemma one_block psss : Forall (fun pss => length pss = 1%nat) psss -> all_points psss = block_column 0 psss.
Proof.
  unfold all_points, block_column. induction 1 as [|pss t H F IH]; [reflexivity|]. cbn [map concat]. rewrite IH. f_equal.
  destruct pss as [|a [|]]; try discriminate. cbn. apply app_nil_r.
Qed.
