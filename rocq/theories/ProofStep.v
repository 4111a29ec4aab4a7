From Coq Require Import Reals Lra.
From Verif Require Import Base Num ModelScalar SpecDamage SpecScalar ProofData.
Open Scope R_scope.

Lemma cap_pos : 0 < cap.
Proof. apply IZR_lt. reflexivity. Qed.

Lemma cap_pow : cap = 10 ^ 50.
Proof. exact (eq_sym (pow_IZR 10 50)). Qed.

Lemma len_dist (X Y : V3 RN) : (vlen (vsub X Y) : R) = dist X Y.
Proof.
  destruct X, Y. unfold vlen, dist, vdot, vsub, Rsqr. cbn. f_equal. ring.
Qed.

Lemma capped_nil (P : R -> Prop) : (forall s, ~ P s) -> capped_min P cap.
Proof.
  intros H. split; [lra|]. split; [|auto]. intros s Hs. destruct (H s Hs).
Qed.
Definition joins (P : R -> Prop) (s : R) : Prop := (forall v, P v -> s <= v) /\ (cap <= s \/ P s).
Lemma capped_joins P s : capped_min P s -> joins P s.
Proof. intros (A & B & C). split; auto. destruct C; [left; lra|auto]. Qed.
Lemma capped_join P Q r s : capped_min P r -> joins Q s ->
  capped_min (fun v => P v \/ Q v) (if Rltb s r then s else r).
Proof.
  intros (A1 & A2 & A3) (B2 & B3).
  destruct (Rltb s r) eqn:E; [apply Rltb_true in E|apply Rltb_false in E];
    (split; [lra|split]); try (intros v [V|V]; [specialize (A2 _ V)|specialize (B2 _ V)]; lra);
    intuition lra.
Qed.
Lemma capped_iff P Q r : (forall v, P v <-> Q v) -> capped_min P r -> capped_min Q r.
Proof. intros H (A & B & C). split; [auto|split]; [intros; apply B, H; auto|]. destruct C; [auto|right; now apply H]. Qed.
Lemma capped_unique P r s : capped_min P r -> capped_min P s -> r = s.
Proof.
  intros (A1 & A2 & A3) (B1 & B2 & B3).
  destruct A3 as [->|A3], B3 as [->|B3]; auto.
  - specialize (A2 _ B3). lra.
  - specialize (B2 _ A3). lra.
  - specialize (A2 _ B3). specialize (B2 _ A3). lra.
Qed.
Lemma capped_pos P r : capped_min P r -> (forall s, P s -> 0 < s) -> 0 < r.
Proof. intros (_ & _ & [->|H]) HP; [apply cap_pos|auto]. Qed.

(** A loop that keeps the least value. *)
Lemma loop_min {A} (f : A -> outcome R) (P : A -> R -> Prop) l : forall r0 (Q : R -> Prop),
  capped_min Q r0 ->
  (forall a, In a l -> exists s, f a = Ok s /\ joins (P a) s) ->
  exists r, foldM (fun best a => let? s := f a in Ok (if Rltb s best then s else best)) r0 l = Ok r /\
            capped_min (fun v => Q v \/ exists a, In a l /\ P a v) r.
Proof.
  induction l as [|a t IH]; intros r0 Q HQ H.
  - exists r0. split; [reflexivity|]. eapply capped_iff; [|exact HQ].
    intros v. split; [auto|]. intros [V|(a & [] & _)]; auto.
  - destruct (H a (or_introl eq_refl)) as (s & E & Hs).
    cbn [foldM]. rewrite E. cbn [bind].
    destruct (IH _ _ (capped_join _ _ _ _ HQ Hs) (fun b Hb => H b (or_intror Hb))) as (r & E2 & Hr).
    exists r. split; [exact E2|]. eapply capped_iff; [|exact Hr].
    intros v. cbn [In]. split.
    + intros [[V|V]|(b & Hb & V)]; [auto| |]; right; [exists a|exists b]; auto.
    + intros [V|(b & [<-|Hb] & V)]; [auto|auto|]. right. exists b. auto.
Qed.

Lemma min_all_spec l (P : R -> R -> Prop) : l <> nil ->
  (forall s, In s l -> capped_min (P s) s) ->
  exists r, min_all (N:=RN) l = Ok r /\ capped_min (fun v => exists s, In s l /\ P s v) r.
Proof.
  destruct l as [|a t]; [easy|]. intros _ H. cbn [min_all].
  eexists. split; [reflexivity|].
  assert (G : forall t r0 Q, capped_min Q r0 -> (forall s, In s t -> capped_min (P s) s) ->
     capped_min (fun v => Q v \/ exists s, In s t /\ P s v)
       (fold_left (fun m b : R => if Rltb b m then b else m) t r0)).
  { clear. induction t as [|b t IH]; intros r0 Q HQ H; cbn [fold_left].
    - eapply capped_iff; [|exact HQ]. intros v. split; [auto|]. intros [V|(s & [] & _)]; auto.
    - eapply capped_iff; [|apply (IH _ _ (capped_join _ _ _ _ HQ (capped_joins _ _ (H b (or_introl eq_refl)))))].
      + intros v. cbn [In]. split.
        * intros [[V|V]|(s & Hs & V)]; [auto| |]; right; [exists b|exists s]; auto.
        * intros [V|(s & [<-|Hs] & V)]; auto. right. exists s. auto.
      + intros s Hs. apply H. now right. }
  eapply capped_iff; [|apply (G t a (P a)); [apply H; now left|intros s Hs; apply H; now right]].
  intros v. cbn [In]. split.
  - intros [V|(s & Hs & V)]; [exists a|exists s]; auto.
  - intros (s & [<-|Hs] & V); [auto|right; exists s; auto].
Qed.

Lemma mapO_spec {A B} (f : A -> outcome B) l : (forall a, In a l -> exists b, f a = Ok b) ->
  exists r, mapO f l = Ok r /\ Forall2 (fun a b => f a = Ok b) l r.
Proof.
  induction l as [|a t IH]; intros H; cbn [mapO]; [eauto|].
  destruct (H a (or_introl eq_refl)) as (b & E).
  destruct IH as (r & E2 & F); [intros; apply H; now right|].
  rewrite E, E2. cbn [bind]. eauto.
Qed.

(** ** One point *)
Definition looks (d : block_data RN) (j : nat) (b : R * V3 RN) : Prop :=
  nth_error (bd_volume d) j = Some (fst b : T RN) /\ nth_error (bd_x d) j = Some (snd b).

Lemma den_sum c d X ns : forall bonds acc, Forall2 (looks d) ns bonds ->
  foldM (fun acc j =>
             let? vj := at_ub (bd_volume d) j in
             let? xj := at_ub (bd_x d) j in
             Ok (acc + vj * c / vlen (vsub X xj))%num) acc ns
  = Ok (acc + sum_bonds c X bonds : T RN).
Proof.
  induction ns as [|j t IH]; intros bonds acc F; inversion F; subst.
  - cbn [foldM sum_bonds]. f_equal. symmetry. exact (Rplus_0_r acc).
  - destruct y as [V Y]. destruct H1 as [H1 H2]. cbn [fst snd] in *.
    cbn [foldM]. unfold at_ub at 1 2. rewrite H1, H2. cbn [bind].
    etransitivity; [apply (IH l')|]; auto.
    f_equal. cbn [sum_bonds]. to_R. rewrite len_dist. exact (Rplus_assoc acc _ _).
Qed.

Lemma looks_fun d ns : forall b1 b2, Forall2 (looks d) ns b1 -> Forall2 (looks d) ns b2 -> b1 = b2.
Proof.
  induction ns as [|j t IH]; intros b1 b2 F1 F2; inversion F1; inversion F2; subst; auto.
  f_equal; [|now apply IH].
  destruct y as [V Y], y0 as [V' Y'], H1 as [A1 A2], H6 as [B1 B2]. cbn in *. f_equal; congruence.
Qed.

Lemma spring_eq K h : (spring_constant (N:=RN) K h : R) = 18 * K / (PI * h ^ 4).
Proof. unfold spring_constant. to_R. f_equal. ring. Qed.

Lemma row_bonds d h i ns : rank_ok h d -> In (i, ns) (bd_rows d) ->
  exists X bonds, nth_error (bd_x d) i = Some X /\ Forall2 (looks d) ns bonds /\ 0 < horizon_at h X /\
    Forall (fun b => 0 < fst b /\ 0 < dist X (snd b)) bonds.
Proof.
  intros (HV & HL & HR) HI. destruct (HR _ _ HI) as (X & HX & Hh & HF).
  exists X. clear HI.
  assert (G : exists bonds, Forall2 (looks d) ns bonds /\ Forall (fun b => 0 < fst b /\ 0 < dist X (snd b)) bonds).
  { induction ns as [|j t IH]; [exists nil; auto|].
    inversion HF; subst. destruct H1 as (Y & HY & HD). destruct (IH H2) as (bs & F1 & F2).
    assert (L : (j < length (bd_volume d))%nat) by (rewrite HL; apply nth_error_Some; congruence).
    apply nth_error_Some in L. destruct (nth_error (bd_volume d) j) as [V|] eqn:EV; [|congruence].
    exists ((V, Y) :: bs). split; constructor; auto; [split; auto|].
    split; auto. cbn. rewrite Forall_forall in HV. apply HV. eapply nth_error_In; eauto. }
  destruct G as (bonds & F1 & F2). exists bonds. auto.
Qed.

Lemma sum_pos c X bonds : 0 < c -> bonds <> nil ->
  Forall (fun b => 0 < fst b /\ 0 < dist X (snd b)) bonds -> 0 < sum_bonds c X bonds.
Proof.
  intros Hc Hn F.
  assert (G : 0 <= sum_bonds c X bonds /\ (bonds <> nil -> 0 < sum_bonds c X bonds)).
  { clear Hn. induction F as [|[V Y] t [H1 H2] F [IH _]]; cbn [sum_bonds fst snd] in *; [split; [lra|easy]|].
    assert (0 < V * c / dist X Y).
    { apply Rmult_lt_0_compat; [nra|]. now apply Rinv_0_lt_compat. }
    split; [lra|intros _; lra]. }
  tauto.
Qed.

Lemma spring_pos K h : 0 < K -> 0 < h -> 0 < 18 * K / (PI * h ^ 4).
Proof.
  intros. apply Rmult_lt_0_compat; [lra|]. apply Rinv_0_lt_compat.
  apply Rmult_lt_0_compat; [apply PI_RGT_0|now apply pow_lt].
Qed.

Lemma rank_step_pos rho K h d s : 0 < rho -> 0 < K -> rank_ok h d ->
  rank_point_step rho K h d s -> 0 < s.
Proof.
  intros Hr HK OK (X & bonds & (i & ns & HI & HX & HF) & Hn & ->).
  destruct (row_bonds _ _ _ _ OK HI) as (X' & b' & HX' & HF' & Hh & Hp).
  assert (X' = X) by congruence. subst X'.
  rewrite (looks_fun _ _ _ _ HF HF') in *.
  unfold stable_step. apply sqrt_lt_R0. apply Rmult_lt_0_compat; [lra|].
  apply Rinv_0_lt_compat, sum_pos; auto. now apply spring_pos.
Qed.

(** ** One processor *)
Lemma rank_step_min rho K h d : rank_ok h d ->
  exists r, rank_step (N:=RN) rho K h d = Ok r /\ capped_min (rank_point_step rho K h d) r.
Proof.
  intros OK.
  pose (f := fun row : nat * list nat =>
     let? X := at_ub (bd_x d) (fst row) in
     let c := spring_constant (N:=RN) K (match h with HConst v => v | HVar f => f X end) in
     let? den := denominator c d X (snd row) in
     Ok (match snd row with [] => huge (N:=RN) | _ => sqrt (2 * rho / den) end : R)).
  pose (P := fun (row : nat * list nat) (s : R) => exists X bonds,
     nth_error (bd_x d) (fst row) = Some X /\ Forall2 (looks d) (snd row) bonds /\ bonds <> nil /\
     s = stable_step rho K (horizon_at h X) X bonds).
  destruct (loop_min f P (bd_rows d) cap (fun _ => False)) as (r & E & Hr).
  - apply capped_nil. auto.
  - intros [i ns] HI. destruct (row_bonds _ _ _ _ OK HI) as (X & bonds & HX & HF & Hh & Hp).
    unfold f. cbn [fst snd]. unfold at_ub at 1. rewrite HX. cbn [bind].
    unfold denominator. rewrite (den_sum _ _ _ _ bonds _ HF). cbn [bind].
    eexists. split; [reflexivity|].
    destruct ns as [|n ns].
    + split; [|left; apply Rle_refl]. intros s (X' & b' & _ & HF' & Hn & _). cbn [snd] in HF'.
      inversion HF'; subst. now destruct Hn.
    + assert (Hn : bonds <> nil) by (inversion HF; subst; easy).
      assert (EQ : sqrt (2 * rho / (0 + sum_bonds (spring_constant (N:=RN) K match h with HConst v => v | HVar f0 => f0 X end) X bonds))
                   = stable_step rho K (horizon_at h X) X bonds).
      { unfold stable_step. rewrite Rplus_0_l. f_equal. f_equal. f_equal. apply spring_eq. }
      split.
      * intros v (X' & b' & HX' & HF' & _ & ->). cbn [fst snd] in *.
        assert (X' = X) by congruence. subst X'. rewrite (looks_fun _ _ _ _ HF' HF).
        right. exact EQ.
      * right. exists X, bonds. repeat split; auto.
  - exists r. split.
    + unfold rank_step. etransitivity; [|exact E].
      assert (G : forall l (b : R), foldM (fun best row =>
             let? X := at_ub (bd_x d) (fst row) in
             let c := spring_constant (N:=RN) K (match h with HConst v => v | HVar f => f X end) in
             let? den := denominator c d X (snd row) in
             let dt := match snd row with [] => huge | _ => sqr_root (2 * rho / den)%num end in
             Ok (if (dt <? best)%num then dt else best)) b l
           = foldM (fun best a => let? s := f a in Ok (if Rltb s best then s else best)) b l).
      { induction l as [|row t IH]; intros b; [reflexivity|]. cbn [foldM]. unfold f at 1.
        destruct (at_ub (bd_x d) (fst row)); cbn [bind]; auto.
        cbn zeta.
        destruct (denominator _ d a (snd row)); cbn [bind]; auto. }
      apply (G (bd_rows d) cap).
    + eapply capped_iff; [|exact Hr]. intros v. split.
      * intros [[]|([i ns] & HI & X & bonds & HX & HF & Hn & ->)].
        exists X, bonds. split; [|auto]. exists i, ns. auto.
      * intros (X & bonds & (i & ns & HI & HX & HF) & Hn & ->).
        right. exists (i, ns). split; auto. exists X, bonds. auto.
Qed.

(** ** All processors, all blocks *)
Lemma Forall2_in_r {A B} (R : A -> B -> Prop) l l' : Forall2 R l l' -> forall b, In b l' -> exists a, In a l /\ R a b.
Proof. induction 1; intros c []; subst; [exists x; cbn; auto|]. destruct (IHForall2 _ H1) as (a & ? & ?). exists a; cbn; auto. Qed.
Lemma Forall2_in_l {A B} (R : A -> B -> Prop) l l' : Forall2 R l l' -> forall a, In a l -> exists b, In b l' /\ R a b.
Proof. induction 1; intros c []; subst; [exists y; cbn; auto|]. destruct (IHForall2 _ H1) as (b & ? & ?). exists b; cbn; auto. Qed.

Lemma critical_min b : block_ok b ->
  exists r, critical_step b = Ok r /\ capped_min (block_point_step b) r.
Proof.
  intros (Hr & HK & Hne & OK). unfold critical_step.
  rewrite Forall_forall in OK.
  destruct (mapO_spec (rank_step (N:=RN) (bk_rho b) (bk_K b) (bk_h b)) (bk_ranks b)) as (l & E & F).
  { intros d Hd. destruct (rank_step_min (bk_rho b) (bk_K b) (bk_h b) d (OK _ Hd)) as (r & E & _). eauto. }
  rewrite E. cbn [bind].
  pose (P := fun s v : R => exists d, In d (bk_ranks b) /\
     rank_step (N:=RN) (bk_rho b) (bk_K b) (bk_h b) d = Ok s /\ rank_point_step (bk_rho b) (bk_K b) (bk_h b) d v).
  destruct (min_all_spec l P) as (r & E2 & Hm).
  - destruct l; [|easy]. inversion F. congruence.
  - intros s Hs. destruct (Forall2_in_r _ _ _ F s Hs) as (d & Hd & Es).
    destruct (rank_step_min (bk_rho b) (bk_K b) (bk_h b) d (OK _ Hd)) as (r & E3 & (C1 & C2 & C3)).
    assert (r = s) by (pose proof (eq_trans (eq_sym E3) Es) as W; now injection W). subst r.
    split; [auto|]. split.
    + intros v (d' & Hd' & Es' & V).
      destruct (rank_step_min (bk_rho b) (bk_K b) (bk_h b) d' (OK _ Hd')) as (r' & E4 & (C1' & C2' & C3')).
      assert (r' = s) by (pose proof (eq_trans (eq_sym E4) Es') as W; now injection W). subst r'.
      now apply C2'.
    + destruct C3; [auto|]. right. exists d. auto.
  - exists r. split; [exact E2|]. eapply capped_iff; [|exact Hm].
    intros v. split.
    + intros (s & _ & d & Hd & _ & V). exists d. auto.
    + intros (d & Hd & V). destruct (Forall2_in_l _ _ _ F d Hd) as (s & Hs & Es).
      exists s. split; auto. exists d. auto.
Qed.

Lemma block_step_pos b s : block_ok b -> block_point_step b s -> 0 < s.
Proof.
  intros (Hr & HK & _ & OK) (d & Hd & V). rewrite Forall_forall in OK.
  exact (rank_step_pos _ _ _ d s Hr HK (OK _ Hd) V).
Qed.

Lemma density_scales b k s : block_ok b -> 0 < k ->
  block_point_step b s -> block_point_step (with_density b (k * bk_rho b)) (sqrt k * s).
Proof.
  intros OKb Hk (d & Hd & X & bonds & Hp & Hn & ->).
  exists d. split; [exact Hd|]. exists X, bonds. repeat split; auto.
  unfold stable_step. rewrite <- sqrt_mult_alt by lra. f_equal. cbn. unfold Rdiv. ring.
Qed.
Lemma density_unscales b k s : block_ok b -> 0 < k ->
  block_point_step (with_density b (k * bk_rho b)) s -> exists s', block_point_step b s' /\ s = sqrt k * s'.
Proof.
  intros OKb Hk (d & Hd & X & bonds & Hp & Hn & ->).
  eexists. split; [exists d; split; [exact Hd|]; exists X, bonds; repeat split; auto|].
  unfold stable_step. rewrite <- sqrt_mult_alt by lra. f_equal. cbn. unfold Rdiv. ring.
Qed.
Lemma critical_density b k s s' : block_ok b -> 0 < k ->
  critical_step b = Ok (s : T RN) -> s < cap ->
  critical_step (with_density b (k * bk_rho b)) = Ok (s' : T RN) -> s' < cap ->
  s' = sqrt k * s.
Proof.
  intros OKb Hk E Hs E' Hs'.
  assert (OKb' : block_ok (with_density b (k * bk_rho b))).
  { destruct OKb as (A & B & C & D). repeat split; auto. cbn. now apply Rmult_lt_0_compat. }
  destruct (critical_min _ OKb) as (r & E1 & (C1 & C2 & C3)).
  destruct (critical_min _ OKb') as (r' & E1' & (C1' & C2' & C3')).
  assert (r = s) by (pose proof (eq_trans (eq_sym E1) E) as W; now injection W).
  assert (r' = s') by (pose proof (eq_trans (eq_sym E1') E') as W; now injection W). subst r r'.
  pose proof (sqrt_lt_R0 _ Hk).
  destruct C3 as [->|C3]; [lra|]. destruct C3' as [->|C3']; [lra|].
  pose proof (C2' _ (density_scales _ _ _ OKb Hk C3)).
  destruct (density_unscales _ _ _ OKb Hk C3') as (t & Ht & ->).
  pose proof (C2 _ Ht). nra.
Qed.

Lemma fold_repeat (m : R) n : fold_left (fun a b : R => if Rltb b a then b else a) (repeat m n) m = m.
Proof. induction n; cbn [repeat fold_left]; [auto|]. destruct (Rltb m m); auto. Qed.

Lemma explicit_min blocks nprocs fixed safety : (0 < nprocs)%nat -> Forall block_ok blocks ->
  exists m, capped_min (fun v => exists b, In b blocks /\ block_point_step b v) m /\
    (forall b s, In b blocks -> critical_step b = Ok (s : T RN) -> m <= s) /\
    explicit_step nprocs blocks fixed safety =
      Ok ((match fixed with Some f => f | None => m end) * (match safety with Some s => s | None => 1 end) : T RN).
Proof.
  intros Hn OK. rewrite Forall_forall in OK.
  destruct (loop_min (fun b : block RN => critical_step b : outcome R) block_point_step blocks cap (fun _ => False)) as (m & E & Hm).
  - apply capped_nil. auto.
  - intros b Hb. destruct (critical_min _ (OK b Hb)) as (r & E & C). exists r. split; [exact E|]. now apply capped_joins.
  - exists m. split; [|split].
    + eapply capped_iff; [|exact Hm]. intros v. tauto.
    + intros b s Hb Es. destruct (critical_min _ (OK b Hb)) as (r & E1 & (C1 & C2 & C3)).
      assert (r = s) by (pose proof (eq_trans (eq_sym E1) Es) as W; now injection W). subst r.
      destruct Hm as (M1 & M2 & _). destruct C3 as [->|C3]; [lra|]. apply M2. right. eauto.
    + unfold explicit_step.
      match goal with |- bind ?a ?g = _ => etransitivity; [exact (f_equal (fun z => bind z g) E)|] end.
      cbn [bind]. destruct nprocs; [lia|]. cbn [repeat min_all bind].
      assert (FR : fold_left (fun m0 b : T RN => if (b <? m0)%num then b else m0) (repeat (m : T RN) nprocs) (m : T RN) = m) by exact (fold_repeat m nprocs).
      f_equal. destruct fixed as [f|], safety as [s|]; to_R; try exact (eq_sym (Rmult_1_r f)); auto.
      * now rewrite FR.
      * rewrite FR. symmetry. apply Rmult_1_r.
Qed.
