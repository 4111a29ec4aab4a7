From Coq Require Import Reals Lra Lia FinFun.
From Verif Require Import Base Num ModelForce ModelTangent SpecCorr SpecTangent ProofData ProofCorr ProofTangent.
Local Open Scope nat_scope.

(** ** arrays by global id *)
Lemma nth_error_ext : forall A (l l' : list A), (forall k, nth_error l k = nth_error l' k) -> l = l'.
Proof.
  intros A. induction l as [|a l IH]; intros [|b l'] H; auto; [specialize (H 0); discriminate|specialize (H 0); discriminate|].
  f_equal; [specialize (H 0); cbn in H; congruence|apply IH; intros k; exact (H (S k))].
Qed.
Lemma upd_at : forall A (l : list A) i a, i < length l -> upd l i a = Some (firstn i l ++ a :: skipn (S i) l).
Proof. intros A. induction l as [|h l IH]; intros [|i] a H; cbn in *; try lia; auto. rewrite IH by lia. reflexivity. Qed.
Lemma at_upd : forall A (l : list A) i a k, i < length l -> nth_error (firstn i l ++ a :: skipn (S i) l) k = if Nat.eqb k i then Some a else nth_error l k.
Proof.
  intros A. induction l as [|h l IH]; intros [|i] a [|k] H; cbn in *; try lia; auto. now rewrite IH by lia.
Qed.
Lemma upd_ub_spec : forall A (l l' : list A) i a, i < length l -> length l' = length l ->
  (forall k, k < length l -> nth_error l' k = if Nat.eqb k i then Some a else nth_error l k) -> upd_ub l i a = Ok l'.
Proof.
  intros A l l' i a Hi L H. unfold upd_ub. rewrite upd_at by auto. f_equal. apply nth_error_ext. intros k. rewrite at_upd by auto.
  destruct (Nat.lt_ge_cases k (length l)) as [Hk|Hk]; [now rewrite H|].
  destruct (Nat.eqb_spec k i); [lia|]. rewrite (proj2 (nth_error_None l k)), (proj2 (nth_error_None l' k)) by lia. auto.
Qed.
Lemma at_points_len : forall nd Y gs, length (at_points nd Y gs) = nd * length gs.
Proof. intros. unfold at_points. induction gs; cbn [flat_map length]; [lia|]. rewrite app_length, map_length, seq_length, IHgs. lia. Qed.
Lemma at_points_nth : forall nd Y gs m g a, a < nd -> nth_error gs m = Some g -> nth_error (at_points nd Y gs) (nd * m + a) = Some (Y g a).
Proof.
  intros nd Y gs. unfold at_points. induction gs as [|h gs IH]; intros [|m] g a Ha H; cbn [nth_error flat_map] in *; try discriminate.
  - injection H as ->. rewrite Nat.mul_0_r, nth_error_app1 by (rewrite map_length, seq_length; lia). cbn.
    rewrite (map_nth_error _ _ _ (d:=a)); auto. assert (E : nth_error (seq 0 nd) a = Some (nth a (seq 0 nd) 0)) by (apply nth_error_nth'; rewrite seq_length; lia).
    rewrite E, seq_nth by auto. auto.
  - rewrite nth_error_app2 by (rewrite map_length, seq_length; lia). rewrite map_length, seq_length.
    replace (nd * S m + a - nd) with (nd * m + a) by lia. auto.
Qed.
Lemma at_ub_points : forall nd Y gs m g a, a < nd -> nth_error gs m = Some g -> at_ub (at_points nd Y gs) (nd * m + a) = Ok (Y g a).
Proof. intros. unfold at_ub. erewrite at_points_nth; eauto. Qed.
Lemma split_index : forall nd k n, k < nd * n -> exists m a, m < n /\ a < nd /\ k = nd * m + a.
Proof.
  intros nd k n H. assert (nd <> 0) by (intros ->; lia). exists (k / nd), (k mod nd).
  repeat split; [apply Nat.div_lt_upper_bound; lia|now apply Nat.mod_upper_bound|apply Nat.div_mod; auto].
Qed.
Lemma nodup_nth : forall A (l : list A) i j a, NoDup l -> nth_error l i = Some a -> nth_error l j = Some a -> i = j.
Proof. intros A l i j a ND H1 H2. eapply (proj1 (NoDup_nth_error l)); [auto| |congruence]. apply nth_error_Some. congruence. Qed.
Lemma at_nudge : forall nd Y gs m j b e old, NoDup gs -> nth_error gs m = Some j -> b < nd -> old = (Y j b + e)%R ->
  upd_ub (at_points nd Y gs) (nd * m + b) old = Ok (at_points nd (nudge Y j b e) gs).
Proof.
  intros nd Y gs m j b e old ND Hm Hb ->. assert (m < length gs) by (apply nth_error_Some; congruence). apply upd_ub_spec; rewrite ?at_points_len; auto; [nia|].
  intros k Hk. apply split_index in Hk as (m' & a & Hm' & Ha & ->). destruct (nth_error gs m') as [g|] eqn:Eg; [|apply nth_error_None in Eg; lia].
  rewrite !(at_points_nth _ _ _ _ _ _ Ha Eg). unfold nudge.
  destruct (Nat.eqb_spec (nd * m' + a) (nd * m + b)) as [E|E].
  - apply index_inj in E as [-> ->]; auto. rewrite Hm in Eg. injection Eg as <-. now rewrite !Nat.eqb_refl.
  - destruct (Nat.eqb_spec g j) as [->|], (Nat.eqb_spec a b) as [->|]; cbn [andb]; auto. destruct E. f_equal. f_equal. eapply nodup_nth; eauto.
Qed.
Lemma nudge_away : forall nd Y gs j b e, ~ In j gs -> at_points nd (nudge Y j b e) gs = at_points nd Y gs.
Proof.
  intros nd Y gs j b e H. unfold at_points. induction gs as [|g gs IH]; cbn [flat_map]; auto. rewrite IH by (cbn in H; tauto). f_equal.
  apply map_ext. intros a. unfold nudge. destruct (Nat.eqb_spec g j); auto. cbn in H. tauto.
Qed.

(** ** writing the scratch matrix *)
Section Writes.
  Context (G : nat -> nat -> R).
  Definition wrote (P : nat -> nat -> Prop) (S S' : scratch RN) : Prop :=
    s_dim S' = s_dim S /\ (forall r c, P r c -> s_data S' r c = Some (G r c)) /\ (forall r c, s_data S' r c = s_data S r c \/ s_data S' r c = Some (G r c)).
  Definition writer (D : nat) (P : nat -> nat -> Prop) (step : scratch RN -> outcome (scratch RN)) : Prop :=
    forall S, s_dim S = D -> exists S', step S = Ok S' /\ wrote P S S'.
  Lemma wrote_trans : forall P Q S1 S2 S3, wrote P S1 S2 -> wrote Q S2 S3 -> wrote (fun r c => P r c \/ Q r c) S1 S3.
  Proof.
    intros P Q S1 S2 S3 (D1 & A1 & B1) (D2 & A2 & B2). split; [congruence|]. split.
    - intros r c [H|H]; auto. destruct (B2 r c) as [->|]; auto.
    - intros r c. destruct (B2 r c) as [->|]; auto.
  Qed.
  Lemma wrote_weaken : forall (P Q : nat -> nat -> Prop) S1 S2, (forall r c, Q r c -> P r c) -> wrote P S1 S2 -> wrote Q S1 S2.
  Proof. intros P Q S1 S2 H (D & A & B). repeat split; auto. Qed.
  Lemma writer_fold : forall D X (step : scratch RN -> X -> outcome (scratch RN)) P l, (forall x, In x l -> writer D (P x) (fun S => step S x)) ->
    writer D (fun r c => exists x, In x l /\ P x r c) (fun S => foldM step S l).
  Proof.
    intros D X step P. induction l as [|x l IH]; intros H S HD; cbn [foldM].
    - exists S. split; auto. repeat split; auto. intros r c (x & [] & _).
    - destruct (H x (or_introl eq_refl) S HD) as (S1 & E1 & W1). rewrite E1. cbn [bind].
      destruct (IH (fun y Hy => H y (or_intror Hy)) S1) as (S2 & E2 & W2); [destruct W1; congruence|]. exists S2. split; auto.
      eapply wrote_weaken; [|eapply wrote_trans; eauto]. intros r c (y & [->|Hy] & HP); [auto|right; eauto].
  Qed.
  Lemma writer_one : forall D r c a, r < D -> c < D -> a = G r c -> writer D (fun r' c' => r' = r /\ c' = c) (fun S => s_write S r c a).
  Proof.
    intros D r c a Hr Hc -> S HD. unfold s_write, s_in. rewrite HD. rewrite (proj2 (Nat.ltb_lt r D)), (proj2 (Nat.ltb_lt c D)) by auto. cbn [andb].
    eexists. split; [reflexivity|]. unfold same_entry. split; [|split]; cbn [s_dim s_data fst snd]; auto.
    - intros r' c' [-> ->]. now rewrite !Nat.eqb_refl.
    - intros r' c'. destruct (Nat.eqb_spec r' r) as [->|], (Nat.eqb_spec c' c) as [->|]; cbn [andb]; auto.
  Qed.
  Lemma writer_bind : forall D A (v : outcome A) a (step : A -> scratch RN -> outcome (scratch RN)) P, v = Ok a -> writer D P (step a) -> writer D P (fun S => let? a := v in step a S).
  Proof. intros D A v a step P -> H. exact H. Qed.
  Lemma writer_seq : forall D (f g : scratch RN -> outcome (scratch RN)) P Q, writer D P f -> writer D Q g -> writer D (fun r c => P r c \/ Q r c) (fun S => let? S := f S in g S).
  Proof.
    intros D f g P Q Hf Hg S HD. destruct (Hf S HD) as (S1 & E1 & W1). destruct (Hg S1) as (S2 & E2 & W2); [destruct W1; congruence|].
    exists S2. rewrite E1. cbn [bind]. split; auto. eapply wrote_trans; eauto.
  Qed.
End Writes.

Lemma order_iff : forall n x, In x (order n) <-> x <= n.
Proof. intros. unfold order. rewrite in_app_iff, in_seq. cbn [In]. lia. Qed.
Lemma slope_ok : forall (eps : R) (fp fm : list R) i, i < length fp -> i < length fm ->
  slope (N:=RN) eps fp fm i = Ok ((nth i fp 0 - nth i fm 0) / eps * (1 / 2))%R.
Proof.
  intros eps fp fm i Hp Hm. unfold slope, at_ub. change (T RN) with R. rewrite (nth_error_nth' fp 0%R Hp), (nth_error_nth' fm 0%R Hm). reflexivity.
Qed.

(** ** the loop over the columns *)
Definition column (nd : nat) (eps : R) (ns : nbhd) (Y V : field) (dt : R) (c r : nat) : R :=
  let q := c / nd in let b := c mod nd in
  let j := nth q (n_gids ns) 0 in
  let f s := nth r (n_force ns (at_points nd (nudge Y j b s) (n_gids ns)) (at_points nd (nudge V j b (s / dt)) (n_gids ns))) 0%R in
  ((f eps - f (- eps)) / eps * (1 / 2))%R.
Lemma index_div : forall nd m a, a < nd -> (nd * m + a) / nd = m.
Proof. intros. rewrite Nat.mul_comm, Nat.div_add_l, Nat.div_small by lia. lia. Qed.
Lemma index_mod : forall nd m a, a < nd -> (nd * m + a) mod nd = a.
Proof. intros. rewrite Nat.add_comm, Nat.mul_comm, Nat.mod_add, Nat.mod_small by lia. auto. Qed.

Lemma columns_displacement : forall Y V W eps dt gs U n D, holds Y V W (gs, U) n -> 3 * length gs <= D ->
  writer (fun r c => column 3 eps n Y V dt c r) D (fun r c => r < 3 * length gs /\ c < 3 * length gs)
    (fun S => fd_columns (N:=RN) (Layout 3 3 0 None) eps dt (length gs - 1) U S).
Proof.
  intros Y V W eps dt gs U n D (E & ND & L2 & HY & HV & HW & HF) HD. cbn [fst snd] in *. subst gs. unfold fd_columns. cbn [l_disp l_temp].
  set (gs := n_gids n) in *. set (len := length gs) in *.
  intros S HS.
  assert (WW : writer (fun r c => column 3 eps n Y V dt c r) D (fun r c => exists q, In q (order (len - 1)) /\ ((exists dof, In dof (seq 0 3) /\ (exists id, In id (order (len - 1)) /\ exists d, In d (seq 0 3) /\ r = 3 * id + 0 + d /\ c = 3 * q + 0 + dof)) \/ False))
    (fun S => foldM (fun S q => let? S := foldM (fun S dof => fd_displacement (N:=RN) (Layout 3 3 0 None) eps dt (len - 1) U q dof S) S (seq 0 3) in Ok S) S (order (len - 1)))).
  { apply writer_fold. intros q Hq. apply order_iff in Hq. apply writer_seq.
    2:{ intros S0 H0. exists S0. split; auto. repeat split; auto. intros r c []. }
    apply writer_fold. intros dof Hd. apply in_seq in Hd.
    destruct (nth_error gs q) as [j|] eqn:Ej; [|apply nth_error_None in Ej; fold len in Ej; lia].
    unfold fd_displacement. cbn [l_all l_disp_off].
    eapply writer_bind; [rewrite HY; apply (at_ub_points 3 Y gs q j dof); auto; lia|].
    eapply writer_bind; [rewrite HV; apply (at_ub_points 3 V gs q j dof); auto; lia|].
    eapply writer_bind; [rewrite HY; eapply (at_nudge 3 Y gs q j dof (- eps)); auto; try lia; to_R; ring|].
    eapply writer_bind; [rewrite HV; eapply (at_nudge 3 V gs q j dof (- eps / dt)); auto; try lia; to_R; unfold Rdiv; ring|].
    destruct (HF (at_points 3 (nudge Y j dof (- eps)) gs) (at_points 3 (nudge V j dof (- eps / dt)) gs)) as [Em Lm]; [now rewrite at_points_len..|].
    eapply writer_bind; [exact Em|].
    eapply writer_bind; [rewrite HY; eapply (at_nudge 3 Y gs q j dof eps); auto; try lia; to_R; ring|].
    eapply writer_bind; [rewrite HV; eapply (at_nudge 3 V gs q j dof (eps / dt)); auto; try lia; to_R; unfold Rdiv; ring|].
    destruct (HF (at_points 3 (nudge Y j dof eps) gs) (at_points 3 (nudge V j dof (eps / dt)) gs)) as [Ep Lp]; [now rewrite at_points_len..|].
    eapply writer_bind; [exact Ep|].
    apply writer_fold. intros id Hid. apply order_iff in Hid. apply writer_fold. intros d Hd'. apply in_seq in Hd'. fold len in Lm, Lp.
    eapply writer_bind; [apply slope_ok; [rewrite Lp|rewrite Lm]; nia|]. apply writer_one; [nia|nia|].
    unfold column. rewrite !Nat.add_0_r. rewrite index_div, index_mod by lia. fold gs. rewrite (nth_error_nth _ _ 0 Ej). reflexivity. }
  destruct (WW S HS) as (S' & E' & W'). exists S'. split; [exact E'|]. eapply wrote_weaken; [|exact W'].
  intros r c [Hr Hc]. apply split_index in Hr as (m & a & Hm & Ha & ->), Hc as (m' & b & Hm' & Hb & ->).
  exists m'. split; [apply order_iff; lia|]. left. exists b. split; [apply in_seq; lia|]. exists m. split; [apply order_iff; lia|]. exists a. split; [apply in_seq; lia|]. lia.
Qed.
Lemma columns_temperature : forall Y V W eps dt gs U n D, holds_temperature Y W (gs, U) n -> length gs <= D ->
  writer (fun r c => column 1 eps n Y V dt c r) D (fun r c => r < length gs /\ c < length gs)
    (fun S => fd_columns (N:=RN) (Layout 1 0 0 (Some 0)) eps dt (length gs - 1) U S).
Proof.
  intros Y V W eps dt gs U n D (E & ND & L2 & HY & HW & HF) HD. cbn [fst snd] in *. subst gs. unfold fd_columns. cbn [l_disp l_temp seq foldM bind].
  set (gs := n_gids n) in *. set (len := length gs) in *.
  intros S HS.
  assert (WW : writer (fun r c => column 1 eps n Y V dt c r) D (fun r c => exists q, In q (order (len - 1)) /\ exists id, In id (order (len - 1)) /\ r = 1 * id + 0 /\ c = 1 * q + 0)
    (fun S => foldM (fun S q => fd_temperature (N:=RN) (Layout 1 0 0 (Some 0)) 0 eps (len - 1) U q S) S (order (len - 1)))).
  { apply writer_fold. intros q Hq. apply order_iff in Hq.
    destruct (nth_error gs q) as [j|] eqn:Ej; [|apply nth_error_None in Ej; fold len in Ej; lia].
    assert (Eq : q = 1 * q + 0) by lia.
    unfold fd_temperature. cbn [l_all l_disp_off].
    eapply writer_bind; [rewrite HY, Eq; apply (at_ub_points 1 Y gs q j 0); auto; lia|].
    eapply writer_bind; [rewrite HY, Eq; eapply (at_nudge 1 Y gs q j 0 (- eps)); auto; to_R; ring|].
    destruct (HF (at_points 1 (nudge Y j 0 (- eps)) gs) (at_points 1 (nudge V j 0 (- eps / dt)) gs)) as [Em Lm]; [rewrite at_points_len; fold len; lia|].
    eapply writer_bind; [exact Em|].
    eapply writer_bind; [rewrite HY, Eq; eapply (at_nudge 1 Y gs q j 0 eps); auto; to_R; ring|].
    destruct (HF (at_points 1 (nudge Y j 0 eps) gs) (at_points 1 (nudge V j 0 (eps / dt)) gs)) as [Ep Lp]; [rewrite at_points_len; fold len; lia|].
    eapply writer_bind; [exact Ep|].
    apply writer_fold. intros id Hid. apply order_iff in Hid. fold len in Lm, Lp.
    eapply writer_bind; [apply slope_ok; [rewrite Lp|rewrite Lm]; lia|]. apply writer_one; [lia|lia|].
    unfold column. rewrite index_div, index_mod by lia. fold gs. rewrite (nth_error_nth _ _ 0 Ej). replace (1 * id + 0) with id by lia. reflexivity. }
  destruct (WW S HS) as (S' & E' & W'). exists S'. split; [exact E'|]. eapply wrote_weaken; [|exact W'].
  intros r c [Hr Hc]. exists c. split; [apply order_iff; lia|]. exists r. split; [apply order_iff; lia|]. lia.
Qed.

(** ** volumes, finiteness *)
Lemma times_volume_ok : forall nd dim vol (S : scratch RN) A, dim <= s_dim S -> (forall r, r < dim -> r / nd < length vol) ->
  (forall r c, r < dim -> c < dim -> s_data S r c = Some (A r c)) ->
  exists S', times_volume (N:=RN) nd dim vol S = Ok S' /\ s_dim S' = s_dim S /\
    forall r c, r < dim -> c < dim -> s_data S' r c = Some (A r c * nth (r / nd) vol 0)%R.
Proof.
  intros nd dim vol S A HD HV HA. unfold times_volume.
  rewrite (nested nat nat (scratch RN) (fun S r c => let? a := s_read S r c in let? w := at_ub vol (r / nd) in s_write S r c (mul a w)) (seq 0 dim) (seq 0 dim) S).
  assert (G : forall l (S : scratch RN), NoDup l -> dim <= s_dim S -> (forall r c, In (r, c) l -> r < dim /\ c < dim /\ s_data S r c = Some (A r c)) ->
    exists S', foldM (fun s ab => let? a := s_read s (fst ab) (snd ab) in let? w := at_ub vol (fst ab / nd) in s_write s (fst ab) (snd ab) (@mul RN a w)) S l = Ok S' /\ s_dim S' = s_dim S /\
      (forall r c, In (r, c) l -> s_data S' r c = Some (A r c * nth (r / nd) vol 0)%R) /\ (forall r c, ~ In (r, c) l -> s_data S' r c = s_data S r c)).
  { clear S HD HA. induction l as [|[r c] l IH]; intros S NDl HD HA; cbn [foldM].
    - exists S. repeat split; auto. intros r c [].
    - inversion NDl as [|? ? Hn NDl']; subst. destruct (HA r c (or_introl eq_refl)) as (Hr & Hc & Ed). cbn [fst snd].
      assert (EW : exists S1, (let? a := s_read S r c in let? w := at_ub vol (r / nd) in s_write S r c (@mul RN a w)) = Ok S1 /\ s_dim S1 = s_dim S /\
        forall r' c', s_data S1 r' c' = if same_entry (r', c') (r, c) then Some (A r c * nth (r / nd) vol 0)%R else s_data S r' c').
      { unfold s_read, s_write, s_in. rewrite (proj2 (Nat.ltb_lt r (s_dim S))), (proj2 (Nat.ltb_lt c (s_dim S))) by lia. cbn [andb]. rewrite Ed. cbn [bind].
        unfold at_ub. rewrite (nth_error_nth' vol 0%R) by auto. cbn [bind]. eexists. split; [reflexivity|]. split; auto. }
      destruct EW as (S1 & -> & D1 & E1). cbn [bind].
      assert (Other : forall r' c', In (r', c') l -> s_data S1 r' c' = s_data S r' c').
      { intros r' c' Hin. rewrite E1. unfold same_entry; cbn [fst snd]. destruct (Nat.eqb_spec r' r) as [->|], (Nat.eqb_spec c' c) as [->|]; cbn [andb]; auto. contradiction. }
      destruct (IH S1 NDl') as (S' & E' & D' & I' & O'); [lia| |].
      { intros r' c' Hin. rewrite Other by auto. apply HA. now right. }
      exists S'. split; auto. split; [congruence|]. split.
      + intros r' c' [E|Hin]; auto. injection E as <- <-. rewrite O', E1 by auto. unfold same_entry; cbn [fst snd]. now rewrite !Nat.eqb_refl.
      + intros r' c' Hnin. rewrite O', E1 by (cbn in Hnin; tauto). unfold same_entry; cbn [fst snd].
        destruct (Nat.eqb_spec r' r) as [->|], (Nat.eqb_spec c' c) as [->|]; cbn [andb]; auto. cbn in Hnin. tauto. }
  assert (NP : forall A B (la : list A) (lb : list B), NoDup la -> NoDup lb -> NoDup (list_prod la lb)).
  { intros X Y la lb H1 H2. induction H1 as [|a la Hn H1 IH]; cbn [list_prod]; [constructor|].
    assert (NA : forall l1 l2 : list (X * Y), NoDup l1 -> NoDup l2 -> (forall x, In x l1 -> In x l2 -> False) -> NoDup (l1 ++ l2)).
    { induction l1 as [|x l1 IH1]; intros l2 N1 N2 Hd; cbn [app]; auto. inversion N1; subst. constructor.
      - rewrite in_app_iff. intros [|]; auto. eapply Hd; eauto. now left.
      - apply IH1; auto. intros y Hy. apply Hd. now right. }
    apply NA; auto.
    - apply FinFun.Injective_map_NoDup; auto. intros x y E. now injection E.
    - intros [x y] H3 H4. apply in_map_iff in H3 as (z & Ez & _). injection Ez as <- <-. apply in_prod_iff in H4. tauto. }
  destruct (G (list_prod (seq 0 dim) (seq 0 dim)) S) as (S' & E' & D' & I' & _); auto.
  - apply NP; apply seq_NoDup.
  - intros r c Hin. apply in_prod_iff in Hin as [H1 H2]. apply in_seq in H1, H2. repeat split; try lia. apply HA; lia.
  - exists S'. split; auto. split; auto. intros r c Hr Hc. apply I'. apply in_prod_iff. rewrite !in_seq. lia.
Qed.
Lemma all_finite_ok : forall dim (S : scratch RN), dim <= s_dim S -> (forall r c, r < dim -> c < dim -> s_data S r c <> None) -> all_finite (N:=RN) (fun _ => true) dim S = Ok tt.
Proof.
  intros dim S HD H. unfold all_finite.
  assert (G : forall A (f : unit -> A -> outcome unit) l, (forall a u, In a l -> f u a = Ok tt) -> foldM f tt l = Ok tt).
  { intros A f. induction l as [|a l IH]; intros Hf; cbn [foldM]; auto. rewrite Hf by now left. cbn [bind]. apply IH. intros; apply Hf. now right. }
  apply G. intros r u Hr. apply G. intros c u' Hc. apply in_seq in Hr, Hc. unfold s_read, s_in.
  rewrite (proj2 (Nat.ltb_lt r (s_dim S))), (proj2 (Nat.ltb_lt c (s_dim S))) by lia. cbn [andb]. destruct (s_data S r c) eqn:E; [reflexivity|]. destruct (H r c); auto; lia.
Qed.
