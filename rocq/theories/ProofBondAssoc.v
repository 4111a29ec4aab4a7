(** * Gradient weights of the bond-associated correspondence material *)
From Coq Require Import Reals Lra Lia Permutation.
From Verif Require Import Base Num ModelNeigh SpecDamage ModelForce SpecForce ModelCorr SpecCorr ModelBondAssoc SpecBondAssoc
  ProofData ProofDamage ProofForce ProofKernels ProofCorr ProofCorr2 ProofCorr3 ProofTangent.
Local Open Scope R_scope.
Local Notation vec := (V3 RN).
Local Notation ten := (M3 RN).

(** ** exponents *)
Lemma NoDup_flat {A B} (f : A -> list B) : forall l, NoDup l -> (forall a, In a l -> NoDup (f a)) ->
  (forall a b c, In a l -> In b l -> In c (f a) -> In c (f b) -> a = b) -> NoDup (flat_map f l).
Proof.
  induction l as [|a l IH]; intros H1 H2 H3; cbn [flat_map]; [constructor|]. inversion H1; subst.
  assert (H7 : NoDup (f a)) by (apply H2; now left).
  assert (IH' : NoDup (flat_map f l)) by (apply IH; auto; [intros; apply H2; now right|intros; eapply H3; eauto; now right]).
  assert (D : forall c, In c (f a) -> ~ In c (flat_map f l)).
  { intros c Hc Hf. apply in_flat_map in Hf as (b & Hb & Hcb). assert (a = b) by (eapply H3; eauto; [now left|now right]). subst. contradiction. }
  revert H7 D. generalize (f a). induction l0 as [|c l0 IHl]; intros ND D; cbn [app]; auto. inversion ND; subst. constructor.
  - intros Hc. apply in_app_or in Hc as [Hc|Hc]; [contradiction|]. apply (D c); [now left|auto].
  - apply IHl; auto. intros d Hd. apply D. now right.
Qed.
Lemma powers_of_In : forall o e, In e (powers_of o) <-> degree e = o.
Proof.
  intros o [[a b] c]. unfold powers_of, degree. rewrite in_flat_map. split.
  - intros (i & Hi & He). apply in_map_iff in He as (j & E & Hj). apply in_seq in Hi, Hj. injection E as <- <- <-. lia.
  - intros E. exists (o - a)%nat. split; [apply in_seq; lia|]. apply in_map_iff. exists c. split; [|apply in_seq; lia].
    f_equal. f_equal; lia.
Qed.
Lemma powers_of_NoDup : forall o, NoDup (powers_of o).
Proof.
  intros o. unfold powers_of. apply NoDup_flat; [apply seq_NoDup| |].
  - intros i Hi. apply FinFun.Injective_map_NoDup; [|apply seq_NoDup]. intros x y E. now injection E.
  - intros i j e Hi Hj H1 H2. apply in_map_iff in H1 as (k & <- & Hk), H2 as (l & E & Hl). apply in_seq in Hi, Hj, Hk, Hl. injection E as E1 E2 E3. lia.
Qed.
Lemma powers_In : forall order e, In e (powers order) <-> (1 <= Z.of_nat (degree e) <= order)%Z.
Proof.
  intros order e. unfold powers. rewrite in_flat_map. split.
  - intros (o & Ho & He). apply powers_of_In in He. apply in_seq in Ho. lia.
  - intros H. exists (degree e). split; [apply in_seq; lia|now apply powers_of_In].
Qed.
Lemma powers_NoDup : forall order, NoDup (powers order).
Proof.
  intros order. unfold powers. apply NoDup_flat; [apply seq_NoDup|intros; apply powers_of_NoDup|].
  intros a b c _ _ H1 H2. apply powers_of_In in H1, H2. congruence.
Qed.
Lemma powers_head : forall order, (1 <= order)%Z -> exists r, powers order = unit_exp 0 :: unit_exp 1 :: unit_exp 2 :: r.
Proof.
  intros order H. unfold powers. destruct (Z.to_nat order) as [|n] eqn:E; [lia|]. cbn [seq flat_map]. exists (flat_map powers_of (seq 2 n)). reflexivity.
Qed.
Lemma is_exp_iff : forall e f, is_exp e f = true <-> e = f.
Proof.
  intros [[a b] c] [[a' b'] c']. unfold is_exp. rewrite !andb_true_iff, !Nat.eqb_eq. split; [intros [[-> ->] ->]; auto|]. intros E. injection E as -> -> ->. auto.
Qed.

(** ** monomials *)
Lemma times_pow : forall n (a q : R), times (N:=RN) n a q = q * a ^ n.
Proof. induction n as [|n IH]; intros a q; cbn [times pow]; [change (q = q * 1); ring|]. rewrite IH. change (mul (n:=RN) q a) with (q * a). rewrite Rmult_assoc. reflexivity. Qed.
Lemma monomial_mono : forall h (xi : vec) e, h <> 0 -> monomial (N:=RN) h xi e = mono e xi / h ^ degree e.
Proof.
  intros h [a b c] [[i j] k] H. unfold monomial, mono, degree. cbn [vx vy vz]. rewrite !times_pow. to_R. unfold Rdiv. rewrite !Rpow_mult_distr, !pow_inv, !pow_add, !Rinv_mult. ring.
Qed.

(** ** sums *)
Lemma fold_sum : forall A (f : A -> R) l s, fold_left (fun s a => s + f a) l s = s + sum_over f l.
Proof. intros A f. induction l as [|a l IH]; intros s; cbn [fold_left sum_over fold_right]; [ring|]. rewrite IH. fold (sum_over f l). ring. Qed.
Lemma so_swap : forall A B (f : A -> B -> R) la lb, sum_over (fun a => sum_over (f a) lb) la = sum_over (fun b => sum_over (fun a => f a b) la) lb.
Proof.
  intros A B f. induction la as [|a la IH]; intros lb; [symmetry; apply so_0; auto|]. rewrite so_cons, IH, <- so_add. reflexivity.
Qed.
Lemma so_nth : forall A (f : A -> R) (d : A) l, sum_over f l = sum_over (fun n => f (nth n l d)) (seq 0 (length l)).
Proof.
  intros A f d. induction l as [|a l IH]; auto. cbn [length seq]. rewrite !so_cons, <- seq_shift, so_map, IH. f_equal.
Qed.
Lemma so_kron : forall n i (f : nat -> R), (i < n)%nat -> sum_to n (fun j => kron i j * f j) = f i.
Proof.
  intros n i f H. unfold sum_to. rewrite <- (so_seq_one n f i 0) by lia. apply so_ext. intros a _. unfold kron. rewrite Nat.eqb_sym. destruct (Nat.eqb a i); ring.
Qed.
Lemma so_mul_r : forall A k (f : A -> R) l, sum_over (fun a => f a * k) l = sum_over f l * k.
Proof. intros A k f l. rewrite Rmult_comm, <- so_mul. apply so_ext. intros. ring. Qed.
Lemma so_div : forall A k (f : A -> R) l, sum_over (fun a => f a / k) l = sum_over f l / k.
Proof. intros A k f l. unfold Rdiv. apply so_mul_r. Qed.
Lemma so_combine : forall A B (f : A * B -> R) (da : A) (db : B) la lb n, length la = n -> length lb = n ->
  sum_over f (combine la lb) = sum_to n (fun k => f (nth k la da, nth k lb db)).
Proof.
  intros A B f da db la lb n H1 H2. unfold sum_to. rewrite (so_nth _ f (da, db)), combine_length, H1, H2, Nat.min_id. apply so_ext. intros k Hk.
  now rewrite combine_nth by congruence.
Qed.

(** ** pseudo-inverse *)
Lemma entry_map : forall A B (f : A -> B -> R) la lb i j (da : A) (db : B), (i < length la)%nat -> (j < length lb)%nat ->
  entry (map (fun a => map (f a) lb) la) i j = f (nth i la da) (nth j lb db).
Proof.
  intros A B f la lb i j da db Hi Hj. unfold entry. rewrite (nth_indep _ [] (map (f da) lb)) by now rewrite map_length.
  rewrite (map_nth (fun a => map (f a) lb)). rewrite (nth_indep _ 0 (f (nth i la da) db)) by now rewrite map_length. now rewrite map_nth.
Qed.
Lemma nth_map_lt : forall A B (f : A -> B) l i d d', (i < length l)%nat -> nth i (map f l) d' = f (nth i l d).
Proof. intros A B f l i d d' H. rewrite (nth_indep _ d' (f d)) by now rewrite map_length. apply map_nth. Qed.
Lemma row_len : forall n M i, square n M -> (i < n)%nat -> length (nth i M []) = n.
Proof. intros n M i [H1 H2] Hi. rewrite Forall_forall in H2. apply H2. apply nth_In. congruence. Qed.
Lemma invert_cond_code : forall svd thr M, fst (invert_cond (N:=RN) svd thr M) = 0%Z.
Proof. intros. unfold invert_cond. destruct (svd M) as [[u w] v]. reflexivity. Qed.

Lemma invert_cond_entry : forall n svd thr (M u v : list (list R)) (w : list R), svd M = (u, w, v) -> is_svd n M u w v -> Forall (fun s => thr < s) w ->
  length (snd (invert_cond (N:=RN) svd thr M)) = n /\
  forall i, (i < n)%nat -> length (nth i (snd (invert_cond (N:=RN) svd thr M)) []) = n /\
  forall j, (j < n)%nat -> entry (snd (invert_cond (N:=RN) svd thr M)) i j = sum_to n (fun k => entry v i k / nth k w 0 * entry u j k).
Proof.
  intros n svd thr M u v w E (Su & Sw & Sv & _) Hw. unfold invert_cond. rewrite E. cbn [snd].
  destruct Su as [Lu Fu]. destruct Sv as [Lv Fv].
  split; [now rewrite map_length|]. intros i Hi. split.
  { rewrite (nth_map_lt _ _ _ _ _ []) by (change (T RN) with R in *; lia). rewrite map_length. exact Lu. }
  intros j Hj.
  etransitivity; [refine (entry_map _ _ (fun vi uj => fold_left (fun s c => let '(wk, (vik, ujk)) := c in if ltb (n:=RN) thr wk then add s (mul (div (mul vik (ofZ 1)) wk) ujk) else s) (combine w (combine vi uj)) (ofZ (n:=RN) 0)) v u i j [] [] _ _); change (T RN) with R in *; lia|].
  assert (R1 : length (nth i v []) = n) by (eapply row_len; [split; eassumption|auto]).
  assert (R2 : length (nth j u []) = n) by (eapply row_len; [split; eassumption|auto]).
  assert (G : forall (c : list (R * (R * R))) s, Forall (fun t => thr < fst t) c ->
    fold_left (fun s c => let '(wk, (vik, ujk)) := c in if ltb (n:=RN) thr wk then add (n:=RN) s (mul (n:=RN) (div (n:=RN) (mul (n:=RN) vik (ofZ (n:=RN) 1)) wk) ujk) else s) c s
    = s + sum_over (fun t => fst (snd t) / fst t * snd (snd t)) c).
  { induction c as [|[a [b d]] c IH]; intros s F; cbn [fold_left]; [symmetry; apply Rplus_0_r|]. inversion F; subst. cbn [fst] in *.
    change (ltb (n:=RN) thr a) with (Rltb thr a). rewrite (proj2 (Rltb_true _ _)) by auto. rewrite IH by auto. rewrite so_cons. cbn [fst snd].
    match goal with |- @eq _ ?x ?y => change (@eq R x y) end.
    change (s + b * 1 / a * d + sum_over (fun t : R * (R * R) => fst (snd t) / fst t * snd (snd t)) c = s + (b / a * d + sum_over (fun t : R * (R * R) => fst (snd t) / fst t * snd (snd t)) c)).
    unfold Rdiv. ring. }
  etransitivity; [apply G|].
  - apply Forall_forall. intros [a b] Ht. apply in_combine_l in Ht. rewrite Forall_forall in Hw. now apply Hw.
  - change (ofZ (n:=RN) 0) with 0. rewrite Rplus_0_l. unfold sum_to.
    rewrite (so_combine _ _ _ 0 (0, 0) _ _ n) by (rewrite ?combine_length; change (T RN) with R in *; lia).
    unfold sum_to. apply so_ext. intros k _. cbn [fst snd]. rewrite combine_nth by (change (T RN) with R in *; lia). reflexivity.
Qed.

(** rows of the inverse times columns of the matrix *)
Lemma invert_cond_inverse : forall n svd thr (M u v : list (list R)) (w : list R), svd M = (u, w, v) -> is_svd n M u w v -> 0 <= thr -> Forall (fun s => thr < s) w ->
  forall i l, (i < n)%nat -> (l < n)%nat -> sum_to n (fun j => entry (snd (invert_cond (N:=RN) svd thr M)) i j * entry M j l) = kron i l.
Proof.
  intros n svd thr M u v w E HS H0 Hw i l Hi Hl. destruct (invert_cond_entry n svd thr M u v w E HS Hw) as [_ HE]. destruct (HE i Hi) as [_ HE'].
  destruct HS as (Su & Sw & Sv & HM & HU & HV & _ & _).
  transitivity (sum_to n (fun j => sum_to n (fun k => sum_to n (fun m => entry v i k / nth k w 0 * nth m w 0 * entry v l m * (entry u j k * entry u j m))))).
  { unfold sum_to. apply so_ext. intros j Hj. apply in_seq in Hj. rewrite HE', HM by lia. unfold sum_to.
    rewrite <- so_mul_r. apply so_ext. intros k _. rewrite <- so_mul. apply so_ext. intros m _. ring. }
  transitivity (sum_to n (fun k => sum_to n (fun m => entry v i k / nth k w 0 * nth m w 0 * entry v l m * kron k m))).
  { unfold sum_to. rewrite so_swap. apply so_ext. intros k Hk. apply in_seq in Hk. rewrite so_swap. apply so_ext. intros m Hm. apply in_seq in Hm.
    rewrite so_mul. f_equal. apply HU; lia. }
  transitivity (sum_to n (fun k => entry v i k * entry v l k)).
  { unfold sum_to. apply so_ext. intros k Hk. apply in_seq in Hk.
    transitivity (sum_to n (fun m => kron k m * (entry v i k / nth k w 0 * nth m w 0 * entry v l m))); [unfold sum_to; apply so_ext; intros; ring|].
    rewrite so_kron by lia. assert (nth k w 0 <> 0).
    { rewrite Forall_forall in Hw. assert (thr < nth k w 0) by (apply Hw, nth_In; lia). lra. }
    field. auto. }
  apply HV; auto.
Qed.
