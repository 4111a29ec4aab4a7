From Coq Require Import Reals Lra Lia.
From Verif Require Import Base Num ModelForce ModelTangent SpecCorr SpecTangent ProofData ProofCorr ProofTangent ProofTangent2.
Local Open Scope nat_scope.

Definition ind (b : bool) (x : R) : R := if b then x else 0%R.

(** ** steps that add to the matrix *)
Definition adds (es : list (nat * nat)) (step : matrix RN -> outcome (matrix RN)) (g : nat -> nat -> R) : Prop :=
  forall M, entries M = es -> exists M', step M = Ok M' /\ entries M' = es /\ forall r c, value M' r c = (value M r c + g r c)%R.
Lemma adds_ext : forall es step g g', (forall r c, g r c = g' r c) -> adds es step g -> adds es step g'.
Proof. intros es step g g' E H M HM. destruct (H M HM) as (M' & H1 & H2 & H3). exists M'. repeat split; auto. intros. now rewrite H3, E. Qed.
Lemma adds_seq : forall es f g x y, adds es f x -> adds es g y -> adds es (fun M => let? M := f M in g M) (fun r c => x r c + y r c)%R.
Proof.
  intros es f g x y Hf Hg M HM. destruct (Hf M HM) as (M1 & E1 & T1 & V1). destruct (Hg M1 T1) as (M2 & E2 & T2 & V2).
  exists M2. rewrite E1. cbn [bind]. repeat split; auto. intros. rewrite V2, V1. rring.
Qed.
Lemma adds_fold : forall es X (step : matrix RN -> X -> outcome (matrix RN)) g l, (forall x, In x l -> adds es (fun M => step M x) (g x)) ->
  adds es (fun M => foldM step M l) (fun r c => sum_over (fun x => g x r c) l).
Proof.
  intros es X step g. induction l as [|x l IH]; intros H M HM; cbn [foldM].
  - exists M. repeat split; auto. intros. rewrite so_nil. rring.
  - destruct (H x (or_introl eq_refl) M HM) as (M1 & E1 & T1 & V1). rewrite E1. cbn [bind].
    destruct (IH (fun y Hy => H y (or_intror Hy)) M1 T1) as (M2 & E2 & T2 & V2). exists M2. repeat split; auto. intros. rewrite V2, V1, so_cons. rring.
Qed.
Lemma adds_bind : forall es A (v : outcome A) a (step : A -> matrix RN -> outcome (matrix RN)) g, v = Ok a -> adds es (step a) g -> adds es (fun M => let? a := v in step a M) g.
Proof. intros es A v a step g -> H. exact H. Qed.
Lemma adds_one : forall es r c a, In (r, c) es -> adds es (fun M => sum_into M r c a) (fun r' c' => ind (Nat.eqb r r') (ind (Nat.eqb c c') a)).
Proof.
  intros es r c a H M HM. unfold sum_into. rewrite (proj2 (existsb_exists _ _)).
  2:{ exists (r, c). rewrite HM. split; auto. unfold same_entry; cbn. now rewrite !Nat.eqb_refl. }
  eexists. split; [reflexivity|]. split; [exact HM|]. intros r' c'. unfold same_entry, ind; cbn [value fst snd].
  rewrite (Nat.eqb_sym r' r), (Nat.eqb_sym c' c).
  destruct (Nat.eqb_spec r r') as [->|], (Nat.eqb_spec c c') as [->|]; cbn [andb]; rring.
Qed.

Lemma s_read_ok : forall (S : scratch RN) r c a, r < s_dim S -> c < s_dim S -> s_data S r c = Some a -> s_read S r c = Ok a.
Proof. intros S r c a Hr Hc E. unfold s_read, s_in. rewrite (proj2 (Nat.ltb_lt r (s_dim S))), (proj2 (Nat.ltb_lt c (s_dim S))), E by auto. reflexivity. Qed.
Lemma numbered_lt : forall A (l : list A) i a, In (i, a) (numbered l) -> i < length l /\ In a l.
Proof. intros A l i a H. apply numbered_In in H. split; [apply nth_error_Some; congruence|eapply nth_error_In; eauto]. Qed.

Lemma add_values_adds : forall es idx (S : scratch RN) A, length idx <= s_dim S ->
  (forall r c, r < length idx -> c < length idx -> s_data S r c = Some (A r c)) -> (forall g g', In g idx -> In g' idx -> In (g, g') es) ->
  adds es (fun M => add_values M idx S) (fun r c => sum_over (fun ig => ind (Nat.eqb (snd ig) r) (sum_over (fun jg => ind (Nat.eqb (snd jg) c) (A (fst ig) (fst jg))) (numbered idx))) (numbered idx)).
Proof.
  intros es idx S A HD HA HE. unfold add_values. apply adds_fold. intros [i g] Hi. apply numbered_lt in Hi as [Hi Hg]. cbn [fst snd].
  eapply adds_ext; [|apply adds_fold with (g := fun jg r c => ind (Nat.eqb g r) (ind (Nat.eqb (snd jg) c) (A i (fst jg))))].
  - intros r c. cbv beta. unfold ind at 1 3. destruct (Nat.eqb g r); [reflexivity|]. now apply so_0.
  - intros [j g'] Hj. apply numbered_lt in Hj as [Hj Hg']. cbn [fst snd].
    eapply adds_bind; [apply s_read_ok with (a := A i j); auto; lia|]. apply adds_one. auto.
Qed.

Lemma nodup_numbered : forall (gs : list nat) (F : nat -> R) m j, NoDup gs -> nth_error gs m = Some j ->
  sum_over (fun mg => ind (Nat.eqb (snd mg) j) (F (fst mg))) (numbered gs) = F m.
Proof.
  intros gs F m j ND Hm. unfold numbered.
  assert (G : forall s, sum_over (fun mg => ind (Nat.eqb (snd mg) j) (F (fst mg))) (combine (seq s (length gs)) gs) = F (s + m)); [|exact (G 0)].
  revert m Hm. induction ND as [|g gs Hn ND IH]; intros [|m] Hm s; cbn [nth_error length seq combine] in *; try discriminate; rewrite so_cons; cbn [fst snd].
  - injection Hm as ->. rewrite Nat.eqb_refl, Nat.add_0_r. cbn [ind]. rewrite so_0; [ring|]. intros [k h] Hk. cbn [fst snd].
    destruct (Nat.eqb_spec h j) as [->|]; auto. apply in_combine_r in Hk. contradiction.
  - rewrite (IH m Hm (S s)). replace (S s + m) with (s + S m) by lia. destruct (Nat.eqb_spec g j) as [->|]; cbn [ind]; [|ring].
    destruct Hn. eapply nth_error_In; eauto.
Qed.
Lemma away_numbered : forall (gs : list nat) (F : nat -> R) j, ~ In j gs -> sum_over (fun mg => ind (Nat.eqb (snd mg) j) (F (fst mg))) (numbered gs) = 0%R.
Proof.
  intros gs F j H. apply so_0. intros [m g] Hm. cbn [fst snd]. apply numbered_lt in Hm as [_ Hm]. destruct (Nat.eqb_spec g j) as [->|]; [contradiction|auto].
Qed.

(** ** block diagonal *)
Lemma nodup_indices : forall nd gs, NoDup gs -> NoDup (indices nd gs).
Proof.
  intros nd gs H. apply NoDup_nth_error. intros i k Hi E.
  assert (L : forall l, length (indices nd l) = nd * length l). { unfold indices. induction l; cbn [flat_map length]; [lia|]. rewrite app_length, map_length, seq_length, IHl. lia. }
  assert (N : forall l k, k < nd * length l -> exists m a g, k = nd * m + a /\ a < nd /\ nth_error l m = Some g /\ nth_error (indices nd l) k = Some (nd * g + a)).
  { intros l q Hq. apply split_index in Hq as (m & a & Hm & Ha & ->). destruct (nth_error l m) as [g|] eqn:Eg; [|apply nth_error_None in Eg; lia].
    exists m, a, g. repeat split; auto. apply numbered_In. rewrite numbered_indices. apply in_flat_map. exists (m, g). split; [now apply numbered_In|].
    apply in_map_iff. exists a. split; auto. apply in_seq. lia. }
  destruct (N gs i) as (m & a & g & -> & Ha & Em & Ei); [rewrite <- L; auto|]. rewrite Ei in E. symmetry in E.
  destruct (N gs k) as (m' & a' & g' & -> & Ha' & Em' & Ek); [rewrite <- L; apply nth_error_Some; congruence|]. rewrite Ek in E. injection E as E.
  apply index_inj in E as [-> ->]; auto. f_equal. f_equal. eapply nodup_nth; eauto.
Qed.
Lemma last_position_ok : forall idx i e, NoDup idx -> nth_error idx i = Some e -> last_position idx e = Some i.
Proof.
  intros idx i e ND H. unfold last_position.
  assert (G : forall l acc, (In (i, e) l \/ acc = Some i) -> (forall k, In (k, e) l -> k = i) ->
    fold_left (fun acc ig => if Nat.eqb (snd ig) e then Some (fst ig) else acc) l acc = Some i).
  { induction l as [|[k h] l IH]; intros acc H1 H2; cbn [fold_left fst snd].
    - destruct H1 as [[]|]; auto.
    - apply IH; [|intros; apply H2; now right]. destruct (Nat.eqb_spec h e) as [->|Ne].
      + right. f_equal. apply H2. now left.
      + destruct H1 as [[E|]|]; auto. injection E as -> ->. congruence. }
  apply G; [left; now apply numbered_In|]. intros k Hk. apply numbered_In in Hk. eapply nodup_nth; eauto.
Qed.
Lemma nth_indices : forall nd gs m a g, a < nd -> nth_error gs m = Some g -> nth_error (indices nd gs) (nd * m + a) = Some (nd * g + a).
Proof.
  intros nd gs m a g Ha Hm. apply numbered_In. rewrite numbered_indices. apply in_flat_map. exists (m, g). split; [now apply numbered_In|].
  apply in_map_iff. exists a. split; auto. apply in_seq. lia.
Qed.
Lemma indices_len : forall nd l, length (indices nd l) = nd * length l.
Proof. intros nd. unfold indices. induction l; cbn [flat_map length]; [lia|]. rewrite app_length, map_length, seq_length, IHl. lia. Qed.

Lemma add_diagonal_adds : forall es gs (S : scratch RN) A, NoDup gs -> 3 * length gs <= s_dim S ->
  (forall r c, r < 3 * length gs -> c < 3 * length gs -> s_data S r c = Some (A r c)) ->
  (forall g a b, In g gs -> a < 3 -> b < 3 -> In (3 * g + a, 3 * g + b) es) ->
  adds es (fun M => add_block_diagonal M (indices 3 gs) S) (fun r c => sum_over (fun ig => ind (Nat.eqb (snd ig) r)
    (ind (Nat.eqb (3 * (snd ig / 3)) c) (A (fst ig) (3 * (fst ig / 3))%nat) + ind (Nat.eqb (3 * (snd ig / 3) + 1) c) (A (fst ig) (3 * (fst ig / 3) + 1)%nat)
     + ind (Nat.eqb (3 * (snd ig / 3) + 2) c) (A (fst ig) (3 * (fst ig / 3) + 2)%nat))%R) (numbered (indices 3 gs))).
Proof.
  intros es gs S A ND HD HA HE. unfold add_block_diagonal. apply adds_fold. intros [i g] Hi. apply numbered_In in Hi. cbv zeta. cbn [fst snd].
  assert (Hlt : i < 3 * length gs) by (rewrite <- indices_len; apply nth_error_Some; congruence).
  apply split_index in Hlt as (m & a & Hm & Ha & ->). destruct (nth_error gs m) as [h|] eqn:Eh; [|apply nth_error_None in Eh; lia].
  rewrite (nth_indices 3 gs m a h Ha Eh) in Hi. assert (g = 3 * h + a) by congruence. subst g. rewrite !index_div by auto.
  pose proof (nth_error_In _ _ Eh) as Hh. pose proof (nodup_indices 3 gs ND) as NI.
  pose proof (nth_indices 3 gs m 0 h) as I0. pose proof (nth_indices 3 gs m 1 h) as I1. pose proof (nth_indices 3 gs m 2 h) as I2.
  rewrite !Nat.add_0_r in I0.
  rewrite (last_position_ok _ _ _ NI (I0 ltac:(lia) Eh)), (last_position_ok _ _ _ NI (I1 ltac:(lia) Eh)), (last_position_ok _ _ _ NI (I2 ltac:(lia) Eh)).
  eapply adds_bind; [apply s_read_ok with (a := A (3 * m + a) (3 * m)); [nia|nia|apply HA; nia]|].
  eapply adds_bind; [apply s_read_ok with (a := A (3 * m + a) (3 * m + 1)); [nia|nia|apply HA; nia]|].
  eapply adds_bind; [apply s_read_ok with (a := A (3 * m + a) (3 * m + 2)); [nia|nia|apply HA; nia]|].
  eapply adds_ext; [|apply adds_seq; [apply adds_one|apply adds_seq; apply adds_one]].
  - intros r c. cbv beta. unfold ind. destruct (Nat.eqb (3 * h + a) r); ring.
  - specialize (HE h a 0 Hh). rewrite Nat.add_0_r in HE. apply HE; lia.
  - apply HE; auto; lia.
  - apply HE; auto; lia.
Qed.
