(** * Proofs about the damage models *)
From Coq Require Import Reals Lra.
From Verif Require Import Base Num ModelNeigh ModelDamage SpecDamage ProofData ProofCopy.

(** Reducing existence of a run to a computation (whose type does not mention the record
    of floating point operations). *)
Lemma run_vm {A} (B : Type) (o : outcome A) (f : A -> B) b :
  match o with Ok a => Some (f a) | _ => None end = Some b -> exists a, o = Ok a /\ f a = b.
Proof. destruct o; intros H; try discriminate. injection H as <-. eauto. Qed.
Lemma run2_vm {A C} (B : Type) (o1 : outcome A) (o2 : A -> outcome C) (f : A -> C -> B) b :
  match o1 with
  | Ok a => match o2 a with Ok c => Some (f a c) | _ => None end
  | _ => None
  end = Some b ->
  exists a c, o1 = Ok a /\ o2 a = Ok c /\ f a c = b.
Proof.
  destruct o1 as [a| |]; intros H; try discriminate. destruct (o2 a) as [c| |] eqn:E; try discriminate.
  injection H as <-. eauto.
Qed.

Lemma sane_R : sane01 RN.
Proof.
  unfold sane01; to_R. repeat split;
    first [ apply Rltb_true; lra | apply Rltb_false; lra ].
Qed.
Lemma sane_F : sane01 FN.
Proof. vm_compute; auto. Qed.

Section G.
  Context {N : Num} (HS : sane01 N).
  Notation one := (ofZ (n:=N) 1).
  Notation zero := (ofZ (n:=N) 0).

  Lemma breakBond_true (d : N) : ltb d one = true -> breakBond true d = one.
  Proof. unfold breakBond; intros ->; reflexivity. Qed.
  Lemma breakBond_one b : breakBond b one = one.
  Proof. destruct HS as (_ & _ & H1 & H2); unfold breakBond; destruct b; [rewrite H1|rewrite H2]; reflexivity. Qed.
  Lemma breakBond_zero b : breakBond b zero = if b then one else zero.
  Proof. destruct HS as (H1 & H2 & _); unfold breakBond; destruct b; [rewrite H1|rewrite H2]; reflexivity. Qed.

  Lemma breakBonds_spec crit x c bonds (bd r : list N) :
    breakBonds crit x c bonds bd = Ok r ->
    length r = length bd /\ length bonds <= length bd /\
    (forall k i j d, nth_error bonds k = Some (i, j) -> nth_error bd k = Some d ->
       exists e, relativeExtension x c i j = Ok e /\ nth_error r k = Some (breakBond (ltb crit e) d)) /\
    (forall k, length bonds <= k -> nth_error r k = nth_error bd k).
  Proof.
    revert bd r; induction bonds as [|[i j] bs IH]; intros bd r H.
    - cbn in H; injection H as <-. repeat split; auto; [cbn; lia|]. intros [|k]; discriminate.
    - destruct bd as [|d ds]; [discriminate|]. cbn in H.
      apply bind_Ok in H as (e & He & H). apply bind_Ok in H as (r' & Hr & H). injection H as <-.
      destruct (IH _ _ Hr) as (L & Lb & P & Q). cbn [length]. repeat split; try lia.
      + intros [|k] i0 j0 d0 Hb Hd; cbn in *.
        * injection Hb as <- <-; injection Hd as <-. eauto.
        * eauto.
      + intros [|k] Hk; [lia|]. cbn. apply Q; lia.
  Qed.

  (** Only the N buffer matters for the next evaluation. *)
  Lemma crit_bdN crit m c s s' : criticalStretch (N:=N) crit m c s = Ok s' ->
    bdN s' = bdN s /\ dmgN s' = dmgN s /\
    breakBonds crit (m_x m) c (bonds_of (m_owned m) (m_nbrs m)) (bdN s) = Ok (bdNP1 s') /\
    pointDamage (m_owned m) (m_nbrs m) (bdNP1 s') (dmgNP1 s) = Ok (dmgNP1 s').
  Proof.
    unfold criticalStretch; intros H. apply bind_Ok in H as (b & Hb & H).
    apply bind_Ok in H as (d & Hd & H). injection H as <-. cbn. auto.
  Qed.

  Lemma crit_tentative crit m cs s s' :
    foldM (fun s c => criticalStretch (N:=N) crit m c s) s cs = Ok s' -> bdN s' = bdN s /\ dmgN s' = dmgN s.
  Proof.
    revert s; induction cs as [|c t IH]; cbn; intros s H; [injection H as <-; auto|].
    apply bind_Ok in H as (s1 & H1 & H2). apply crit_bdN in H1 as (E & E' & _).
    apply IH in H2 as [E2 E2']. split; congruence.
  Qed.

  Lemma crit_step crit m t c s s' :
    timeStep (criticalStretch (N:=N) crit m) t c s = Ok s' ->
    breakBonds crit (m_x m) c (bonds_of (m_owned m) (m_nbrs m)) (bdN s) = Ok (bdN s') /\
    exists d0, pointDamage (m_owned m) (m_nbrs m) (bdN s') d0 = Ok (dmgN s').
  Proof.
    unfold timeStep, runStep; intros H. apply bind_Ok in H as (s1 & H1 & H). apply bind_Ok in H as (s2 & H2 & H).
    injection H as <-. apply crit_tentative in H1 as [E1 _]. apply crit_bdN in H2 as (E2 & _ & B & P).
    cbn. rewrite <- E1. eauto.
  Qed.

  (** Never heals, from any state. *)
  Lemma crit_step_one crit m t c s s' k :
    timeStep (criticalStretch (N:=N) crit m) t c s = Ok s' ->
    nth_error (bdN s) k = Some one -> nth_error (bdN s') k = Some one.
  Proof.
    intros H Hk. apply crit_step in H as (B & _).
    apply breakBonds_spec in B as (L & Lb & P & Q).
    destruct (Nat.lt_ge_cases k (length (bonds_of (m_owned m) (m_nbrs m)))) as [Hlt|Hge].
    - destruct (nth_error (bonds_of (m_owned m) (m_nbrs m)) k) as [[i j]|] eqn:E;
        [|apply nth_error_None in E; lia].
      destruct (P _ _ _ _ E Hk) as (e & _ & ->). rewrite breakBond_one; reflexivity.
    - rewrite Q; auto.
  Qed.

  Lemma crit_steps_one crit m steps s s' k :
    timeSteps (criticalStretch (N:=N) crit m) steps s = Ok s' ->
    nth_error (bdN s) k = Some one -> nth_error (bdN s') k = Some one.
  Proof.
    unfold timeSteps, runSteps; revert s; induction steps as [|[t c] r IH]; cbn; intros s H Hk; [congruence|].
    apply bind_Ok in H as (s1 & H1 & H2). eapply IH; eauto. eapply crit_step_one; eauto.
  Qed.

  (** A bond is broken exactly when it was overstretched in some step. *)
  Lemma crit_steps_iff crit m steps s s' k b :
    timeSteps (criticalStretch (N:=N) crit m) steps s = Ok s' ->
    nth_error (bonds_of (m_owned m) (m_nbrs m)) k = Some b ->
    nth_error (bdN s) k = Some zero ->
    ((exists st, In st steps /\ exceeds crit m (snd st) b) /\ nth_error (bdN s') k = Some one) \/
    ((forall st, In st steps -> ~ exceeds crit m (snd st) b) /\ nth_error (bdN s') k = Some zero).
  Proof.
    unfold timeSteps, runSteps; revert s; induction steps as [|[t c] r IH]; intros s H Hb Hz.
    - cbn in H; injection H as <-. right; split; [intros ? []|assumption].
    - cbn in H. apply bind_Ok in H as (s1 & H1 & H2).
      pose proof H1 as H1'. apply crit_step in H1' as (B & _).
      apply breakBonds_spec in B as (_ & _ & P & _).
      destruct b as [i j]. destruct (P _ _ _ _ Hb Hz) as (e & He & Hk).
      rewrite breakBond_zero in Hk. cbn [snd] in *.
      destruct (ltb crit e) eqn:Ee.
      + left; split.
        * exists (t, c); split; [left; reflexivity|]. exists e; auto.
        * eapply (crit_steps_one crit m r s1 s'); eauto.
      + destruct (IH s1 H2 Hb Hk) as [((st & Hin & Hex) & Hv)|(Hn & Hv)].
        * left; split; [exists st; split; [right|]; assumption|assumption].
        * right; split; [|assumption]. intros st [<-|Hin]; [|auto].
          intros (e' & He' & Hlt). cbn in *. congruence.
  Qed.

  (** The user-defined model: two buffers that do not talk to each other. *)
  Lemma user_step crit m c s s' :
    timeStep (userDefinedStretch (N:=N) crit m) [] c s = Ok s' ->
    breakBonds crit (m_x m) c (bonds_of (m_owned m) (m_nbrs m)) (bdNP1 s) = Ok (bdN s') /\ bdNP1 s' = bdN s.
  Proof.
    unfold timeStep, runStep; cbn. intros H. apply bind_Ok in H as (s2 & H2 & H).
    injection H as <-. unfold userDefinedStretch in H2.
    apply bind_Ok in H2 as (b & Hb & H2). apply bind_Ok in H2 as (d & Hd & H2). injection H2 as <-.
    cbn; auto.
  Qed.

  (** Steps are listed latest first. *)
  Lemma user_steps_char m k b (cs : list (N * config N)) s s' :
    foldM (fun s c => timeStep (userDefinedStretch (fst c) m) [] (snd c) s) s (rev cs) = Ok s' ->
    nth_error (bonds_of (m_owned m) (m_nbrs m)) k = Some b ->
    nth_error (bdN s) k = Some zero -> nth_error (bdNP1 s) k = Some zero ->
    bond_is (exists c, In c (every_second cs) /\ exceeds (fst c) m (snd c) b) (bdN s') k /\
    bond_is (exists c, In c (every_second (tl cs)) /\ exceeds (fst c) m (snd c) b) (bdNP1 s') k.
  Proof.
    intros H Hb Hz1 Hz2; revert s' H; induction cs as [|c t IH]; cbn [rev tl]; intros s' H.
    - cbn in H; injection H as <-. split; right; split; auto; intros (c0 & [] & _).
    - rewrite foldM_app in H. apply bind_Ok in H as (s1 & H1 & H2).
      cbn in H2. apply bind_Ok in H2 as (s2 & H2 & H3). injection H3 as <-.
      destruct (IH s1 H1) as [IA IB].
      apply user_step in H2 as (B & E). rewrite E. split; [|exact IA].
      apply breakBonds_spec in B as (_ & _ & P & _). destruct b as [i j].
      assert (EC : every_second (c :: t) = c :: every_second (tl t)) by (destruct t as [|? [|? ?]]; reflexivity).
      rewrite EC.
      destruct IB as [(Hex & Hv)|(Hex & Hv)].
      + destruct (P _ _ _ _ Hb Hv) as (e & He & Hk). rewrite breakBond_one in Hk.
        left; split; [|exact Hk]. destruct Hex as (c0 & Hin & Hc0). exists c0; split; [right|]; assumption.
      + destruct (P _ _ _ _ Hb Hv) as (e & He & Hk). rewrite breakBond_zero in Hk.
        destruct (ltb (fst c) e) eqn:Ee.
        * left; split; [|exact Hk]. exists c; split; [left; reflexivity|]. exists e; auto.
        * right; split; [|exact Hk]. intros (c0 & [<-|Hin] & Hc0).
          -- destruct Hc0 as (e' & He' & Hlt); cbn in *; congruence.
          -- apply Hex; exists c0; auto.
  Qed.
End G.

(** ** Exact arithmetic *)
Local Open Scope R_scope.

Lemma distance_dist (a b : V3 RN) : distance a b = dist a b.
Proof.
  unfold distance, dist; to_R. f_equal. unfold Rsqr. ring.
Qed.

Lemma exceeds_R crit m c b :
  c_thermal c = None ->
  (forall x0 x1, nth_error (m_x m) (fst b) = Some x0 -> nth_error (m_x m) (snd b) = Some x1 ->
     0 < dist x0 x1) ->
  (exceeds (N:=RN) crit m c b <-> overstretched crit (m_x m) (c_y c) b).
Proof.
  intros Hth Hpos. unfold exceeds, relativeExtension, overstretched.
  rewrite Hth. unfold at_ub.
  destruct (nth_error (m_x m) (fst b)) as [x0|]; cbn [bind];
    [|split; [intros (e & H & _); discriminate | intros (?&?&?&?&?&_); discriminate]].
  destruct (nth_error (m_x m) (snd b)) as [x1|]; cbn [bind];
    [|split; [intros (e & H & _); discriminate | intros (?&?&?&?&_&?&_); discriminate]].
  destruct (nth_error (c_y c) (fst b)) as [y0|]; cbn [bind];
    [|split; [intros (e & H & _); discriminate | intros (?&?&?&?&_&_&?&_); discriminate]].
  destruct (nth_error (c_y c) (snd b)) as [y1|]; cbn [bind];
    [|split; [intros (e & H & _); discriminate | intros (?&?&?&?&_&_&_&?&_); discriminate]].
  specialize (Hpos x0 x1 eq_refl eq_refl).
  assert (E : forall a d, 0 < d -> (crit < (a - d) / d <-> a > (1 + crit) * d)).
  { intros a d Hd. replace ((a - d) / d) with (a / d - 1) by (field; lra).
    split; intros H.
    - assert (H1 : 1 + crit < a / d) by lra.
      apply Rmult_lt_compat_r with (r := d) in H1; [|assumption].
      replace (a / d * d) with a in H1 by (field; lra). lra.
    - assert (H1 : (1 + crit) * d / d < a / d).
      { unfold Rdiv. apply Rmult_lt_compat_r; [apply Rinv_0_lt_compat; assumption|lra]. }
      replace ((1 + crit) * d / d) with (1 + crit) in H1 by (field; lra). lra. }
  rewrite !distance_dist. to_R.
  split.
  - intros (e & He & Hl). injection He as <-. apply Rltb_true in Hl.
    exists x0, x1, y0, y1; repeat split; auto. apply E; assumption.
  - intros (x0' & x1' & y0' & y1' & E1 & E2 & E3 & E4 & Hgt).
    injection E1 as <-; injection E2 as <-; injection E3 as <-; injection E4 as <-.
    eexists; split; [reflexivity|]. apply Rltb_true. apply E; assumption.
Qed.

(** The damage of a point. *)
Lemma sum_list_app (a : R) l :
  fold_left Rplus l a = a + fold_left Rplus l 0.
Proof.
  revert a; induction l as [|h t IH]; intros a; cbn; [ring|].
  rewrite IH, (IH (0 + h)). ring.
Qed.

Lemma sum01 (l : list R) : Forall is01 l -> 0 <= fold_left Rplus l 0 <= INR (length l).
Proof.
  induction 1 as [|h t Hh Ht IH]; [cbn; lra|].
  cbn [fold_left]. rewrite sum_list_app.
  assert (L : INR (length (h :: t)) = INR (length t) + 1) by (cbn [length]; rewrite S_INR; ring).
  rewrite L. destruct Hh as [->| ->]; lra.
Qed.

Lemma upd_nth {A} (l : list A) i a l' : upd l i a = Some l' ->
  length l' = length l /\ nth_error l' i = Some a /\ forall j, j <> i -> nth_error l' j = nth_error l j.
Proof.
  revert i l'; induction l as [|h t IH]; intros i l' H; [discriminate|].
  destruct i as [|i]; cbn in H.
  - injection H as <-. repeat split; auto. intros [|j] Hj; [congruence|reflexivity].
  - destruct (upd t i a) as [t'|] eqn:E; [|discriminate]. injection H as <-.
    destruct (IH _ _ E) as (L & P & Q). cbn; repeat split; auto.
    intros [|j] Hj; [reflexivity|]. cbn. apply Q; congruence.
Qed.

Lemma pointDamage_spec owned nbrs (bd d r : list R) :
  pointDamage (N:=RN) owned nbrs bd d = Ok r -> NoDup owned ->
  length r = length d /\ length owned = length nbrs /\
  (forall i, ~ In i owned -> nth_error r i = nth_error d i) /\
  forall p id nb, nth_error owned p = Some id -> nth_error nbrs p = Some nb ->
    (offset nbrs p + length nb <= length bd)%nat /\
    nth_error r id = Some (if (0 <? length nb)%nat
                           then fold_left Rplus (firstn (length nb) (skipn (offset nbrs p) bd)) 0 / INR (length nb)
                           else 0).
Proof.
  revert nbrs bd d; induction owned as [|id os IH]; intros nbrs bd d H Hd.
  - destruct nbrs; [|discriminate]. cbn in H; injection H as <-.
    split; [reflexivity|]. split; [reflexivity|]. split; [auto|]. intros [|p]; discriminate.
  - destruct nbrs as [|nb ns]; [discriminate|]. cbn [pointDamage] in H. to_R.
    destruct (Nat.ltb_spec (length bd) (length nb)) as [Hlt|Hge]; [discriminate|].
    apply bind_Ok in H as (d1 & H1 & H2).
    unfold upd_ub in H1. destruct (upd d id _) as [d1'|] eqn:E; [|discriminate].
    injection H1 as <-. apply upd_nth in E as (L1 & P1 & Q1).
    inversion Hd as [|? ? Hni Hd']; subst.
    destruct (IH _ _ _ H2 Hd') as (L & L' & Q & P).
    split; [congruence|]. split; [cbn; congruence|]. split.
    + intros i Hi. rewrite Q by (intros ?; apply Hi; right; assumption).
      apply Q1. intros ->; apply Hi; left; reflexivity.
    + intros [|p] id0 nb0 Ho Hn; cbn in Ho, Hn.
      * injection Ho as <-; injection Hn as <-. unfold offset; cbn [firstn num_bonds map fold_right].
        split; [cbn; lia|]. rewrite Q by assumption. rewrite P1. cbn [skipn].
        change (num_bonds []) with 0%nat. cbn [skipn].
        destruct (0 <? length nb)%nat; [|reflexivity].
        unfold sum_list; to_R. rewrite <- INR_IZR_INZ. reflexivity.
      * destruct (P p id0 nb0 Ho Hn) as (B & V). rewrite skipn_length in B.
        assert (OE : offset (nb :: ns) (S p) = (length nb + offset ns p)%nat) by reflexivity.
        rewrite OE. split; [lia|]. rewrite V, skipn_skipn.
        rewrite (Nat.add_comm (offset ns p)). reflexivity.
Qed.

Lemma Forall_firstn {A} (P : A -> Prop) n l : Forall P l -> Forall P (firstn n l).
Proof. intros H; revert n; induction H; intros [|n]; cbn; constructor; auto. Qed.
Lemma Forall_skipn {A} (P : A -> Prop) n l : Forall P l -> Forall P (skipn n l).
Proof. intros H; revert n; induction H; intros [|n]; cbn; auto. Qed.

Lemma pointDamage_range owned nbrs bd d r :
  pointDamage (N:=RN) owned nbrs bd d = Ok r -> NoDup owned -> Forall is01 bd ->
  forall p id, nth_error owned p = Some id -> exists v, nth_error r id = Some v /\ 0 <= v <= 1.
Proof.
  to_R; intros H Hd Hb p id Hp. destruct (pointDamage_spec _ _ _ _ _ H Hd) as (_ & L & _ & P).
  destruct (nth_error nbrs p) as [nb|] eqn:En.
  2:{ apply nth_error_None in En. assert (p < length owned)%nat by (apply nth_error_Some; congruence). lia. }
  destruct (P p id nb Hp En) as (B & V). eexists; split; [exact V|].
  destruct (Nat.ltb_spec 0 (length nb)) as [Hn|Hn]; [|lra].
  set (l := firstn (length nb) (skipn (offset nbrs p) bd)).
  assert (Hl : Forall is01 l) by (apply Forall_firstn, Forall_skipn; assumption).
  assert (LL : length l = length nb) by (unfold l; rewrite firstn_length, skipn_length; lia).
  apply sum01 in Hl. rewrite LL in Hl.
  assert (Hpos : 0 < INR (length nb)) by (apply lt_0_INR; assumption).
  split.
  - apply Rmult_le_pos; [lra|]. apply Rlt_le, Rinv_0_lt_compat; assumption.
  - apply Rmult_le_reg_r with (INR (length nb)); [assumption|].
    unfold Rdiv. rewrite Rmult_assoc, Rinv_l by lra. rewrite Rmult_1_r, Rmult_1_l. apply Hl.
Qed.

Lemma sum_le (l l' : list R) :
  length l = length l' -> (forall k v v', nth_error l k = Some v -> nth_error l' k = Some v' -> v <= v') ->
  fold_left Rplus l 0 <= fold_left Rplus l' 0.
Proof.
  revert l'; induction l as [|h t IH]; intros [|h' t'] L H; try discriminate; [cbn; lra|].
  cbn [fold_left]. rewrite (sum_list_app (0 + h)), (sum_list_app (0 + h')).
  assert (h <= h') by (apply (H 0%nat); reflexivity).
  assert (fold_left Rplus t 0 <= fold_left Rplus t' 0).
  { apply IH; [cbn in L; lia|]. intros k v v' Hk Hk'. apply (H (S k)); assumption. }
  lra.
Qed.

Lemma nth_firstn_some {A} (l : list A) n k v : nth_error (firstn n l) k = Some v -> nth_error l k = Some v.
Proof.
  revert n k; induction l as [|h t IH]; intros n k H; [rewrite firstn_nil in H; destruct k; discriminate|].
  destruct n; [destruct k; discriminate|]. destruct k; cbn in *; auto. eapply IH; eauto.
Qed.
Lemma nth_skipn {A} (l : list A) n k : nth_error (skipn n l) k = nth_error l (n + k).
Proof.
  revert l; induction n as [|n IH]; intros l; [reflexivity|].
  destruct l; cbn; [destruct k; reflexivity|]. apply IH.
Qed.

(** Damage does not decrease when no bond value does. *)
Lemma pointDamage_mono owned nbrs bd bd' d d' r r' :
  pointDamage (N:=RN) owned nbrs bd d = Ok r -> pointDamage (N:=RN) owned nbrs bd' d' = Ok r' ->
  NoDup owned -> length bd = length bd' ->
  (forall k v v', nth_error bd k = Some v -> nth_error bd' k = Some v' -> v <= v') ->
  forall p id v v', nth_error owned p = Some id -> nth_error r id = Some v -> nth_error r' id = Some v' ->
    v <= v'.
Proof.
  to_R; intros H H' Hd L Hle p id v v' Hp Hv Hv'.
  destruct (pointDamage_spec _ _ _ _ _ H Hd) as (_ & L1 & _ & P).
  destruct (pointDamage_spec _ _ _ _ _ H' Hd) as (_ & _ & _ & P').
  destruct (nth_error nbrs p) as [nb|] eqn:En.
  2:{ apply nth_error_None in En. assert (p < length owned)%nat by (apply nth_error_Some; congruence). lia. }
  destruct (P p id nb Hp En) as (B & V), (P' p id nb Hp En) as (B' & V').
  rewrite V in Hv; rewrite V' in Hv'. injection Hv as <-; injection Hv' as <-.
  destruct (Nat.ltb_spec 0 (length nb)) as [Hn|Hn]; [|lra].
  unfold Rdiv. apply Rmult_le_compat_r; [apply Rlt_le, Rinv_0_lt_compat, lt_0_INR; assumption|].
  apply sum_le; [rewrite !firstn_length, !skipn_length; lia|].
  intros k a a' Ha Ha'. apply nth_firstn_some in Ha, Ha'. rewrite nth_skipn in Ha, Ha'. eauto.
Qed.

(** Values 0/1 are kept by every step. *)
Lemma crit_step_01 crit m t c s s' :
  timeStep (criticalStretch (N:=RN) crit m) t c s = Ok s' -> Forall is01 (bdN s) ->
  Forall is01 (bdN s') /\ length (bdN s') = length (bdN s) /\
  (forall k v v', nth_error (bdN s) k = Some v -> nth_error (bdN s') k = Some v' -> v <= v').
Proof.
  intros H Hb. apply crit_step in H as (B & _). apply breakBonds_spec in B as (L & Lb & P & Q).
  assert (Key : forall k v', nth_error (bdN s') k = Some v' ->
     exists v, nth_error (bdN s) k = Some v /\ is01 v /\ is01 v' /\ v <= v').
  { intros k v' Hk.
    destruct (nth_error (bdN s) k) as [v|] eqn:Ek.
    2:{ apply nth_error_None in Ek. rewrite <- L in Ek. apply nth_error_None in Ek. congruence. }
    assert (Hv : is01 v) by (eapply Forall_forall in Hb; eauto; eapply nth_error_In; eauto).
    exists v; split; [reflexivity|]. split; [exact Hv|].
    destruct (nth_error (bonds_of (m_owned m) (m_nbrs m)) k) as [[i j]|] eqn:E.
    - destruct (P _ _ _ _ E Ek) as (e & _ & Hr). rewrite Hr in Hk. injection Hk as <-.
      destruct Hv as [-> | ->].
      + pose proof (breakBond_zero sane_R (ltb crit e)) as Hz. to_R. rewrite Hz.
        destruct (Rltb crit e); split; try (right; reflexivity); try (left; reflexivity); lra.
      + pose proof (breakBond_one sane_R (ltb crit e)) as Hz. to_R. rewrite Hz.
        split; [right; reflexivity|lra].
    - apply nth_error_None in E. rewrite Q in Hk by assumption.
      assert (v' = v) as -> by congruence. split; [assumption|lra]. }
  split; [|split; [exact L|]].
  - apply Forall_forall. intros v' Hin. apply In_nth_error in Hin as (k & Hk).
    destruct (Key _ _ Hk) as (v & _ & _ & ? & _). assumption.
  - intros k v v' Hk Hk'. destruct (Key _ _ Hk') as (w & Hw & _ & _ & Hle).
    assert (w = v) by congruence. lra.
Qed.

Lemma crit_steps_01 crit m steps s s' :
  timeSteps (criticalStretch (N:=RN) crit m) steps s = Ok s' -> Forall is01 (bdN s) ->
  Forall is01 (bdN s').
Proof.
  unfold timeSteps, runSteps; revert s; induction steps as [|[t c] r IH]; cbn; intros s H Hb; [congruence|].
  apply bind_Ok in H as (s1 & H1 & H2). eapply IH; eauto. eapply crit_step_01; eauto.
Qed.

Lemma repeat_01 n : Forall is01 (repeat 0 n).
Proof. induction n; cbn; constructor; auto. left; reflexivity. Qed.

Lemma timeSteps_snoc {N : Num} eval steps t c (s s' : dstate N) :
  timeSteps eval (steps ++ [(t, c)]) s = Ok s' ->
  exists s1, timeSteps eval steps s = Ok s1 /\ timeStep eval t c s1 = Ok s'.
Proof.
  unfold timeSteps, runSteps; rewrite foldM_app; intros H. apply bind_Ok in H as (s1 & H1 & H2).
  cbn [foldM] in H2. apply bind_Ok in H2 as (s2 & H2 & H3). injection H3 as <-. exists s1; split; assumption.
Qed.

Lemma damage_after_steps crit m steps t c nb np s' :
  timeSteps (criticalStretch (N:=RN) crit m) (steps ++ [(t, c)]) (fresh nb np) = Ok s' ->
  NoDup (m_owned m) ->
  forall p id nbp, nth_error (m_owned m) p = Some id -> nth_error (m_nbrs m) p = Some nbp ->
  exists v, nth_error (dmgN s') id = Some v /\ 0 <= v <= 1 /\
    v = (if (0 <? length nbp)%nat
         then fold_left Rplus (firstn (length nbp) (skipn (offset (m_nbrs m) p) (bdN s'))) 0 / INR (length nbp)
         else 0).
Proof.
  intros H Hd p id nbp Hp Hn.
  pose proof (crit_steps_01 _ _ _ _ _ H (repeat_01 nb)) as Hb.
  apply timeSteps_snoc in H as (s1 & H1 & H2). apply crit_step in H2 as (_ & d0 & PD).
  destruct (pointDamage_range _ _ _ _ _ PD Hd Hb p id Hp) as (v & Hv & Hr).
  exists v; repeat split; try tauto.
  destruct (pointDamage_spec _ _ _ _ _ PD Hd) as (_ & _ & _ & P).
  destruct (P p id nbp Hp Hn) as (_ & V). to_R. rewrite V in Hv. injection Hv as <-. reflexivity.
Qed.

Lemma damage_monotone crit m steps t c t' c' nb np s1 s2 :
  timeSteps (criticalStretch (N:=RN) crit m) (steps ++ [(t, c)]) (fresh nb np) = Ok s1 ->
  timeStep (criticalStretch (N:=RN) crit m) t' c' s1 = Ok s2 ->
  NoDup (m_owned m) ->
  forall id v v', In id (m_owned m) -> nth_error (dmgN s1) id = Some v -> nth_error (dmgN s2) id = Some v' -> v <= v'.
Proof.
  intros H H2 Hd id v v' Hin Hv Hv'.
  pose proof (crit_steps_01 _ _ _ _ _ H (repeat_01 nb)) as Hb.
  apply timeSteps_snoc in H as (s0 & H0 & H1).
  destruct (crit_step _ _ _ _ _ _ H1) as (_ & d0 & PD).
  destruct (crit_step _ _ _ _ _ _ H2) as (_ & d0' & PD').
  destruct (crit_step_01 _ _ _ _ _ _ H2 Hb) as (_ & L & Hle).
  apply In_nth_error in Hin as (p & Hp).
  eapply (pointDamage_mono _ _ _ _ _ _ _ _ PD PD' Hd); eauto.
Qed.

(** Count form of the damage. *)
Lemma sum_flags (l : list R) (fl : list bool) :
  l = map (fun b : bool => if b then 1 else 0) fl -> fold_left Rplus l 0 = INR (count_true fl).
Proof.
  intros ->. induction fl as [|h t IH]; [reflexivity|].
  cbn [map fold_left]. rewrite sum_list_app, IH. unfold count_true. destruct h; cbn [filter length].
  - rewrite S_INR. ring.
  - ring.
Qed.

Lemma nth_bonds_of owned nbrs p id nb q j :
  nth_error owned p = Some id -> nth_error nbrs p = Some nb -> nth_error nb q = Some j ->
  length owned = length nbrs ->
  nth_error (bonds_of owned nbrs) (offset nbrs p + q) = Some (id, j).
Proof.
  revert nbrs p; induction owned as [|o os IH]; intros [|n ns] p Ho Hn Hq L; try discriminate;
    [destruct p; discriminate|].
  unfold bonds_of. cbn [combine flat_map fst snd].
  destruct p as [|p]; cbn in Ho, Hn.
  - injection Ho as <-; injection Hn as <-. cbn [offset firstn].
    change (offset (n :: ns) 0) with 0%nat. cbn [Nat.add].
    rewrite nth_error_app1 by (rewrite map_length; apply nth_error_Some; congruence).
    rewrite nth_error_map, Hq. reflexivity.
  - change (offset (n :: ns) (S p)) with (length n + offset ns p)%nat.
    rewrite nth_error_app2 by (rewrite map_length; lia). rewrite map_length.
    replace (length n + offset ns p + q - length n)%nat with (offset ns p + q)%nat by lia.
    apply IH; auto.
Qed.

Lemma flags_exist (P : nat -> Prop) (l : list R) :
  (forall k v, nth_error l k = Some v -> (P k /\ v = 1) \/ (~ P k /\ v = 0)) ->
  exists fl, l = map (fun b : bool => if b then 1 else 0) fl /\
    forall k, (k < length l)%nat -> (nth_error fl k = Some true <-> P k).
Proof.
  revert P; induction l as [|h t IH]; intros P H.
  - exists []; split; [reflexivity|]. cbn; lia.
  - destruct (IH (fun k => P (S k))) as (fl & E & Hf); [intros k v Hk; apply (H (S k)); exact Hk|].
    destruct (H 0%nat h eq_refl) as [[Hp ->]|[Hp ->]].
    + exists (true :: fl); split; [cbn; congruence|]. intros [|k] Hk; cbn; [tauto|]. apply Hf; cbn in Hk; lia.
    + exists (false :: fl); split; [cbn; congruence|].
      intros [|k] Hk; cbn; [split; [discriminate|tauto]|]. apply Hf; cbn in Hk; lia.
Qed.

Lemma nth_firstn_eq {A} (l : list A) n k : (k < n)%nat -> nth_error (firstn n l) k = nth_error l k.
Proof.
  revert n k; induction l as [|h t IH]; intros n k H; [rewrite firstn_nil; reflexivity|].
  destruct n; [lia|]. destruct k; cbn; auto. apply IH; lia.
Qed.

Lemma fraction_broken crit m steps t c nb np s' :
  timeSteps (criticalStretch (N:=RN) crit m) (steps ++ [(t, c)]) (fresh nb np) = Ok s' ->
  mesh_ok m np -> distinct_bonds m ->
  (forall st, In st (steps ++ [(t, c)]) -> c_thermal (snd st) = None) ->
  forall p id nbp, nth_error (m_owned m) p = Some id -> nth_error (m_nbrs m) p = Some nbp ->
  exists flags, length flags = length nbp /\
    (forall q j, nth_error nbp q = Some j ->
       (nth_error flags q = Some true <->
        exists st, In st (steps ++ [(t, c)]) /\ overstretched crit (m_x m) (c_y (snd st)) (id, j))) /\
    nth_error (dmgN s') id = Some (if (0 <? length nbp)%nat then INR (count_true flags) / INR (length nbp) else 0).
Proof.
  intros H (Lx & Lo & Hd & Ho & Hn) Hdist Hth p id nbp Hp Hnb.
  destruct (damage_after_steps _ _ _ _ _ _ _ _ H Hd p id nbp Hp Hnb) as (v & Hv & _ & Ev).
  assert (LB : (offset (m_nbrs m) p + length nbp <= length (bdN s'))%nat).
  { pose proof H as H'. apply timeSteps_snoc in H' as (s1 & _ & H2). apply crit_step in H2 as (_ & d0 & PD).
    destruct (pointDamage_spec _ _ _ _ _ PD Hd) as (_ & _ & _ & P). apply (P p id nbp Hp Hnb). }
  set (P q := exists j, nth_error nbp q = Some j /\
     exists st, In st (steps ++ [(t, c)]) /\ overstretched crit (m_x m) (c_y (snd st)) (id, j)).
  destruct (flags_exist P (firstn (length nbp) (skipn (offset (m_nbrs m) p) (bdN s')))) as (fl & Efl & Hfl).
  { intros q w Hw.
    assert (Hq : (q < length nbp)%nat).
    { assert (q < length (firstn (length nbp) (skipn (offset (m_nbrs m) p) (bdN s'))))%nat by (apply nth_error_Some; intros EN; to_R; rewrite EN in Hw; discriminate).
      rewrite firstn_length in H0. lia. }
    apply nth_firstn_some in Hw. rewrite nth_skipn in Hw.
    destruct (nth_error nbp q) as [j|] eqn:Ej; [|apply nth_error_None in Ej; lia].
    pose proof (nth_bonds_of _ _ _ _ _ _ _ Hp Hnb Ej Lo) as Hb.
    assert (HZ : nth_error (bdN (fresh (N:=RN) nb np)) (offset (m_nbrs m) p + q) = Some (ofZ (n:=RN) 0)).
    { cbn [bdN fresh].
      assert (Hlen : length (bdN s') = nb).
      { clear - H. assert (G : forall steps s s', timeSteps (criticalStretch (N:=RN) crit m) steps s = Ok s' ->
             length (bdN s') = length (bdN s)).
        { clear. unfold timeSteps, runSteps. induction steps as [|[t c] r IH]; cbn; intros s s' H; [congruence|].
          apply bind_Ok in H as (s1 & H1 & H2). etransitivity; [exact (IH _ _ H2)|].
          apply crit_step in H1 as (B & _). apply breakBonds_spec in B as (L & _). exact L. }
        apply G in H. cbn in H. rewrite repeat_length in H. exact H. }
      rewrite nth_error_repeat; [reflexivity|]. to_R. lia. }
    assert (HD : forall x0 x1, nth_error (m_x m) (fst (id, j)) = Some x0 ->
                   nth_error (m_x m) (snd (id, j)) = Some x1 -> 0 < dist x0 x1).
    { intros x0 x1 H0 H1. apply (Hdist (id, j)); auto. eapply nth_error_In; eauto. }
    destruct (crit_steps_iff sane_R _ _ _ _ _ _ _ H Hb HZ) as [[(st & Hin & Hex) Hk]|[Hno Hk]].
    - left. split; [|to_R; congruence]. exists j; split; [exact Ej|]. exists st; split; [assumption|].
      apply exceeds_R in Hex; auto.
    - right. split; [|to_R; congruence]. intros (j' & Ej' & st & Hin & Hov).
      assert (j' = j) by congruence; subst j'. apply (Hno st Hin). apply exceeds_R; auto. }
  assert (Lf : length fl = length nbp).
  { apply (f_equal (@length R)) in Efl. rewrite map_length, firstn_length, skipn_length in Efl. lia. }
  exists fl. split; [exact Lf|]. split.
  - intros q j Hq. assert (q < length nbp)%nat by (apply nth_error_Some; congruence).
    rewrite Hfl by (rewrite firstn_length, skipn_length; lia). unfold P. split.
    + intros (j' & Hj' & Hr). assert (j' = j) by congruence; subst; exact Hr.
    + intros Hr; exists j; auto.
  - rewrite Hv, Ev. f_equal. destruct (0 <? length nbp)%nat; [|reflexivity]. f_equal.
    apply sum_flags, Efl.
Qed.

(** ** Evaluations are defined *)
Lemma num_bonds_length owned nbrs : length owned = length nbrs ->
  length (bonds_of owned nbrs) = num_bonds nbrs.
Proof.
  revert nbrs; induction owned as [|o os IH]; intros [|n ns] L; try discriminate; [reflexivity|].
  unfold bonds_of; cbn [combine flat_map fst snd]. rewrite app_length, map_length.
  unfold num_bonds; cbn [map fold_right]. f_equal. apply IH. cbn in L; lia.
Qed.

Lemma at_ub_lt {A} (l : list A) i : (i < length l)%nat -> exists a, at_ub l i = Ok a.
Proof.
  intros H. unfold at_ub. destruct (nth_error l i) eqn:E; [eauto|]. apply nth_error_None in E; lia.
Qed.

Lemma relext_ok {N : Num} (x : list (V3 N)) c i j np :
  length x = np -> config_ok c np -> (i < np)%nat -> (j < np)%nat ->
  exists e, relativeExtension x c i j = Ok e.
Proof.
  intros Lx (Ly & Lt) Hi Hj. unfold relativeExtension.
  destruct (at_ub_lt x i) as (x0 & ->); [lia|]. destruct (at_ub_lt x j) as (x1 & ->); [lia|].
  destruct (at_ub_lt (c_y c) i) as (y0 & ->); [lia|]. destruct (at_ub_lt (c_y c) j) as (y1 & ->); [lia|].
  cbn [bind]. destruct (c_thermal c) as [[al dT]|]; [|eexists; reflexivity].
  destruct (at_ub_lt dT i) as (t & ->); [lia|]. eexists; reflexivity.
Qed.

Lemma breakBonds_defined {N : Num} crit (x : list (V3 N)) c np bonds bd :
  length x = np -> config_ok c np ->
  Forall (fun b => (fst b < np)%nat /\ (snd b < np)%nat) bonds -> (length bonds <= length bd)%nat ->
  exists r, breakBonds crit x c bonds bd = Ok r.
Proof.
  intros Lx Hc H; revert bd; induction H as [|[i j] bs [Hi Hj] _ IH]; intros bd L; [eexists; reflexivity|].
  destruct bd as [|d ds]; [cbn in L; lia|]. cbn in *.
  destruct (relext_ok x c i j np Lx Hc Hi Hj) as (e & ->).
  destruct (IH ds) as (r & ->); [lia|]. eexists; reflexivity.
Qed.

Lemma upd_Some_lt {A} (l : list A) i a : (i < length l)%nat -> upd l i a <> None.
Proof.
  revert i; induction l as [|h t IH]; intros [|i] H; cbn in *; try lia; try discriminate.
  specialize (IH i ltac:(lia)). destruct (upd t i a); congruence.
Qed.

Lemma pointDamage_defined {N : Num} owned nbrs (bd d : list N) :
  length owned = length nbrs -> Forall (fun i => (i < length d)%nat) owned ->
  (num_bonds nbrs <= length bd)%nat -> exists r, pointDamage owned nbrs bd d = Ok r /\ length r = length d.
Proof.
  revert nbrs bd d; induction owned as [|o os IH]; intros [|n ns] bd d L Ho Hb; try discriminate;
    [eexists; split; reflexivity|].
  unfold num_bonds in Hb; cbn [map fold_right] in Hb. inversion Ho as [|? ? H1 H2]; subst.
  cbn [pointDamage]. destruct (Nat.ltb_spec (length bd) (length n)); [lia|].
  unfold upd_ub. destruct (upd d o _) as [d'|] eqn:E.
  2:{ exfalso. revert E. apply upd_Some_lt; lia. }
  cbn [bind]. apply upd_nth in E as (L' & _). rewrite <- L' in *.
  destruct (IH ns (skipn (length n) bd) d') as (r & -> & Lr).
  - cbn in L; lia.
  - exact H2.
  - rewrite skipn_length. unfold num_bonds; lia.
  - eauto.
Qed.

Lemma bonds_of_bounds owned nbrs np :
  Forall (fun i => (i < np)%nat) owned -> Forall (Forall (fun j => (j < np)%nat)) nbrs ->
  Forall (fun b => (fst b < np)%nat /\ (snd b < np)%nat) (bonds_of owned nbrs).
Proof.
  intros Ho; revert nbrs; induction Ho as [|o os Hlt _ IH]; intros [|n ns] Hn; try constructor.
  inversion Hn as [|? ? H1 H2]; subst. unfold bonds_of; cbn [combine flat_map fst snd].
  apply Forall_app; split; [|apply IH; assumption].
  apply Forall_map. eapply Forall_impl; [|exact H1]. cbn; auto.
Qed.

Lemma criticalStretch_defined {N : Num} crit (m : mesh N) c s np :
  mesh_ok m np -> config_ok c np -> dstate_ok s (num_bonds (m_nbrs m)) np ->
  exists s', criticalStretch crit m c s = Ok s' /\ dstate_ok s' (num_bonds (m_nbrs m)) np.
Proof.
  intros (Lx & Lo & Hd & Ho & Hn) Hc (L1 & L2 & L3 & L4). unfold criticalStretch.
  destruct (breakBonds_defined crit (m_x m) c np (bonds_of (m_owned m) (m_nbrs m)) (bdN s)) as (b & Eb); auto.
  - apply bonds_of_bounds; assumption.
  - rewrite num_bonds_length by assumption. lia.
  - rewrite Eb. cbn [bind]. apply breakBonds_spec in Eb as (Lb & _).
    destruct (pointDamage_defined (m_owned m) (m_nbrs m) b (dmgNP1 s)) as (d & -> & Ld); auto.
    + rewrite L4; assumption.
    + lia.
    + eexists; split; [reflexivity|]. repeat split; cbn; try assumption; congruence.
Qed.

Lemma timeSteps_defined {N : Num} crit (m : mesh N) np steps s :
  mesh_ok m np -> dstate_ok s (num_bonds (m_nbrs m)) np ->
  Forall (fun st => Forall (fun c => config_ok c np) (fst st) /\ config_ok (snd st) np) steps ->
  exists s', timeSteps (criticalStretch crit m) steps s = Ok s'.
Proof.
  intros Hm Hs H; unfold timeSteps, runSteps; revert s Hs; induction H as [|[t c] r [Ht Hc] _ IH]; intros s Hs;
    [eexists; reflexivity|].
  cbn [foldM fst snd] in *. unfold runStep at 1.
  assert (G : exists s1, foldM (fun s c => criticalStretch crit m c s) s t = Ok s1 /\ dstate_ok s1 (num_bonds (m_nbrs m)) np).
  { clear - Hm Hs Ht. revert s Hs; induction Ht as [|c t Hc _ IH]; intros s Hs; cbn; [eauto|].
    destruct (criticalStretch_defined crit m c s np Hm Hc Hs) as (s1 & -> & H1). cbn. auto. }
  destruct G as (s1 & -> & H1). cbn [bind].
  destruct (criticalStretch_defined crit m c s1 np Hm Hc H1) as (s2 & -> & H2). cbn [bind].
  apply IH. destruct H2 as (?&?&?&?). repeat split; assumption.
Qed.

(** ** The other models *)
Lemma vonMises_mono cs cd td stress old :
  let new := vonMisesBond (N:=RN) cs cd td stress old in
  old <= new /\ (td < cd -> 0 <= old <= 1 -> 0 <= new <= 1).
Proof.
  unfold vonMisesBond; to_R. cbv zeta.
  set (q := stress / cs).
  destruct (Rleb cd q) eqn:E1; [|destruct (Rleb q td) eqn:E2].
  - destruct (Rltb old 1) eqn:E; [apply Rltb_true in E | apply Rltb_false in E]; split; lra.
  - destruct (Rltb old 0) eqn:E; [apply Rltb_true in E | apply Rltb_false in E]; split; lra.
  - apply Rleb_false in E1, E2.
    destruct (Rltb old ((q - td) / (cd - td))) eqn:E; [apply Rltb_true in E | apply Rltb_false in E];
      (split; [lra|]); intros Ht Ho; [|lra].
    split; [lra|]. apply Rmult_le_reg_r with (cd - td); [lra|].
    unfold Rdiv. rewrite Rmult_assoc, Rinv_l by lra. lra.
Qed.

Lemma vonMises_float_keeps_broken cs cd td stress :
  vonMisesBond (N:=FN) cs cd td stress (ofZ (n:=FN) 1) = ofZ (n:=FN) 1 \/
  ltb (n:=FN) (ofZ 1) (vonMisesBond (N:=FN) cs cd td stress (ofZ (n:=FN) 1)) = true.
Proof.
  unfold vonMisesBond. cbv zeta.
  match goal with |- context [if ltb ?a ?b then _ else _] => destruct (ltb a b) eqn:E end; auto.
Qed.

Lemma johnsonCook_mono thr deqps epsF d :
  thr < 1 -> 0 <= d <= 1 ->
  let r := johnsonCookBond (N:=RN) thr deqps epsF d in
  d <= fst r <= 1 /\ 0 <= snd r <= 1.
Proof.
  intros Ht Hd. unfold johnsonCookBond; to_R. cbv zeta. cbn [fst snd].
  set (d1 := if Rltb 0 (deqps / epsF) then d + deqps / epsF else d).
  assert (H1 : d <= d1).
  { unfold d1. destruct (Rltb 0 (deqps / epsF)) eqn:E; [apply Rltb_true in E|]; lra. }
  set (d2 := if Rleb 1 d1 then 1 else d1).
  assert (H2 : d <= d2 <= 1).
  { unfold d2. destruct (Rleb 1 d1) eqn:E; [lra|apply Rleb_false in E; lra]. }
  split; [exact H2|].
  destruct (Rltb thr d2) eqn:E; [|lra]. apply Rltb_true in E.
  assert (0 < 1 - thr) by lra. split.
  - apply Rmult_le_pos; [lra|]. apply Rlt_le, Rinv_0_lt_compat; lra.
  - apply Rmult_le_reg_r with (1 - thr); [lra|].
    unfold Rdiv. rewrite Rmult_assoc, Rinv_l by lra. lra.
Qed.

Lemma johnsonCook_bond_mono thr deqps epsF d :
  thr < 1 -> 0 <= d <= 1 ->
  forall deqps0 epsF0 d0, johnsonCookBond (N:=RN) thr deqps0 epsF0 d0 = (d, snd (johnsonCookBond (N:=RN) thr deqps0 epsF0 d0)) ->
  snd (johnsonCookBond (N:=RN) thr deqps0 epsF0 d0) <= snd (johnsonCookBond (N:=RN) thr deqps epsF d).
Proof.
  intros Ht Hd deqps0 epsF0 d0 E0.
  destruct (johnsonCook_mono thr deqps epsF d Ht Hd) as [Hf Hs].
  assert (Eold : snd (johnsonCookBond (N:=RN) thr deqps0 epsF0 d0) = if Rltb thr d then (d - thr) / (1 - thr) else 0).
  { unfold johnsonCookBond in E0 |- *. to_R. cbv zeta in *. cbn [fst snd] in *.
    injection E0 as E0. rewrite E0. reflexivity. }
  rewrite Eold. clear E0 Eold.
  destruct (Rltb thr d) eqn:E; [|lra]. apply Rltb_true in E.
  unfold johnsonCookBond in *. to_R. cbv zeta in *. cbn [fst snd] in *.
  set (d1 := if Rltb 0 (deqps / epsF) then d + deqps / epsF else d) in *.
  set (d2 := if Rleb 1 d1 then 1 else d1) in *.
  assert (E2 : Rltb thr d2 = true) by (apply Rltb_true; lra). rewrite E2.
  unfold Rdiv. apply Rmult_le_compat_r; [apply Rlt_le, Rinv_0_lt_compat; lra|lra].
Qed.

(** Histories of the two stress-driven models. *)
Lemma vonMisesBonds_spec cs cd td stress old r :
  vonMisesBonds (N:=RN) cs cd td stress old = Ok r -> td < cd ->
  length r = length old /\
  forall k v v', nth_error old k = Some v -> nth_error r k = Some v' -> v <= v' /\ (0 <= v <= 1 -> 0 <= v' <= 1).
Proof.
  intros H Ht; revert stress r H; induction old as [|d ds IH]; intros stress r H.
  - cbn in H; injection H as <-. split; [reflexivity|]. intros [|k] ? ? Hk; discriminate Hk.
  - destruct stress as [|s ss]; [discriminate|]. cbn in H. apply bind_Ok in H as (r' & H1 & H2).
    injection H2 as <-. destruct (IH _ _ H1) as (L & P). split; [cbn [length]; f_equal; exact L|].
    intros [|k] v v' Hv Hv'; cbn in Hv, Hv'; [|eapply P; eauto].
    injection Hv as <-; injection Hv' as <-. destruct (vonMises_mono cs cd td s d) as [A B].
    split; auto.
Qed.

Lemma vonMises_history cs cd td steps s s' :
  td < cd ->
  runSteps (fun s => (snd s, fst s)) (vonMises (N:=RN) cs cd td) steps s = Ok s' ->
  forall k v, nth_error (fst s) k = Some v -> 0 <= v <= 1 ->
  exists v', nth_error (fst s') k = Some v' /\ v <= v' <= 1.
Proof.
  intros Ht. unfold runSteps. revert s; induction steps as [|[t c] r IH]; cbn; intros s H k v Hk Hv.
  - injection H as <-. exists v; split; [assumption|lra].
  - apply bind_Ok in H as (s1 & H1 & H2). unfold runStep in H1.
    apply bind_Ok in H1 as (s2 & H1 & H3). apply bind_Ok in H3 as (s3 & H3 & H4). injection H4 as <-.
    assert (E : fst s2 = fst s).
    { clear - H1. revert s H1; induction t as [|a t IH]; cbn; intros s H; [congruence|].
      apply bind_Ok in H as (s1 & H1 & H2). apply IH in H2. unfold vonMises in H1.
      apply bind_Ok in H1 as (b & _ & H1). injection H1 as <-. exact H2. }
    unfold vonMises in H3. apply bind_Ok in H3 as (b & Hb & H3). injection H3 as <-. cbn in H2.
    apply vonMisesBonds_spec in Hb as (L & P); [|assumption]. to_R. rewrite E in L, P.
    destruct (nth_error b k) as [w|] eqn:Ew.
    2:{ apply nth_error_None in Ew. rewrite L in Ew. apply nth_error_None in Ew. congruence. }
    destruct (P k v w Hk Ew) as [A B].
    destruct (IH _ H2 k w Ew (B Hv)) as (v' & Hv' & Hr). exists v'; split; [assumption|lra].
Qed.

Lemma jc_snd thr a b d : snd (johnsonCookBond (N:=RN) thr a b d) = jc_bond_of thr (fst (johnsonCookBond (N:=RN) thr a b d)).
Proof. unfold johnsonCookBond, jc_bond_of; to_R; reflexivity. Qed.

Lemma jcBonds_spec ex p1 p2 p3 thr input old r :
  johnsonCookBonds (N:=RN) ex p1 p2 p3 thr input old = Ok r -> thr < 1 ->
  length r = length old /\
  forall k d w, nth_error old k = Some d -> nth_error r k = Some w -> 0 <= d <= 1 ->
    d <= fst w <= 1 /\ 0 <= snd w <= 1 /\ snd w = jc_bond_of thr (fst w).
Proof.
  intros H Ht; revert input r H; induction old as [|d ds IH]; intros input r H.
  - cbn in H; injection H as <-. split; [reflexivity|]. intros [|k] ? ? Hk; discriminate Hk.
  - destruct input as [|[[e0 e1] tri] ins]; [discriminate|]. cbn [johnsonCookBonds] in H.
    apply bind_Ok in H as (r' & H1 & H2).
    injection H2 as <-. destruct (IH _ _ H1) as (L & P). split; [cbn [length]; f_equal; exact L|].
    intros [|k] d0 w Hd Hw Hr; cbn [nth_error] in Hd, Hw; [|eapply P; eauto].
    injection Hd as <-; injection Hw as <-. rewrite <- jc_snd.
    destruct (johnsonCook_mono thr (sub (n:=RN) e0 e1) (add (n:=RN) p1 (mul (n:=RN) p2 (ex (mul (n:=RN) (opp p3) tri)))) d Ht Hr) as [A B].
    auto.
Qed.

Lemma jc_bond_mono thr d d' : thr < 1 -> d <= d' -> jc_bond_of thr d <= jc_bond_of thr d'.
Proof.
  intros Ht Hd. unfold jc_bond_of.
  destruct (Rltb thr d) eqn:E, (Rltb thr d') eqn:E'; try lra.
  - unfold Rdiv. apply Rmult_le_compat_r; [apply Rlt_le, Rinv_0_lt_compat; lra|lra].
  - apply Rltb_true in E. apply Rltb_false in E'. lra.
  - apply Rltb_true in E'. apply Rmult_le_pos; [lra|]. apply Rlt_le, Rinv_0_lt_compat; lra.
Qed.

(** Invariant: parameter and bond damage in [0,1], and tied together. *)
Lemma jc_history ex p1 p2 p3 thr steps s s' :
  thr < 1 ->
  runSteps jcSwap (johnsonCook (N:=RN) ex p1 p2 p3 thr) steps s = Ok s' ->
  forall k d b, nth_error (jcDN s) k = Some d -> nth_error (jcBN s) k = Some b ->
  0 <= d <= 1 -> 0 <= b -> b <= jc_bond_of thr d ->
  exists d' b', nth_error (jcDN s') k = Some d' /\ nth_error (jcBN s') k = Some b' /\
    d <= d' <= 1 /\ b <= b' <= 1 /\ b' <= jc_bond_of thr d'.
Proof.
  intros Ht. unfold runSteps. revert s; induction steps as [|[t c] r IH]; cbn [foldM]; intros s H k d b Hd Hb Hr H0 Hle.
  - injection H as <-. exists d, b; repeat split; try assumption; try lra.
    eapply Rle_trans; [exact Hle|]. eapply Rle_trans; [apply jc_bond_mono with (d' := 1); lra|].
    unfold jc_bond_of. assert (E : Rltb thr 1 = true) by (apply Rltb_true; lra). rewrite E.
    unfold Rdiv. rewrite Rinv_r; lra.
  - apply bind_Ok in H as (s1 & H1 & H2). cbn [fst snd] in H1. unfold runStep in H1.
    apply bind_Ok in H1 as (s2 & H1 & H3). apply bind_Ok in H3 as (s3 & H3 & H4). injection H4 as <-.
    assert (E : jcDN s2 = jcDN s).
    { clear - H1. revert s H1; induction t as [|a t IH]; cbn [foldM]; intros s H; [congruence|].
      apply bind_Ok in H as (s1 & H1 & H2). apply IH in H2. unfold johnsonCook in H1.
      apply bind_Ok in H1 as (w & _ & H1). injection H1 as <-. exact H2. }
    unfold johnsonCook in H3. apply bind_Ok in H3 as (w & Hw & H3). injection H3 as <-.
    apply jcBonds_spec in Hw as (L & P); [|assumption]. to_R. rewrite E in L, P.
    destruct (nth_error w k) as [[d1 b1]|] eqn:Ew.
    2:{ apply nth_error_None in Ew. rewrite L in Ew. apply nth_error_None in Ew. congruence. }
    destruct (P k d (d1, b1) Hd Ew Hr) as (A & B & C). cbn [fst snd] in *.
    pose proof (jc_bond_mono thr d d1 Ht ltac:(lra)) as Hm.
    destruct (IH _ H2 k d1 b1) as (d' & b' & Hd' & Hb' & Hrd & Hrb & Hfin); try lra.
    + cbn. rewrite nth_error_map, Ew. reflexivity.
    + cbn. rewrite nth_error_map, Ew. reflexivity.
    + exists d', b'; repeat split; try assumption; lra.
Qed.

Lemma jc_two ex p1 p2 p3 thr steps1 steps2 n s1 s2 :
  thr < 1 ->
  runSteps jcSwap (johnsonCook (N:=RN) ex p1 p2 p3 thr) steps1 (jc_fresh n) = Ok s1 ->
  runSteps jcSwap (johnsonCook (N:=RN) ex p1 p2 p3 thr) steps2 s1 = Ok s2 ->
  forall k, (k < n)%nat ->
  exists d1 b1 d2 b2, nth_error (jcDN s1) k = Some d1 /\ nth_error (jcBN s1) k = Some b1 /\
    nth_error (jcDN s2) k = Some d2 /\ nth_error (jcBN s2) k = Some b2 /\
    0 <= d1 <= d2 /\ d2 <= 1 /\ 0 <= b1 <= b2 /\ b2 <= 1.
Proof.
  intros Ht H1 H2 k Hk.
  assert (J0 : 0 <= jc_bond_of thr 0).
  { unfold jc_bond_of. destruct (Rltb thr 0) eqn:E; [|lra]. apply Rltb_true in E.
    apply Rmult_le_pos; [lra|]. apply Rlt_le, Rinv_0_lt_compat; lra. }
  assert (E0 : nth_error (repeat 0 n) k = Some 0) by (apply nth_error_repeat; assumption).
  destruct (jc_history _ _ _ _ _ _ _ _ Ht H1 k 0 0) as (d1 & b1 & Hd1 & Hb1 & A1 & A2 & A3);
    try assumption; try lra.
  destruct (jc_history _ _ _ _ _ _ _ _ Ht H2 k d1 b1) as (d2 & b2 & Hd2 & Hb2 & B1 & B2 & B3);
    try assumption; try lra.
  exists d1, b1, d2, b2; repeat split; try assumption; lra.
Qed.

Lemma crit_tentative_irrelevant {N : Num} crit (m : mesh N) t c s s1 s2 :
  timeStep (criticalStretch crit m) t c s = Ok s1 -> timeStep (criticalStretch crit m) [] c s = Ok s2 ->
  bdN s1 = bdN s2.
Proof.
  intros H1 H2. apply crit_step in H1 as (B1 & _). apply crit_step in H2 as (B2 & _). congruence.
Qed.

(** Two runs, one a continuation of the other. *)
Lemma crit_monotone_steps crit m steps t c steps2 nb np s1 s2 :
  timeSteps (criticalStretch (N:=RN) crit m) (steps ++ [(t, c)]) (fresh nb np) = Ok s1 ->
  timeSteps (criticalStretch (N:=RN) crit m) steps2 s1 = Ok s2 ->
  NoDup (m_owned m) ->
  forall id v v', In id (m_owned m) -> nth_error (dmgN s1) id = Some v -> nth_error (dmgN s2) id = Some v' -> v <= v'.
Proof.
  intros H H2 Hd id v v' Hin Hv.
  revert s2 v' H2; induction steps2 as [|[t' c'] l IH] using rev_ind; intros s2 v' H2 Hv'.
  - cbn in H2. injection H2 as <-. to_R. rewrite Hv in Hv'. injection Hv' as <-. lra.
  - assert (Hall : timeSteps (criticalStretch (N:=RN) crit m) ((steps ++ [(t, c)]) ++ l ++ [(t', c')]) (fresh nb np) = Ok s2).
    { unfold timeSteps, runSteps in *. rewrite foldM_app. rewrite H. exact H2. }
    apply timeSteps_snoc in H2 as (s3 & H3 & H4).
    assert (Hv3 : exists v3, nth_error (dmgN s3) id = Some v3).
    { apply In_nth_error in Hin as (p & Hp).
      assert (Hall3 : exists q t3 c3, timeSteps (criticalStretch (N:=RN) crit m) (q ++ [(t3, c3)]) (fresh nb np) = Ok s3).
      { destruct l as [|a l0] using rev_ind.
        - cbn in H3. injection H3 as <-. eauto.
        - destruct a as [t3 c3]. exists ((steps ++ [(t, c)]) ++ l0), t3, c3.
          rewrite <- app_assoc. unfold timeSteps, runSteps in *. rewrite foldM_app, H. exact H3. }
      destruct Hall3 as (q & t3 & c3 & Hq).
      apply timeSteps_snoc in Hq as (s0 & _ & Hs). apply crit_step in Hs as (_ & d0 & PD).
      destruct (pointDamage_spec _ _ _ _ _ PD Hd) as (_ & L & _ & P).
      destruct (nth_error (m_nbrs m) p) as [nbp|] eqn:En.
      2:{ apply nth_error_None in En. assert (p < length (m_owned m))%nat by (apply nth_error_Some; congruence). lia. }
      destruct (P p id nbp Hp En) as (_ & V). eauto. }
    destruct Hv3 as (w & Hw). specialize (IH s3 w H3 Hw).
    enough (w <= v') by lra.
    destruct l as [|a l0] using rev_ind.
    + cbn in H3. injection H3 as <-. eapply (damage_monotone crit m steps t c t' c'); eauto.
    + destruct a as [t3 c3].
      eapply (damage_monotone crit m ((steps ++ [(t, c)]) ++ l0) t3 c3 t' c' nb np s3 s2); eauto.
      rewrite <- app_assoc. unfold timeSteps, runSteps in *. rewrite foldM_app, H. exact H3.
Qed.

Lemma crit_damage_range crit m steps t c nb np s' :
  timeSteps (criticalStretch (N:=RN) crit m) (steps ++ [(t, c)]) (fresh nb np) = Ok s' ->
  mesh_ok m np ->
  forall id, In id (m_owned m) -> exists v, nth_error (dmgN s') id = Some v /\ 0 <= v <= 1.
Proof.
  intros H (Lx & Lo & Hd & Ho & Hn) id Hin. apply In_nth_error in Hin as (p & Hp).
  destruct (nth_error (m_nbrs m) p) as [nbp|] eqn:En.
  2:{ apply nth_error_None in En. assert (p < length (m_owned m))%nat by (apply nth_error_Some; congruence). lia. }
  destruct (damage_after_steps _ _ _ _ _ _ _ _ H Hd p id nbp Hp En) as (v & Hv & Hr & _). eauto.
Qed.
