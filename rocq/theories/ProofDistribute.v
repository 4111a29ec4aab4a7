(** * Distribution of the mesh: no schedule blocks *)
From Coq Require Import Lia.
From Verif Require Import Base Num ModelGrid ModelDistribute.

Section Proofs.
  Context {N : Num}.
  Notation message := (message N).
  Notation program := (program N).
  Notation system := (system N).

  (** ** Sessions *)
  Inductive act := S_ (t : nat) (m : message) | R_ (t : nat) (m : message).
  Definition dual (a : act) : act := match a with S_ t m => R_ t m | R_ t m => S_ t m end.
  Definition received (q : list (nat * message)) : list act := map (fun x => R_ (fst x) (snd x)) q.

  (** A program that talks to processor [peer] performs exactly these actions, then is done. *)
  Fixpoint plays (c : program) (l : list (nat * act)) (r : option (grid_data N)) : Prop :=
    match l with
    | [] => c = Done r
    | (p, S_ t m) :: l' => exists k, c = Send p t m k /\ plays k l' r
    | (p, R_ t m) :: l' => exists k, c = Recv p t k /\ plays (k m) l' r
    end.
  Definition only (p : nat) (l : list (nat * act)) : list act := map snd (List.filter (fun x => Nat.eqb (fst x) p) l).
  Definition with_root (l : list act) : list (nat * act) := map (fun a => (0, a)) l.

  Definition pair_ok (A B : list act) (q q' : list (nat * message)) : Prop :=
    (q' = [] /\ B = received q ++ map dual A) \/ (q = [] /\ A = received q' ++ map dual B).

  Lemma dual_dual l : map dual (map dual l) = l.
  Proof. induction l as [|[] l IH]; cbn; congruence. Qed.

  (** The state of the whole system *)
  Section Inv.
  Variable n : nat.
  Variable r : nat -> option (grid_data N).
  Definition Inv (L : list (nat * act)) (B : nat -> list act) (s : system) : Prop :=
    (forall p a, In (p, a) L -> 1 <= p <= n) /\
    plays (prog s 0) L (r 0) /\
    (forall p, 1 <= p <= n -> plays (prog s p) (with_root (B p)) (r p) /\ pair_ok (only p L) (B p) (chan s 0 p) (chan s p 0)) /\
    (forall p, n < p -> prog s p = Done None) /\
    (forall a b, a <> 0 -> b <> 0 -> chan s a b = []) /\ chan s 0 0 = [].

  Fixpoint upto (f : nat -> nat) (m : nat) : nat := match m with O => 0 | S m' => upto f m' + f (S m') end.
  Definition work (L : list (nat * act)) (B : nat -> list act) : nat := length L + upto (fun p => length (B p)) n.

  Lemma upto_ext f f' m : (forall p, 1 <= p <= m -> f p = f' p) -> upto f m = upto f' m.
  Proof. induction m as [|m IH]; intros H; cbn; [reflexivity|]. rewrite IH by (intros; apply H; lia). rewrite H by lia. reflexivity. Qed.
  Lemma upto_less f f' m p : 1 <= p <= m -> f p = S (f' p) -> (forall q, 1 <= q <= m -> q <> p -> f q = f' q) -> upto f m = S (upto f' m).
  Proof.
    induction m as [|m IH]; intros P E H; [lia|]. cbn. destruct (Nat.eq_dec p (S m)) as [->|Np].
    - rewrite E. rewrite (upto_ext f f' m) by (intros; apply H; lia). lia.
    - rewrite IH by (auto; try lia; intros; apply H; lia). rewrite (H (S m)) by lia. lia.
  Qed.

  Definition set_list (B : nat -> list act) (p : nat) (l : list act) : nat -> list act := fun q => if Nat.eqb q p then l else B q.

  Lemma set_prog_same (f : nat -> program) p x : set_prog f p x p = x. Proof. unfold set_prog. now rewrite Nat.eqb_refl. Qed.
  Lemma set_prog_other (f : nat -> program) p x q : q <> p -> set_prog f p x q = f q. Proof. unfold set_prog. intros H. destruct (Nat.eqb_spec q p); [contradiction|reflexivity]. Qed.
  Lemma set_chan_same (f : nat -> nat -> list (nat * message)) p q l : set_chan f p q l p q = l. Proof. unfold set_chan. now rewrite !Nat.eqb_refl. Qed.
  Lemma set_chan_other (f : nat -> nat -> list (nat * message)) p q l a b : (a <> p \/ b <> q) -> set_chan f p q l a b = f a b.
  Proof. unfold set_chan. intros H. destruct (Nat.eqb_spec a p), (Nat.eqb_spec b q); cbn; try reflexivity. destruct H; contradiction. Qed.
  Lemma set_list_same B p l : set_list B p l p = l. Proof. unfold set_list. now rewrite Nat.eqb_refl. Qed.
  Lemma set_list_other B p l q : q <> p -> set_list B p l q = B q. Proof. unfold set_list. intros H. destruct (Nat.eqb_spec q p); [contradiction|reflexivity]. Qed.

  Lemma only_same p a L : only p ((p, a) :: L) = a :: only p L.
  Proof. unfold only. cbn. now rewrite Nat.eqb_refl. Qed.
  Lemma only_other p q a L : q <> p -> only q ((p, a) :: L) = only q L.
  Proof. intros H. unfold only. cbn. destruct (Nat.eqb_spec p q); [congruence|reflexivity]. Qed.

  Lemma take_head t (m : message) l : take t ((t, m) :: l) = Some (m, l).
  Proof. cbn. now rewrite Nat.eqb_refl. Qed.

  (** Every send or receive keeps the invariant and reduces the work left. *)
  Lemma buffering_inv L B s s' : Inv L B s -> buffering s s' -> exists L' B', Inv L' B' s' /\ work L' B' < work L B.
  Proof.
    intros (I0 & I1 & I2 & I3 & I4 & I5) H. destruct H as [s p q t m k E]. destruct (Nat.eq_dec p 0) as [->|Np].
    - (* the root *)
      destruct L as [|(p & a) L]; cbn in I1; [congruence|]. destruct a as [t' m'|t' m']; destruct I1 as (k' & E' & P'); [|congruence]. rewrite E in E'. injection E' as -> -> -> ->.
      assert (Hp : 1 <= p <= n) by (eapply I0; left; reflexivity). exists L, B. split; [|unfold work; cbn; lia].
      split; [intros; eapply I0; right; eassumption|]. split; [cbn [prog]; rewrite set_prog_same; exact P'|]. split; [|split; [|split]].
      + intros x Hx. cbn [prog chan]. rewrite set_prog_other by lia. destruct (I2 x Hx) as (P1 & P2). split; [exact P1|].
        rewrite (set_chan_other _ 0 p _ x 0) by lia. destruct (Nat.eq_dec x p) as [->|Nx].
        * rewrite set_chan_same. rewrite only_same in P2. destruct P2 as [(Q1 & Q2)|(Q1 & Q2)].
          -- left. split; [exact Q1|]. rewrite Q2. unfold received. rewrite map_app, <- app_assoc. reflexivity.
          -- destruct (chan s p 0) as [|y l]; cbn in Q2; [|discriminate]. left. split; [reflexivity|].
             assert (D : B p = map dual (S_ t' m' :: only p L)) by (rewrite Q2, dual_dual; reflexivity). rewrite D, Q1. reflexivity.
        * rewrite set_chan_other by (right; lia). rewrite only_other in P2 by auto. exact P2.
      + intros x Hx. cbn [prog]. rewrite set_prog_other by lia. auto.
      + intros a b Ha Hb. cbn [chan]. rewrite set_chan_other by (left; auto). auto.
      + cbn [chan]. rewrite set_chan_other by (right; lia). auto.
    - (* a worker *)
      destruct (Nat.le_gt_cases p n) as [Hp|Hp]; [|rewrite (I3 p Hp) in E; discriminate].
      destruct (I2 p ltac:(lia)) as (P1 & P2). destruct (B p) as [|a l] eqn:EB; cbn in P1; [congruence|].
      destruct a as [t' m'|t' m']; destruct P1 as (k' & E' & P'); [|congruence]. rewrite E in E'. injection E' as -> -> -> ->.
      exists L, (set_list B p l). split.
      + split; [exact I0|]. split; [cbn [prog]; rewrite set_prog_other by lia; exact I1|]. split; [|split; [|split]].
        * intros x Hx. cbn [prog chan]. rewrite (set_chan_other _ p 0 _ 0 x) by lia. destruct (Nat.eq_dec x p) as [->|Nx].
          -- rewrite set_prog_same, set_list_same, set_chan_same. split; [exact P'|]. destruct P2 as [(Q1 & Q2)|(Q1 & Q2)].
             ++ destruct (chan s 0 p) as [|y lq]; cbn in Q2; [|discriminate]. right. split; [reflexivity|]. rewrite Q1. cbn.
                assert (D : only p L = map dual (S_ t' m' :: l)) by (rewrite Q2, dual_dual; reflexivity). rewrite D. reflexivity.
             ++ right. split; [exact Q1|]. rewrite Q2. unfold received. rewrite map_app, <- app_assoc. reflexivity.
          -- rewrite set_prog_other, set_list_other, set_chan_other by lia. auto.
        * intros x Hx. cbn [prog]. rewrite set_prog_other by lia. auto.
        * intros a b Ha Hb. cbn [chan]. rewrite set_chan_other by (right; auto). auto.
        * cbn [chan]. rewrite set_chan_other by (left; lia). auto.
      + unfold work. assert (U : upto (fun x => length (B x)) n = S (upto (fun x => length (set_list B p l x)) n)); [|lia].
        apply (upto_less _ _ _ p); [lia|rewrite set_list_same, EB; reflexivity|]. intros q _ Nq. now rewrite set_list_other.
  Qed.

  Lemma take_nil t : take t ([] : list (nat * message)) = None. Proof. reflexivity. Qed.

  Lemma delivery_inv L B s s' : Inv L B s -> delivery s s' -> exists L' B', Inv L' B' s' /\ work L' B' < work L B.
  Proof.
    intros (I0 & I1 & I2 & I3 & I4 & I5) H. destruct H as [s p q t k m rest E T|s p q t k m k' E1 E2 T].
    - destruct (Nat.eq_dec q 0) as [->|Nq].
      + (* the root receives *)
        destruct L as [|(x & a) L]; cbn in I1; [congruence|]. destruct a as [t' m'|t' m']; destruct I1 as (k' & E' & P'); [congruence|]. rewrite E in E'. injection E' as -> -> ->.
        assert (Hp : 1 <= x <= n) by (eapply I0; left; reflexivity). destruct (I2 x Hp) as (P1 & P2). rewrite only_same in P2.
        assert (Q : chan s x 0 = (t', m) :: rest /\ m' = m /\ chan s 0 x = [] /\ only x L = received rest ++ map dual (B x)).
        { destruct P2 as [(Q1 & Q2)|(Q1 & Q2)]; [rewrite Q1 in T; discriminate|]. destruct (chan s x 0) as [|(ty & my) l]; [discriminate|]. cbn in Q2. injection Q2 as -> -> Q2. rewrite take_head in T. injection T as <- <-. auto. }
        destruct Q as (Q1 & -> & Q3 & Q4). exists L, B. split; [|unfold work; cbn; lia].
        split; [intros; eapply I0; right; eassumption|]. split; [cbn [prog]; rewrite set_prog_same; exact P'|]. split; [|split; [|split]].
        * intros y Hy. cbn [prog chan]. rewrite set_prog_other by lia. destruct (I2 y Hy) as (R1 & R2). split; [exact R1|]. rewrite (set_chan_other _ x 0 _ 0 y) by lia. destruct (Nat.eq_dec y x) as [->|Ny].
          -- rewrite set_chan_same. right. auto.
          -- rewrite set_chan_other by lia. rewrite only_other in R2 by auto. exact R2.
        * intros y Hy. cbn [prog]. rewrite set_prog_other by lia. auto.
        * intros a b Ha Hb. cbn [chan]. rewrite set_chan_other by (right; auto). auto.
        * cbn [chan]. rewrite set_chan_other by (left; lia). auto.
      + (* a worker receives *)
        destruct (Nat.le_gt_cases q n) as [Hq|Hq]; [|rewrite (I3 q Hq) in E; discriminate].
        destruct (I2 q ltac:(lia)) as (P1 & P2). destruct (B q) as [|a l] eqn:EB; cbn in P1; [congruence|].
        destruct a as [t' m'|t' m']; destruct P1 as (k' & E' & P'); [congruence|]. rewrite E in E'. injection E' as -> -> ->.
        assert (Q : chan s 0 q = (t', m) :: rest /\ m' = m /\ chan s q 0 = [] /\ l = received rest ++ map dual (only q L)).
        { destruct P2 as [(Q1 & Q2)|(Q1 & Q2)]; [|rewrite Q1 in T; discriminate]. destruct (chan s 0 q) as [|(ty & my) lq]; [discriminate|]. cbn in Q2. injection Q2 as -> -> Q2. rewrite take_head in T. injection T as <- <-. auto. }
        destruct Q as (Q1 & -> & Q3 & Q4). exists L, (set_list B q l). split.
        * split; [exact I0|]. split; [cbn [prog]; rewrite set_prog_other by lia; exact I1|]. split; [|split; [|split]].
          -- intros x Hx. cbn [prog chan]. rewrite (set_chan_other _ 0 q _ x 0) by lia. destruct (Nat.eq_dec x q) as [->|Nx].
             ++ rewrite set_prog_same, set_list_same, set_chan_same. split; [exact P'|]. left. auto.
             ++ rewrite set_prog_other, set_list_other, set_chan_other by lia. auto.
          -- intros x Hx. cbn [prog]. rewrite set_prog_other by lia. auto.
          -- intros a b Ha Hb. cbn [chan]. rewrite set_chan_other by (left; auto). auto.
          -- cbn [chan]. rewrite set_chan_other by (right; lia). auto.
        * unfold work. assert (U : upto (fun x => length (B x)) n = S (upto (fun x => length (set_list B q l x)) n)); [|lia].
          apply (upto_less _ _ _ q); [lia|rewrite set_list_same, EB; reflexivity|]. intros x _ Nx. now rewrite set_list_other.
    - destruct (Nat.eq_dec p 0) as [->|Np].
      + (* from the root *)
        destruct L as [|(x & a) L]; cbn in I1; [congruence|]. destruct a as [t' m'|t' m']; destruct I1 as (k1 & E' & P'); [|congruence]. rewrite E1 in E'. injection E' as -> -> -> ->.
        assert (Hx : 1 <= x <= n) by (eapply I0; left; reflexivity). destruct (I2 x Hx) as (P1 & P2). rewrite only_same in P2.
        destruct (B x) as [|b l] eqn:EB; cbn in P1; [congruence|]. destruct b as [tb mb|tb mb]; destruct P1 as (kb & E3 & Pb); [congruence|]. rewrite E2 in E3. injection E3 as <- <-.
        assert (Q : chan s 0 x = [] /\ chan s x 0 = [] /\ mb = m' /\ l = map dual (only x L)).
        { destruct P2 as [(Q1 & Q2)|(Q1 & Q2)].
          - destruct (chan s 0 x) as [|(ty & my) lq]; cbn in Q2; [injection Q2 as -> ->; auto|]. injection Q2 as <- <- Q2. cbn in T. rewrite Nat.eqb_refl in T. discriminate.
          - destruct (chan s x 0); cbn in Q2; [|discriminate]. injection Q2 as -> Q2. rewrite Q2, dual_dual. auto. }
        destruct Q as (Q1 & Q2 & -> & Q4). exists L, (set_list B x l). split.
        * split; [intros; eapply I0; right; eassumption|]. split; [cbn [prog]; rewrite set_prog_other by lia; rewrite set_prog_same; exact P'|]. split; [|split; [|split]]; cbn [prog chan]; auto.
          -- intros y Hy. destruct (Nat.eq_dec y x) as [->|Ny].
             ++ rewrite set_prog_same, set_list_same. split; [exact Pb|]. left. rewrite Q1. cbn. auto.
             ++ rewrite !set_prog_other, set_list_other by lia. destruct (I2 y Hy) as (R1 & R2). rewrite only_other in R2 by auto. auto.
          -- intros y Hy. rewrite !set_prog_other by lia. auto.
        * unfold work. cbn [length]. assert (U : upto (fun x => length (B x)) n = S (upto (fun y => length (set_list B x l y)) n)); [|lia].
          apply (upto_less _ _ _ x); [lia|rewrite set_list_same, EB; reflexivity|]. intros y _ Ny. now rewrite set_list_other.
      + (* to the root *)
        destruct (Nat.le_gt_cases p n) as [Hp|Hp]; [|rewrite (I3 p Hp) in E1; discriminate].
        destruct (I2 p ltac:(lia)) as (P1 & P2). destruct (B p) as [|a l] eqn:EB; cbn in P1; [congruence|].
        destruct a as [t' m'|t' m']; destruct P1 as (k1 & E' & P'); [|congruence]. rewrite E1 in E'. injection E' as -> -> -> ->.
        destruct L as [|(x & b) L]; cbn in I1; [congruence|]. destruct b as [tb mb|tb mb]; destruct I1 as (kb & E3 & Pb); [congruence|]. rewrite E2 in E3. injection E3 as -> -> ->. rewrite only_same in P2.
        assert (Q : chan s 0 x = [] /\ chan s x 0 = [] /\ mb = m' /\ only x L = map dual l).
        { destruct P2 as [(Q1 & Q2)|(Q1 & Q2)].
          - destruct (chan s 0 x); cbn in Q2; [|discriminate]. injection Q2 as -> Q2. rewrite Q2, dual_dual. auto.
          - destruct (chan s x 0) as [|(ty & my) lq]; cbn in Q2; [injection Q2 as -> Q2; auto|]. injection Q2 as <- <- Q2. cbn in T. rewrite Nat.eqb_refl in T. discriminate. }
        destruct Q as (Q1 & Q2 & -> & Q4). exists L, (set_list B x l). split.
        * split; [intros; eapply I0; right; eassumption|]. split; [cbn [prog]; rewrite set_prog_same; exact Pb|]. split; [|split; [|split]]; cbn [prog chan]; auto.
          -- intros y Hy. destruct (Nat.eq_dec y x) as [->|Ny].
             ++ rewrite set_prog_other by lia. rewrite set_prog_same, set_list_same. split; [exact P'|]. right. rewrite Q2. cbn. auto.
             ++ rewrite !set_prog_other, set_list_other by lia. destruct (I2 y Hy) as (R1 & R2). rewrite only_other in R2 by auto. auto.
          -- intros y Hy. rewrite !set_prog_other by lia. auto.
        * unfold work. cbn [length]. assert (U : upto (fun x => length (B x)) n = S (upto (fun y => length (set_list B x l y)) n)); [|lia].
          apply (upto_less _ _ _ x); [lia|rewrite set_list_same, EB; reflexivity|]. intros y _ Ny. now rewrite set_list_other.
  Qed.

  (** Unless all is over, some message can be delivered. *)
  Lemma progress L B s : Inv L B s -> (exists s', delivery s s') \/ (L = [] /\ forall p, 1 <= p <= n -> B p = [] /\ chan s 0 p = [] /\ chan s p 0 = []).
  Proof.
    intros (I0 & I1 & I2 & I3 & I4 & I5). destruct L as [|(p & a) L].
    - (* the root is done *)
      assert (D : forall m, m <= n -> (exists s', delivery s s') \/ forall p, 1 <= p <= m -> B p = [] /\ chan s 0 p = [] /\ chan s p 0 = []).
      { induction m as [|m IH]; intros M; [right; intros; lia|]. destruct (IH ltac:(lia)) as [H|H]; [now left|]. destruct (I2 (S m) ltac:(lia)) as (P1 & P2).
        destruct (B (S m)) as [|b l] eqn:EB.
        - right. intros p Hp. destruct (Nat.eq_dec p (S m)) as [->|Np]; [|apply H; lia]. split; [exact EB|].
          destruct P2 as [(Q1 & Q2)|(Q1 & Q2)]; [destruct (chan s 0 (S m)); [auto|discriminate]|destruct (chan s (S m) 0); [auto|discriminate]].
        - left. destruct P2 as [(Q1 & Q2)|(Q1 & Q2)].
          + destruct (chan s 0 (S m)) as [|(t & mm) q] eqn:EC; [discriminate|]. cbn in Q2. injection Q2 as -> ->. cbn in P1. destruct P1 as (k & E & _).
            eexists. eapply from_channel; [exact E|]. rewrite EC. apply take_head.
          + destruct (chan s (S m) 0); cbn in Q2; discriminate. }
      destruct (D n ltac:(lia)) as [H|H]; [now left|right; auto].
    - left. assert (Hp : 1 <= p <= n) by (eapply I0; left; reflexivity). destruct (I2 p Hp) as (P1 & P2). rewrite only_same in P2. cbn in I1. destruct a as [t m|t m]; destruct I1 as (k & E & Pk).
      + (* the root sends *)
        assert (QQ : chan s p 0 = [] /\ B p = received (chan s 0 p) ++ map dual (S_ t m :: only p L)).
        { destruct P2 as [(Q1 & Q2)|(Q1 & Q2)]; [auto|]. destruct (chan s p 0); cbn in Q2; [|discriminate]. split; [reflexivity|]. rewrite Q1, Q2, dual_dual. reflexivity. }
        destruct QQ as (Q1 & Q2). destruct (chan s 0 p) as [|(t' & m') q] eqn:EC.
        * cbn in Q2. rewrite Q2 in P1. cbn in P1. destruct P1 as (k' & E' & _). eexists. eapply hand_over; [exact E|exact E'|]. rewrite EC. reflexivity.
        * cbn in Q2. rewrite Q2 in P1. cbn in P1. destruct P1 as (k' & E' & _). eexists. eapply from_channel; [exact E'|]. rewrite EC. apply take_head.
      + (* the root receives *)
        destruct P2 as [(Q1 & Q2)|(Q1 & Q2)].
        * destruct (chan s 0 p) as [|(t' & m') q] eqn:EC; cbn in Q2; rewrite Q2 in P1; cbn in P1; destruct P1 as (k' & E' & _).
          -- eexists. eapply hand_over; [exact E'|exact E|]. rewrite Q1. reflexivity.
          -- eexists. eapply from_channel; [exact E'|]. rewrite EC. apply take_head.
        * destruct (chan s p 0) as [|(t' & m') q] eqn:EC; cbn in Q2.
          -- destruct (B p) as [|b l]; [discriminate|]. cbn in Q2. injection Q2 as Qb Ql. destruct b as [tb mb|tb mb]; cbn in Qb; [|discriminate]. injection Qb as <- <-. cbn in P1. destruct P1 as (k' & E' & _).
             eexists. eapply hand_over; [exact E'|exact E|]. rewrite EC. reflexivity.
          -- injection Q2 as -> -> Q2. eexists. eapply from_channel; [exact E|]. rewrite EC. apply take_head.
  Qed.
  End Inv.

  (** ** This protocol *)
  Definition consistent (d : grid_data N) : Prop :=
    0 < gd_num d /\ length (gd_ids d) <= gd_num d /\ length (gd_points d) <= gd_num d /\ length (gd_volumes d) <= gd_num d /\
    length (gd_list d) <= gd_size d /\ length (gd_ptr d) <= gd_num d.

  Definition talk (d : grid_data N) : list act :=
    [S_ 1 (MCount (gd_num d)); R_ 0 MAck; S_ 4 (MGlobal (gd_global d)); S_ 5 (MSize (gd_size d)); S_ 2 (MIds (gd_ids d)); S_ 3 (MPoints (gd_points d));
     S_ 7 (MVolumes (gd_volumes d)); S_ 6 (MList (gd_list d)); S_ 8 (MPtr (gd_ptr d))].
  Fixpoint all_talk (p : nat) (ds : list (grid_data N)) : list (nat * act) :=
    match ds with [] => [] | d :: ds' => map (fun a => (p, a)) (talk d) ++ all_talk (S p) ds' end.
  Fixpoint acks (m p : nat) : list (nat * act) := match m with O => [] | S m' => (p, S_ 0 MAck) :: acks m' (S p) end.

  Lemma plays_app_shares r : forall ds p k l, plays k l r -> plays (send_shares p ds k) (all_talk p ds ++ l) r.
  Proof.
    induction ds as [|d ds IH]; intros p k l H; [exact H|]. cbn [send_shares all_talk talk map app plays].
    repeat (eexists; split; [reflexivity|]). apply IH, H.
  Qed.
  Lemma plays_acks r : forall m p k l, plays k l r -> plays (send_acks m p k) (acks m p ++ l) r.
  Proof. induction m as [|m IH]; intros p k l H; [exact H|]. cbn. eexists. split; [reflexivity|]. apply IH, H. Qed.

  Lemma worker_plays d : consistent d -> plays worker (with_root (map dual (talk d ++ [S_ 0 MAck]))) (Some d).
  Proof.
    intros (C0 & C1 & C2 & C3 & C4 & C5). unfold with_root. cbn [talk app map dual plays]. unfold worker.
    eexists; split; [reflexivity|]. cbv beta iota. destruct (Nat.ltb_spec 0 (gd_num d)) as [_|?]; [|lia]. cbv beta iota.
    assert (F : forall A (l : list A) m (k : program), length l <= m -> fits l m k = k).
    { intros A l m k H. unfold fits. destruct (Nat.leb_spec (length l) m); [reflexivity|lia]. }
    do 4 (eexists; split; [reflexivity|]; cbv beta iota). rewrite F by assumption.
    eexists; split; [reflexivity|]; cbv beta iota. rewrite F by assumption.
    eexists; split; [reflexivity|]; cbv beta iota. rewrite F by assumption.
    eexists; split; [reflexivity|]; cbv beta iota. rewrite F by assumption.
    eexists; split; [reflexivity|]; cbv beta iota. rewrite F by assumption.
    eexists; split; [reflexivity|]; cbv beta iota. destruct d; reflexivity.
  Qed.

  Lemma only_app p l l' : only p (l ++ l') = only p l ++ only p l'.
  Proof. unfold only. now rewrite filter_app, map_app. Qed.
  Lemma only_talk p q d : only q (map (fun a => (p, a)) (talk d)) = if Nat.eqb p q then talk d else [].
  Proof. unfold only. cbn. destruct (Nat.eqb p q); reflexivity. Qed.
  Lemma only_all_talk : forall ds p q d, nth_error ds (q - p) = Some d -> p <= q -> only q (all_talk p ds) = talk d.
  Proof.
    induction ds as [|d0 ds IH]; intros p q d H L; [destruct (q - p); discriminate|]. cbn [all_talk]. rewrite only_app, only_talk. destruct (Nat.eqb_spec p q) as [->|Npq].
    - rewrite Nat.sub_diag in H. injection H as ->. assert (E : forall ds p, q < p -> only q (all_talk p ds) = []).
      { clear. induction ds as [|d ds IH]; intros p H; [reflexivity|]. cbn [all_talk]. rewrite only_app, only_talk, IH by lia. destruct (Nat.eqb_spec p q); [lia|reflexivity]. }
      rewrite E by lia. apply app_nil_r.
    - cbn [app]. apply IH; [|lia]. replace (q - p) with (S (q - S p)) in H by lia. exact H.
  Qed.
  Lemma only_acks : forall m p q, p <= q < p + m -> only q (acks m p) = [S_ 0 MAck].
  Proof.
    assert (E : forall m p q, q < p -> only q (acks m p) = []).
    { induction m as [|m IH]; intros p q H; [reflexivity|]. cbn [acks]. rewrite only_other by lia. apply IH. lia. }
    induction m as [|m IH]; intros p q H; [lia|]. cbn [acks]. destruct (Nat.eq_dec q p) as [->|Nq]; [rewrite only_same, E by lia; reflexivity|]. rewrite only_other by lia. apply IH. lia.
  Qed.
  Lemma in_talk : forall ds p x a, In (x, a) (all_talk p ds) -> p <= x < p + length ds.
  Proof.
    induction ds as [|d ds IH]; intros p x a H; [destruct H|]. cbn [all_talk] in H. apply in_app_or in H as [H|H].
    - apply in_map_iff in H as (b & E & _). injection E as -> ->. cbn. lia.
    - apply IH in H. cbn. lia.
  Qed.
  Lemma in_acks : forall m p x a, In (x, a) (acks m p) -> p <= x < p + m.
  Proof. induction m as [|m IH]; intros p x a H; [destruct H|]. cbn in H. destruct H as [E|H]; [injection E as -> _; lia|]. apply IH in H. lia. Qed.

  Definition result (first : grid_data N) (rest : list (grid_data N)) (p : nat) : option (grid_data N) := nth_error (first :: rest) p.
  Definition session (rest : list (grid_data N)) (p : nat) : list act := match nth_error rest (p - 1) with Some d => map dual (talk d ++ [S_ 0 MAck]) | None => [] end.

  Lemma start_inv first rest : (forall d, In d rest -> consistent d) ->
    Inv (length rest) (result first rest) (all_talk 1 rest ++ acks (length rest) 1) (session rest) (start first rest).
  Proof.
    intros H. split; [|split; [|split; [|split; [|split]]]].
    - intros p a I. apply in_app_or in I as [I|I]; [apply in_talk in I|apply in_acks in I]; lia.
    - change (prog (start first rest) 0) with (root first rest). unfold root. apply plays_app_shares. rewrite <- (app_nil_r (acks (length rest) 1)). apply plays_acks. reflexivity.
    - intros p Hp. cbn [start prog chan]. destruct (Nat.eqb_spec p 0) as [?|_]; [lia|]. destruct (Nat.leb_spec p (length rest)); [|lia].
      destruct (nth_error rest (p - 1)) as [d|] eqn:E; [|apply nth_error_None in E; lia]. unfold session. rewrite E. split.
      + unfold result. replace p with (S (p - 1)) by lia. cbn [nth_error]. rewrite E. apply worker_plays, H. eapply nth_error_In; eassumption.
      + left. split; [reflexivity|]. cbn [received map app]. rewrite only_app, (only_all_talk rest 1 p d E), only_acks by lia. reflexivity.
    - intros p Hp. cbn [start prog]. destruct (Nat.eqb_spec p 0); [lia|]. destruct (Nat.leb_spec p (length rest)); [lia|reflexivity].
    - reflexivity.
    - reflexivity.
  Qed.

  Lemma steps_inv n r L B s k s' : Inv n r L B s -> steps k s s' -> exists L' B', Inv n r L' B' s' /\ work n L' B' + k <= work n L B.
  Proof.
    intros I H. induction H as [s|k s s1 s2 H IH St]; [exists L, B; split; [exact I|lia]|]. destruct (IH I) as (L1 & B1 & I1 & W1).
    destruct St as [D|D]; [destruct (delivery_inv n r L1 B1 s1 s2 I1 D) as (L2 & B2 & I2 & W2)|destruct (buffering_inv n r L1 B1 s1 s2 I1 D) as (L2 & B2 & I2 & W2)]; exists L2, B2; split; auto; lia.
  Qed.

  Lemma work_start rest : work (length rest) (all_talk 1 rest ++ acks (length rest) 1) (session rest) = 20 * length rest.
  Proof.
    unfold work. rewrite app_length. assert (A : forall ds p, length (all_talk p ds) = 9 * length ds) by (induction ds as [|d ds IH]; intros p; [reflexivity|]; cbn [all_talk]; rewrite app_length, IH; cbn; lia).
    assert (B : forall m p, length (acks m p) = m) by (induction m as [|m IH]; intros p; cbn; [reflexivity|now rewrite IH]).
    assert (C : forall m, m <= length rest -> upto (fun p => length (session rest p)) m = 10 * m).
    { induction m as [|m IH]; intros M; [reflexivity|]. cbn [upto]. rewrite IH by lia. assert (E : length (session rest (S m)) = 10); [|lia]. unfold session. cbn [Nat.sub]. rewrite Nat.sub_0_r.
      destruct (nth_error rest m) eqn:E; [reflexivity|]. apply nth_error_None in E. lia. }
    rewrite A, B, C by lia. lia.
  Qed.
End Proofs.
