(** * Distribution of the mesh: an empty share blocks processor 0 when sends wait *)
From Coq Require Import Lia.
From Verif Require Import Base Num ModelGrid ModelDistribute ProofDistribute.

Section Blocked.
  Context {N : Num}.
  Notation system := (system N).

  Definition quiet (s : system) : Prop := forall a b, chan s a b = [].
  Definition reaches (s s' : system) : Prop := exists n, steps n s s'.

  Lemma reaches_refl s : reaches s s. Proof. exists 0. constructor. Qed.
  Lemma reaches_step s s1 s2 : reaches s s1 -> delivery s1 s2 -> reaches s s2.
  Proof. intros (n & H) D. exists (S n). econstructor; [exact H|]. now left. Qed.

  Lemma hands (s0 s : system) p q t m k' k : reaches s0 s -> quiet s -> p <> q -> prog s p = Send q t m k' -> prog s q = Recv p t k ->
    exists s', reaches s0 s' /\ quiet s' /\ prog s' p = k' /\ prog s' q = k m /\ forall x, x <> p -> x <> q -> prog s' x = prog s x.
  Proof.
    intros R Q Npq E1 E2. exists {| prog := set_prog (set_prog (prog s) p k') q (k m); chan := chan s |}. split; [|split; [|split; [|split]]].
    - eapply reaches_step; [exact R|]. eapply hand_over; [exact E1|exact E2|]. rewrite Q. reflexivity.
    - exact Q.
    - cbn. rewrite set_prog_other by auto. apply set_prog_same.
    - cbn. apply set_prog_same.
    - intros x X1 X2. cbn. rewrite !set_prog_other by auto. reflexivity.
  Qed.

  Definition waits (c : program N) : Prop := exists k, c = Recv 0 0 k.

  Lemma one_share (s0 s : system) p d ds k : 0 < p -> consistent d -> reaches s0 s -> quiet s -> prog s 0 = send_shares p (d :: ds) k -> prog s p = worker ->
    exists s', reaches s0 s' /\ quiet s' /\ prog s' 0 = send_shares (S p) ds k /\ waits (prog s' p) /\ forall x, x <> 0 -> x <> p -> prog s' x = prog s x.
  Proof.
    intros P (C0 & C1 & C2 & C3 & C4 & C5) R Q E1 E2. cbn [send_shares] in E1. unfold worker in E2.
    assert (F : forall A (l : list A) m (c : program N), length l <= m -> fits l m c = c).
    { intros A l m c H. unfold fits. destruct (Nat.leb_spec (length l) m); [reflexivity|lia]. }
    destruct (hands s0 s 0 p _ _ _ _ R Q ltac:(lia) E1 E2) as (s1 & R1 & Q1 & A1 & B1 & O1). cbv beta iota in B1. destruct (Nat.ltb_spec 0 (gd_num d)) as [_|?]; [|lia].
    destruct (hands s0 s1 p 0 _ _ _ _ R1 Q1 ltac:(lia) B1 A1) as (s2 & R2 & Q2 & B2 & A2 & O2).
    destruct (hands s0 s2 0 p _ _ _ _ R2 Q2 ltac:(lia) A2 B2) as (s3 & R3 & Q3 & A3 & B3 & O3).
    destruct (hands s0 s3 0 p _ _ _ _ R3 Q3 ltac:(lia) A3 B3) as (s4 & R4 & Q4 & A4 & B4 & O4).
    destruct (hands s0 s4 0 p _ _ _ _ R4 Q4 ltac:(lia) A4 B4) as (s5 & R5 & Q5 & A5 & B5 & O5). rewrite F in B5 by assumption.
    destruct (hands s0 s5 0 p _ _ _ _ R5 Q5 ltac:(lia) A5 B5) as (s6 & R6 & Q6 & A6 & B6 & O6). rewrite F in B6 by assumption.
    destruct (hands s0 s6 0 p _ _ _ _ R6 Q6 ltac:(lia) A6 B6) as (s7 & R7 & Q7 & A7 & B7 & O7). rewrite F in B7 by assumption.
    destruct (hands s0 s7 0 p _ _ _ _ R7 Q7 ltac:(lia) A7 B7) as (s8 & R8 & Q8 & A8 & B8 & O8). rewrite F in B8 by assumption.
    destruct (hands s0 s8 0 p _ _ _ _ R8 Q8 ltac:(lia) A8 B8) as (s9 & R9 & Q9 & A9 & B9 & O9). rewrite F in B9 by assumption.
    exists s9. split; [exact R9|]. split; [exact Q9|]. split; [exact A9|]. split; [eexists; exact B9|].
    intros x X1 X2. rewrite O9, O8, O7, O6, O5, O4, O3, O2, O1 by auto. reflexivity.
  Qed.

  Lemma some_shares (s0 : system) k rest : forall before p s, 0 < p -> (forall d, In d before -> consistent d) -> reaches s0 s -> quiet s ->
    prog s 0 = send_shares p (before ++ rest) k -> (forall q, p <= q < p + length before -> prog s q = worker) ->
    exists s', reaches s0 s' /\ quiet s' /\ prog s' 0 = send_shares (p + length before) rest k /\
      (forall q, p <= q < p + length before -> waits (prog s' q)) /\ (forall q, q <> 0 -> (q < p \/ p + length before <= q) -> prog s' q = prog s q).
  Proof.
    induction before as [|d before IH]; intros p s P C R Q E W.
    - exists s. rewrite Nat.add_0_r. repeat split; auto. intros q H. cbn in H. lia.
    - cbn [app] in E. destruct (one_share s0 s p d (before ++ rest) k P (C d (or_introl eq_refl)) R Q E) as (s1 & R1 & Q1 & A1 & W1 & O1); [apply W; cbn; lia|].
      destruct (IH (S p) s1) as (s2 & R2 & Q2 & A2 & W2 & O2); auto; [intros; apply C; now right| |].
      + intros q H. rewrite O1 by lia. apply W. cbn. lia.
      + exists s2. split; [exact R2|]. split; [exact Q2|]. split; [cbn [length]; rewrite A2; f_equal; lia|]. cbn [length]. split.
        * intros q H. destruct (Nat.eq_dec q p) as [->|Nq]; [rewrite O2 by lia; exact W1|apply W2; lia].
        * intros q N0 H. rewrite O2 by lia. apply O1; lia.
  Qed.

  Theorem blocked first before d after : (forall x, In x before -> consistent x) -> gd_num d = 0 ->
    exists s, reaches (start first (before ++ d :: after)) s /\ (forall s', ~ delivery s s') /\ (exists q t m k, prog s 0 = Send q t m k).
  Proof.
    intros C Z. set (s0 := start first (before ++ d :: after)). set (b := length before). set (kk := send_acks (length (before ++ d :: after)) 1 (Done (Some first))).
    assert (Ln : length (before ++ d :: after) = b + S (length after)) by (rewrite app_length; reflexivity).
    assert (W0 : forall q, 1 <= q <= b + S (length after) -> prog s0 q = worker).
    { intros q H. cbn [s0 start prog]. destruct (Nat.eqb_spec q 0); [lia|]. rewrite Ln. destruct (Nat.leb_spec q (b + S (length after))); [reflexivity|lia]. }
    destruct (some_shares s0 kk (d :: after) before 1 s0) as (s1 & R1 & Q1 & A1 & W1 & O1); auto; [apply reaches_refl|intros a c; reflexivity|intros q H; apply W0; fold b in H; lia|].
    fold b in A1, W1, O1. set (p := 1 + b) in *.
    cbn [send_shares] in A1. assert (B1 : prog s1 p = worker) by (rewrite O1 by lia; apply W0; lia). unfold worker in B1.
    destruct (hands s0 s1 0 p _ _ _ _ R1 Q1 ltac:(lia) A1 B1) as (s2 & R2 & Q2 & A2 & B2 & O2). cbv beta iota in B2. rewrite Z in B2. cbn [Nat.ltb Nat.leb] in B2.
    destruct (hands s0 s2 p 0 _ _ _ _ R2 Q2 ltac:(lia) B2 A2) as (s3 & R3 & Q3 & B3 & A3 & O3). cbv beta in A3.
    exists s3. split; [exact R3|]. split; [|eexists _, _, _, _; exact A3].
    (* what every other processor is at *)
    assert (V : forall q, q <> 0 -> (exists k, prog s3 q = Recv 0 0 k) \/ (exists k, prog s3 q = Recv 0 1 k) \/ prog s3 q = Done None).
    { intros q Nq. destruct (Nat.eq_dec q p) as [->|Np]; [left; eexists; exact B3|]. rewrite O3, O2 by auto.
      destruct (Nat.lt_ge_cases q p) as [H|H]; [left; apply W1; lia|]. rewrite O1 by lia. cbn [s0 start prog]. destruct (Nat.eqb_spec q 0); [lia|]. destruct (_ <=? _); [right; left; eexists; reflexivity|right; right; reflexivity]. }
    intros s' D. inversion D as [s p' q t k m r E T|s p' q t k m k' E E' T]; subst s.
    - rewrite Q3 in T. discriminate.
    - destruct (Nat.eq_dec p' 0) as [->|Np].
      + rewrite A3 in E. injection E as <- <- _ _. rewrite B3 in E'. discriminate.
      + destruct (V p' Np) as [(k0 & X)|[(k0 & X)|X]]; rewrite X in E; discriminate.
  Qed.
End Blocked.
