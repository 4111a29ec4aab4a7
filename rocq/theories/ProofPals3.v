From Coq Require Import Bool Reals Lra Lia.
From Verif Require Import Base Num ModelNeigh ModelForce ModelGlobal ModelTangent ModelPals SpecForce SpecPals ProofData ProofCorr ProofEnergy2 ProofPals.

Section System.
  Local Open Scope R_scope.
  Local Notation vec := (V3 RN).
  Definition ent (k : list (list R)) (i j : nat) : R := nth j (nth i k []) 0.
  Definition wf6 (k : list (list R)) : Prop := length k = 6%nat /\ forall i, (i < 6)%nat -> length (nth i k []) = 6%nat.
  Definition sum6 (F : nat -> R) : R := F 0%nat + F 1%nat + F 2%nat + F 3%nat + F 4%nat + F 5%nat.
  Lemma sum6_ext : forall F G, (forall i, (i < 6)%nat -> F i = G i) -> sum6 F = sum6 G.
  Proof. intros F G H. unfold sum6. rewrite !H by rlia. reflexivity. Qed.
  Lemma dots_sum6 : forall a b, length a = 6%nat -> length b = 6%nat -> dots a b = sum6 (fun i => nth i a 0 * nth i b 0).
  Proof.
    intros a b La Lb. destruct (six a La) as (a0 & a1 & a2 & a3 & a4 & a5 & ->). destruct (six b Lb) as (b0 & b1 & b2 & b3 & b4 & b5 & ->).
    unfold sum6. cbn [dots nth]. ring.
  Qed.
  Lemma zip_nth : forall A (f : A -> A -> A) a b i d, (i < length a)%nat -> (i < length b)%nat ->
    nth i (zip_with f a b) d = f (nth i a d) (nth i b d).
  Proof.
    intros A f. induction a as [|p a IH]; intros b i d Ha Hb; cbn in Ha; [lia|]. destruct b as [|q b]; cbn in Hb; [lia|].
    destruct i; cbn; [reflexivity|]. apply IH; lia.
  Qed.
  Lemma zip_length : forall A (f : A -> A -> A) a b, length a = length b -> length (zip_with f a b) = length a.
  Proof. intros A f. induction a as [|p a IH]; intros [|q b] H; cbn in *; try lia. f_equal. apply IH. lia. Qed.
  Lemma numbered_nth : forall A B (f : nat * A -> B) (l : list A) i d e, (i < length l)%nat -> nth i (map f (numbered l)) d = f (i, nth i l e).
  Proof.
    intros A B f l i d e H. unfold numbered. assert (L : length (combine (seq 0 (length l)) l) = length l) by (rewrite combine_length, seq_length; lia).
    rewrite (nth_indep _ d (f (0%nat, e))) by (rewrite map_length, L; exact H). rewrite map_nth. f_equal.
    rewrite combine_nth by apply seq_length. rewrite seq_nth by exact H. reflexivity.
  Qed.
  Lemma numbered_len : forall A (l : list A), length (numbered l) = length l.
  Proof. intros. unfold numbered. rewrite combine_length, seq_length. lia. Qed.
  Lemma ent_madd : forall a b i j, wf6 a -> wf6 b -> (i < 6)%nat -> (j < 6)%nat -> ent (madd (N:=RN) a b) i j = ent a i j + ent b i j.
  Proof.
    intros a b i j [La Ra] [Lb Rb] Hi Hj. unfold ent, madd. rewrite (zip_nth _ _ a b i []) by rlia.
    apply (zip_nth _ _ (nth i a []) (nth i b []) j 0); [rewrite (Ra i Hi)|rewrite (Rb i Hi)]; exact Hj.
  Qed.
  Lemma wf_madd : forall a b, wf6 a -> wf6 b -> wf6 (madd (N:=RN) a b).
  Proof.
    intros a b [La Ra] [Lb Rb]. split; [unfold madd; rewrite zip_length; rlia|]. intros i Hi. unfold madd.
    rewrite (zip_nth _ _ a b i []) by rlia. etransitivity; [apply zip_length; rewrite Ra, Rb by exact Hi; reflexivity|auto].
  Qed.
  Lemma wf_outer : forall e vol, length e = 6%nat -> wf6 (outer (N:=RN) e vol).
  Proof.
    intros e vol L. destruct (six e L) as (a0 & a1 & a2 & a3 & a4 & a5 & ->). split; [reflexivity|].
    intros i Hi. do 6 (destruct i as [|i]; [reflexivity|]). lia.
  Qed.
  Lemma ent_outer : forall e vol i j, length e = 6%nat -> (i < 6)%nat -> (j < 6)%nat -> ent (outer (N:=RN) e vol) i j = nth i e 0 * nth j e 0 * vol.
  Proof.
    intros e vol i j L Hi Hj. unfold ent, outer.
    rewrite (nth_indep _ [] (map (fun ej : T RN => mul (n:=RN) (mul (n:=RN) 0 ej) vol) e)) by (rewrite map_length; rewrite L; exact Hi).
    rewrite (map_nth (fun ei : T RN => map (fun ej => mul (n:=RN) (mul (n:=RN) ei ej) vol) e) e 0 i).
    rewrite (nth_indep _ 0 (mul (n:=RN) (mul (n:=RN) (nth i e 0) 0) vol)) by (rewrite map_length; rewrite L; exact Hj).
    exact (map_nth (fun ej : T RN => mul (n:=RN) (mul (n:=RN) (nth i e 0) ej) vol) e 0 j).
  Qed.
  Lemma ent_unit : forall i k r c, wf6 k -> (r < 6)%nat -> (c < 6)%nat ->
    ent (unit_row (N:=RN) i k) r c = if Nat.eqb r i then (if Nat.eqb c i then 1 else 0) else if Nat.eqb c i then 0 else ent k r c.
  Proof.
    intros i k r c [L W] Hr Hc. unfold ent, unit_row. rewrite (numbered_nth _ _ _ k r [] []) by (rewrite L; exact Hr). cbn [fst snd].
    rewrite (numbered_nth _ _ _ (nth r k []) c 0 0) by (rewrite (W r Hr); exact Hc). cbn [fst snd]. reflexivity.
  Qed.
  Lemma wf_unit : forall i k, wf6 k -> wf6 (unit_row (N:=RN) i k).
  Proof.
    intros i k [L W]. split; [unfold unit_row; rewrite map_length, numbered_len; exact L|]. intros r Hr. unfold unit_row.
    rewrite (numbered_nth _ _ _ k r [] []) by (rewrite L; exact Hr). cbn [fst snd]. rewrite map_length, numbered_len. apply W, Hr.
  Qed.
  Lemma nth_zero_at : forall i (l : list R) r, (r < length l)%nat -> nth r (zero_at (N:=RN) i l) 0 = if Nat.eqb r i then 0 else nth r l 0.
  Proof. intros i l r H. unfold zero_at. rewrite (numbered_nth _ _ _ l r 0 0) by exact H. reflexivity. Qed.
  Lemma zero_at_len : forall i (l : list R), length (zero_at (N:=RN) i l) = length l.
  Proof. intros. unfold zero_at. now rewrite map_length, numbered_len. Qed.

  Definition wfs (s : system (N:=RN)) : Prop := wf6 (s_k s) /\ wf6 (s_kdev s) /\ length (s_dil s) = 6%nat /\ length (s_dev s) = 6%nat.
  Definition delta (r c : nat) : R := if Nat.eqb r c then 1 else 0.
  Lemma drop_fold : forall (dd : nat -> bool) l s, wfs s ->
    let s' := fold_left (fun t i => if dd i then drop_probe (N:=RN) t i else t) l s in
    let gone r := existsb (Nat.eqb r) l && dd r in
    wfs s' /\ forall r c, (r < 6)%nat -> (c < 6)%nat ->
      ent (s_k s') r c = (if gone r || gone c then delta r c else ent (s_k s) r c) /\
      ent (s_kdev s') r c = (if gone r || gone c then delta r c else ent (s_kdev s) r c) /\
      nth r (s_dil s') 0 = (if gone r then 0 else nth r (s_dil s) 0) /\ nth r (s_dev s') 0 = (if gone r then 0 else nth r (s_dev s) 0).
  Proof.
    intros dd. induction l as [|i l IH]; intros s Hw; cbv zeta; cbn [fold_left existsb andb orb].
    - split; [exact Hw|]. intros; repeat split; reflexivity.
    - destruct (dd i) eqn:Ed.
      + assert (Hw' : wfs (drop_probe (N:=RN) s i)).
        { destruct Hw as (W1 & W2 & W3 & W4). unfold drop_probe. repeat split; cbn [s_k s_kdev s_dil s_dev]; try apply wf_unit; auto; rewrite zero_at_len; auto. }
        destruct (IH _ Hw') as [G1 G2]. split; [exact G1|]. intros r c Hr Hc. specialize (G2 r c Hr Hc). cbv zeta in G2. destruct G2 as (A1 & A2 & A3 & A4).
        destruct Hw as (W1 & W2 & W3 & W4). rewrite A1, A2, A3, A4. unfold drop_probe. cbn [s_k s_kdev s_dil s_dev].
        rewrite !ent_unit by assumption. rewrite !nth_zero_at by rlia. unfold delta.
        destruct (Nat.eqb_spec r i) as [->|N1]; destruct (Nat.eqb_spec c i) as [->|N2]; cbn [orb andb]; rewrite ?Ed, ?Nat.eqb_refl; cbn [orb andb];
          try (destruct (existsb (Nat.eqb i) l); cbn [orb andb]);
          rewrite ?(proj2 (Nat.eqb_neq i c)), ?(proj2 (Nat.eqb_neq r i)) by auto;
          rewrite ?orb_true_r, ?orb_false_r;
          repeat split; repeat match goal with |- context [if ?b then _ else _] => destruct b end; reflexivity.
      + destruct (IH _ Hw) as [G1 G2]. split; [exact G1|]. intros r c Hr Hc. specialize (G2 r c Hr Hc). cbv zeta in G2. destruct G2 as (A1 & A2 & A3 & A4).
        rewrite A1, A2, A3, A4.
        destruct (Nat.eqb_spec r i) as [->|N1]; destruct (Nat.eqb_spec c i) as [->|N2]; cbn [orb andb]; rewrite ?Ed, ?andb_false_r; cbn [orb andb]; repeat split; reflexivity.
  Qed.

  (** the sums over the bonds *)
  Lemma bsum_ext : forall f g X x v js, (forall d, f d = g d) -> bond_sum f X x v js = bond_sum g X x v js.
  Proof. intros f g X x v js H. unfold bond_sum. induction js as [|j js IH]; cbn [fold_right]; [reflexivity|]. now rewrite IH, H. Qed.
  Lemma bsum_plus : forall f g X x v js, bond_sum (fun d => f d + g d) X x v js = bond_sum f X x v js + bond_sum g X x v js.
  Proof. intros f g X x v js. unfold bond_sum. induction js as [|j js IH]; cbn [fold_right]; [ring|]. rewrite IH. ring. Qed.
  Lemma bsum_scal : forall a f X x v js, bond_sum (fun d => a * f d) X x v js = a * bond_sum f X x v js.
  Proof. intros a f X x v js. unfold bond_sum. induction js as [|j js IH]; cbn [fold_right]; [ring|]. rewrite IH. ring. Qed.
  Lemma bsum_sum6 : forall (q : nat -> vec -> R) (l : nat -> R) (g : vec -> R) X x v js,
    sum6 (fun c => bond_sum (fun d => g d * q c d) X x v js * l c) = bond_sum (fun d => g d * sum6 (fun c => q c d * l c)) X x v js.
  Proof. intros q l g X x v js. unfold bond_sum, sum6. induction js as [|j js IH]; cbn [fold_right]; [ring|]. rewrite <- IH. ring. Qed.

  Variables (omega0 sigma0 : R -> R -> R) (h : R) (x : list vec) (v : list R).
  Let pb (r : nat) (d : vec) : R := nth r (probes (N:=RN) d) 0.
  Definition sq6 (d : vec) : list R := map (fun a => a * a) (dev_probes (N:=RN) d).
  Let qb (r : nat) (d : vec) : R := nth r (sq6 d) 0.
  Lemma gather_ent : forall X js s0 s, wfs s0 ->
    foldM (fun s j => let? q := at_ub x j in let? vol := at_ub v j in Ok (add_bond (N:=RN) omega0 sigma0 h (vsub q X) vol s)) s0 js = Ok s ->
    wfs s /\ forall r c, (r < 6)%nat -> (c < 6)%nat ->
      ent (s_k s) r c = ent (s_k s0) r c + bond_sum (fun d => pb r d * pb c d) X x v js /\
      ent (s_kdev s) r c = ent (s_kdev s0) r c + bond_sum (fun d => qb r d * qb c d) X x v js /\
      nth r (s_dil s) 0 = nth r (s_dil s0) 0 + bond_sum (fun d => omega0 (vlen d) h * pb r d) X x v js /\
      nth r (s_dev s) 0 = nth r (s_dev s0) 0 + bond_sum (fun d => sigma0 (vlen d) h * qb r d) X x v js.
  Proof.
    intros X. induction js as [|j js IH]; intros s0 s Hw H; cbn [foldM] in H.
    - injection H as <-. split; [exact Hw|]. intros r c _ _. unfold bond_sum. cbn [fold_right]. rewrite !Rplus_0_r. repeat split; reflexivity.
    - apply bind_Ok in H as (s1 & E1 & H). apply bind_Ok in E1 as (q & Q1 & E1). apply bind_Ok in E1 as (vol & Q2 & E1). injection E1 as E1.
      apply at_ub_Ok in Q1. apply at_ub_Ok in Q2. apply (nth_error_nth _ _ (@vzero RN)) in Q1. apply (nth_error_nth _ _ 0) in Q2.
      set (d := vsub q X) in *. destruct Hw as (W1 & W2 & W3 & W4).
      assert (Hw1 : wfs s1).
      { subst s1. unfold add_bond. cbv zeta. repeat split; cbn [s_k s_kdev s_dil s_dev]; try (apply wf_madd; [assumption|apply wf_outer; reflexivity]); rewrite zip_length; rewrite ?W3, ?W4; reflexivity. }
      destruct (IH s1 s Hw1 H) as [G1 G2]. split; [exact G1|]. intros r c Hr Hc. destruct (G2 r c Hr Hc) as (A1 & A2 & A3 & A4).
      rewrite A1, A2, A3, A4. unfold bond_sum. cbn [fold_right]. rewrite Q1, Q2. fold d. subst s1. unfold add_bond. cbv zeta. cbn [s_k s_kdev s_dil s_dev].
      rewrite !ent_madd by (auto; apply wf_outer; reflexivity). rewrite !ent_outer by (auto; reflexivity).
      rewrite (zip_nth _ _ (s_dil s0) _ r 0), (zip_nth _ _ (s_dev s0) _ r 0) by (rewrite ?map_length; cbn [length probes dev_probes]; rlia).
      repeat split.
      + fold (pb r d) (pb c d). rring.
      + unfold qb. change (map (fun a : RN => mul (n:=RN) a a) (dev_probes (N:=RN) d)) with (sq6 d). rring.
      + do 6 (destruct r as [|r]; [unfold pb; cbn [nth map probes]; rring|]). lia.
      + do 6 (destruct r as [|r]; [unfold qb, sq6; cbn [nth map dev_probes]; rring|]). lia.
  Qed.
  Definition targets : list R := [1; 1; 1; 0; 0; 0].
  Definition dev_targets : list R := [2 / 3; 2 / 3; 2 / 3; 2; 2; 2].
  Lemma zero_wf : wfs (zero_system (N:=RN)).
  Proof. repeat split; try reflexivity; intros i Hi; do 6 (destruct i as [|i]; [reflexivity|]); lia. Qed.
  Lemma zero_ent : forall r c, (r < 6)%nat -> (c < 6)%nat -> ent (repeat (repeat 0 6) 6) r c = 0 /\ nth r (repeat 0 6) 0 = 0.
  Proof. intros r c Hr Hc. split; [do 6 (destruct r as [|r]; [do 6 (destruct c as [|c]; [reflexivity|]); lia|]); lia|do 6 (destruct r as [|r]; [reflexivity|]); lia]. Qed.

  Lemma solved_row : forall (solve : list (list R) -> list R -> outcome (list R)) k rhs l, solves solve -> wf6 k -> length rhs = 6%nat -> solve k rhs = Ok l ->
    length l = 6%nat /\ forall r, (r < 6)%nat -> sum6 (fun c => ent k r c * nth c l 0) = nth r rhs 0.
  Proof.
    intros solve k rhs l HS [L W] LR H. destruct (HS _ _ _ H) as [Ll M]. rewrite LR in Ll. split; [exact Ll|]. intros r Hr.
    rewrite <- M. rewrite (nth_indep _ 0 (dots [] l)) by (rewrite map_length, L; exact Hr). rewrite (map_nth (fun row => dots row l) k [] r).
    symmetry. apply dots_sum6; auto.
  Qed.
  Lemma multipliers_sums : forall solve p js lt, solves solve -> multipliers (N:=RN) solve omega0 sigma0 h x v p js = Ok lt ->
    length (fst lt) = 6%nat /\ length (snd lt) = 6%nat /\
    exists k, (forall r c, (r < 6)%nat -> (c < 6)%nat -> ent k r c = bond_sum (fun d => pb r d * pb c d) (nth p x vzero) x v js) /\ length k = 6%nat /\
    forall r, (r < 6)%nat -> dead (N:=RN) k r = false ->
      bond_sum (fun d => (omega0 (vlen d) h + dots (fst lt) (probes (N:=RN) d)) * nth r (probes (N:=RN) d) 0) (nth p x vzero) x v js = nth r targets 0 /\
      bond_sum (fun d => (sigma0 (vlen d) h + dots (snd lt) (sq6 d)) * nth r (sq6 d) 0) (nth p x vzero) x v js = nth r dev_targets 0.
  Proof.
    intros solve p js lt HS H. unfold multipliers in H. apply bind_Ok in H as (X & EX & H). apply bind_Ok in H as (s & Es & H). cbv zeta in H.
    apply bind_Ok in H as (lam & E1 & H). apply bind_Ok in H as (tau & E2 & H). injection H as <-. cbn [fst snd].
    apply at_ub_Ok in EX. apply (nth_error_nth _ _ (@vzero RN)) in EX. rewrite EX. clear EX.
    unfold gather_system in Es. destruct (gather_ent X js _ s zero_wf Es) as [Hw G].
    assert (Hf : wfs (finalize (N:=RN) s)).
    { destruct Hw as (W1 & W2 & W3 & W4). repeat split; cbn [finalize s_k s_kdev s_dil s_dev]; auto; try apply W1; try apply W2; rewrite zip_length; rewrite ?W3, ?W4; reflexivity. }
    pose proof (drop_fold (dead (N:=RN) (s_k (finalize (N:=RN) s))) (seq 0 6) _ Hf) as D. cbv zeta in D. fold (drop_dead (N:=RN) (finalize (N:=RN) s)) in D.
    set (s' := drop_dead (N:=RN) (finalize (N:=RN) s)) in *. destruct D as [(W1 & W2 & W3 & W4) D].
    destruct (solved_row solve _ _ _ HS W1 W3 E1) as [L1 R1]. destruct (solved_row solve _ _ _ HS W2 W4 E2) as [L2 R2].
    split; [exact L1|]. split; [exact L2|]. exists (s_k s). cbn [finalize s_k] in D.
    set (dd := dead (N:=RN) (s_k s)) in *.
    assert (GK : forall r c, (r < 6)%nat -> (c < 6)%nat -> ent (s_k s) r c = bond_sum (fun d => pb r d * pb c d) X x v js).
    { intros r c Hr Hc. destruct (G r c Hr Hc) as (A1 & _). rewrite A1. etransitivity; [apply f_equal2; [exact (proj1 (zero_ent r c Hr Hc))|reflexivity]|apply Rplus_0_l]. }
    split; [exact GK|]. split; [apply Hw|]. intros r Hr Hd. fold dd in Hd.
    assert (IN : forall i, (i < 6)%nat -> existsb (Nat.eqb i) (seq 0 6) = true).
    { intros i Hi. apply existsb_exists. exists i. split; [apply in_seq; lia|apply Nat.eqb_refl]. }
    (* dead multipliers vanish *)
    assert (Z : forall c, (c < 6)%nat -> dd c = true -> nth c lam 0 = 0 /\ nth c tau 0 = 0).
    { intros c Hc Hdc. pose proof (R1 c Hc) as Q1. pose proof (R2 c Hc) as Q2.
      assert (B : forall i, (i < 6)%nat -> ent (s_k s') c i = delta c i /\ ent (s_kdev s') c i = delta c i).
      { intros i Hi. destruct (D c i Hc Hi) as (A1 & A2 & _). rewrite A1, A2, (IN c Hc), Hdc. auto. }
      destruct (D c c Hc Hc) as (_ & _ & A3 & A4). rewrite (IN c Hc), Hdc in A3, A4. cbn [andb] in A3, A4.
      assert (S : forall l, sum6 (fun i => delta c i * nth i l 0) = nth c l 0).
      { intros l. unfold sum6, delta. do 6 (destruct c as [|c]; [cbn [Nat.eqb]; ring|]). lia. }
      rewrite (sum6_ext _ (fun i => delta c i * nth i lam 0)) in Q1 by (intros i Hi; now rewrite (proj1 (B i Hi))).
      rewrite (sum6_ext _ (fun i => delta c i * nth i tau 0)) in Q2 by (intros i Hi; now rewrite (proj2 (B i Hi))).
      rewrite S in Q1, Q2. split; [exact (eq_trans Q1 A3)|exact (eq_trans Q2 A4)]. }
    destruct (D r r Hr Hr) as (_ & _ & A3 & A4). rewrite Hd, andb_false_r in A3, A4.
    pose proof (eq_trans (R1 r Hr) A3) as Q1. pose proof (eq_trans (R2 r Hr) A4) as Q2.
    rewrite (sum6_ext _ (fun c => bond_sum (fun d => pb r d * pb c d) X x v js * nth c lam 0)) in Q1.
    2:{ intros c Hc. destruct (D r c Hr Hc) as (A1 & _). rewrite A1, Hd, andb_false_r. cbn [orb]. rewrite (IN c Hc). cbn [andb]. destruct (dd c) eqn:Ec; [pose proof (proj1 (Z c Hc Ec)) as Z1; transitivity 0; [|symmetry]; (etransitivity; [apply f_equal2; [reflexivity|exact Z1]|apply Rmult_0_r])|]. now rewrite GK. }
    rewrite (sum6_ext _ (fun c => bond_sum (fun d => qb r d * qb c d) X x v js * nth c tau 0)) in Q2.
    2:{ intros c Hc. destruct (D r c Hr Hc) as (_ & A1 & _). rewrite A1, Hd, andb_false_r. cbn [orb]. rewrite (IN c Hc). cbn [andb]. destruct (dd c) eqn:Ec; [pose proof (proj2 (Z c Hc Ec)) as Z1; transitivity 0; [|symmetry]; (etransitivity; [apply f_equal2; [reflexivity|exact Z1]|apply Rmult_0_r])|].
        destruct (G r c Hr Hc) as (_ & B2 & _). cbn [finalize s_kdev]. rewrite B2. f_equal. etransitivity; [apply f_equal2; [exact (proj1 (zero_ent r c Hr Hc))|reflexivity]|apply Rplus_0_l]. }
    rewrite bsum_sum6 in Q1. rewrite bsum_sum6 in Q2.
    destruct (G r r Hr Hr) as (_ & _ & B3 & B4). cbn [zero_system s_dil s_dev] in B3, B4. 
    destruct Hw as (U1 & U2 & U3 & U4). cbn [finalize s_dil s_dev] in Q1, Q2.
    rewrite (zip_nth _ _ _ (s_dil s) r 0) in Q1 by (cbn [length]; rlia). rewrite (zip_nth _ _ _ (s_dev s) r 0) in Q2 by (cbn [length]; rlia).
    pose proof (proj2 (zero_ent r r Hr Hr)) as Z0.
    split.
    - rewrite (bsum_ext _ (fun d => omega0 (vlen d) h * pb r d + pb r d * sum6 (fun c => pb c d * nth c lam 0))), bsum_plus, Q1.
      + assert (B5 : nth r (s_dil s) 0 = bond_sum (fun d => omega0 (vlen d) h * pb r d) X x v js) by (etransitivity; [exact B3|]; etransitivity; [apply f_equal2; [exact Z0|reflexivity]|apply Rplus_0_l]).
        rewrite B5. unfold targets. rring.
      + intros d. rewrite (dots_sum6 lam) by (auto; reflexivity). fold (pb r d). rewrite Rmult_plus_distr_r. f_equal. rewrite Rmult_comm. f_equal. apply sum6_ext. intros c _. apply Rmult_comm.
    - rewrite (bsum_ext _ (fun d => sigma0 (vlen d) h * qb r d + qb r d * sum6 (fun c => qb c d * nth c tau 0))), bsum_plus, Q2.
      + assert (B5 : nth r (s_dev s) 0 = bond_sum (fun d => sigma0 (vlen d) h * qb r d) X x v js) by (etransitivity; [exact B4|]; etransitivity; [apply f_equal2; [exact Z0|reflexivity]|apply Rplus_0_l]).
        rewrite B5. unfold dev_targets. rring.
      + intros d. rewrite (dots_sum6 tau) by (auto; reflexivity). fold (qb r d). rewrite Rmult_plus_distr_r. f_equal. rewrite Rmult_comm. f_equal. apply sum6_ext. intros c _. apply Rmult_comm.
  Qed.
  Lemma felt_probe : forall r d, (r < 6)%nat -> felt (nth r matching_strains (diag 0 0 0)) d = pb r d.
  Proof.
    intros r [a b c] Hr. unfold pb, felt. do 6 (destruct r as [|r]; [cbn [nth matching_strains probes]; unfold diag, rotate, vdot; cbn; rring|]). lia.
  Qed.
  Lemma seen_alive : forall k X js r, length k = 6%nat -> (forall r c, (r < 6)%nat -> (c < 6)%nat -> ent k r c = bond_sum (fun d => pb r d * pb c d) X x v js) ->
    (r < 6)%nat -> seen X x v js (nth r matching_strains (diag 0 0 0)) -> dead (N:=RN) k r = false.
  Proof.
    intros k X js r L HE Hr [H1 H2].
    assert (SB : forall i, (i < 6)%nat -> bond_sum (fun d => felt (nth i matching_strains (diag 0 0 0)) d * felt (nth i matching_strains (diag 0 0 0)) d) X x v js = ent k i i).
    { intros i Hi. rewrite HE by auto. apply bsum_ext. intros d. now rewrite felt_probe. }
    assert (DN : forall i, (i < 6)%nat -> nth i (diagonal (N:=RN) k) 0 = ent k i i).
    { intros i Hi. unfold diagonal. rewrite (numbered_nth _ _ _ k i 0 []) by (rewrite L; exact Hi). reflexivity. }
    assert (LD : length (diagonal (N:=RN) k) = 6%nat) by (unfold diagonal; rewrite map_length, numbered_len; exact L).
    assert (TR : fold_left (add (n:=RN)) (diagonal (N:=RN) k) 0 = sum6 (fun i => ent k i i)).
    { rewrite (sum6_ext _ (fun i => nth i (diagonal (N:=RN) k) 0)) by (intros i Hi; now rewrite DN).
      destruct (six _ LD) as (a0 & a1 & a2 & a3 & a4 & a5 & ED). rewrite ED. unfold sum6. cbn [fold_left nth]. rring. }
    assert (AL : fold_right Rplus 0 (map (fun F => bond_sum (fun d => felt F d * felt F d) X x v js) matching_strains) = sum6 (fun i => ent k i i)).
    { rewrite (sum6_ext _ (fun i => bond_sum (fun d => felt (nth i matching_strains (diag 0 0 0)) d * felt (nth i matching_strains (diag 0 0 0)) d) X x v js)) by (intros i Hi; now rewrite SB).
      unfold sum6, matching_strains. cbn [map fold_right nth]. ring. }
    rewrite SB in H2 by auto. rewrite AL in H1, H2. unfold dead. cbv zeta.
    change (ltb (n:=RN) (nth r (diagonal (N:=RN) k) 0 / fold_left (add (n:=RN)) (diagonal (N:=RN) k) 0) (1 / IZR (10 ^ 15)) = false).
    rewrite TR, DN by auto. apply Rltb_false.
    apply Rmult_le_reg_r with (sum6 (fun i => ent k i i)); [exact H1|]. unfold Rdiv at 2. rewrite Rmult_assoc, Rinv_l, Rmult_1_r by lra.
    replace (IZR (10 ^ 15)) with (10 ^ 15) by (exact (pow_IZR 10 15)). exact H2.
  Qed.
End System.
