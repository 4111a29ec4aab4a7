From Coq Require Import Reals Lra Lia.
From Verif Require Import Base Num ModelForce ModelTangent SpecDamage SpecForce SpecCorr SpecTangent ProofData ProofForce ProofCorr ProofTangent ProofTangent2 ProofTangent3 ProofTangent4 ProofTangent5.
Local Open Scope nat_scope.

Lemma gsum_zero : forall g n i, (forall l, g l vzero = 0%R) -> gsum g i (repeat vzero n) = 0%R.
Proof. intros g n. induction n as [|n IH]; intros i H; cbn [repeat gsum]; auto. rewrite H, IH by auto. ring. Qed.
Lemma marks_zero : forall gids i a l, marks gids i a l vzero = 0%R.
Proof. intros. unfold marks, ind. destruct (match nth_error gids l with Some g => Nat.eqb g i | None => false end); auto. now destruct a as [|[|[|a]]]. Qed.

Section Assembly.
  Context (omega : R -> R -> R) (K MU h alpha : R).
  Definition local_force (b : block RN) (y : list R) : outcome (list R) := force_of (block_local (N:=RN) omega K MU h alpha b) y [].
  Definition to_nbhd (w : list nat * block RN) : nbhd := Nbhd (fst w) (fun y _ => match local_force (snd w) y with Ok f => f | _ => [] end).

  Lemma restrict_inv : forall (B b : block RN) p k js, restrict B p k js = Ok b ->
    gather (b_x B) (p :: js) = Ok (b_x b) /\ gather (b_y B) (p :: js) = Ok (b_y b) /\ gather (b_vel B) (p :: js) = Ok (b_vel b) /\ gather (b_vol B) (p :: js) = Ok (b_vol b) /\
    gather (b_m B) (p :: js) = Ok (b_m b) /\ gather (b_dmg B) (seq k (length js)) = Ok (b_dmg b).
  Proof.
    intros B b p k js H. unfold restrict in H. apply bind_Ok in H as (x & E1 & H). apply bind_Ok in H as (y & E2 & H). apply bind_Ok in H as (u & E3 & H).
    apply bind_Ok in H as (v & E4 & H). apply bind_Ok in H as (m & E5 & H). apply bind_Ok in H as (d & E6 & H). injection H as <-. cbn [b_x b_y b_vel b_vol b_m b_dmg]. repeat split; auto.
  Qed.
  Lemma local_force_flat : forall b y f, elastic_force (N:=RN) omega K MU h alpha (b_x b) y (b_vol b) (b_m b) (b_dmg b) [seq 1 (length (b_x b) - 1)] = Ok f ->
    local_force b (flat y) = Ok (flat f).
  Proof. intros b y f H. unfold local_force, block_local. cbn [force_of]. rewrite triples_flat. cbn [bind]. now rewrite H. Qed.

  (** one neighbourhood *)
  Lemma one_nbhd : forall gids (B b : block RN) p k js gs th d (f f' : list (V3 RN)) ss i a, a < 3 -> gather gids (p :: js) = Ok gs -> restrict B p k js = Ok b ->
    (exists t, dilatation (N:=RN) omega h alpha None (b_x B) (b_y B) (b_vol B) (b_dmg B) None (b_m B) p k js = Ok t /\ at_ub th p = Ok t) ->
    let Kg := lps (N:=RN) omega K MU h alpha None (b_x B) (b_y B) (b_vol B) (b_m B) th (b_dmg B) None in
    pre _ _ Kg p k js = Ok d -> bond_loop Kg d p k js f = Ok (f', ss) -> length f = length (b_x B) ->
    exists fl, elastic_force (N:=RN) omega K MU h alpha (b_x b) (b_y b) (b_vol b) (b_m b) (b_dmg b) [seq 1 (length (b_x b) - 1)] = Ok fl /\
      (on_point 3 gs (flat fl) i a = gsum (marks gids i a) 0 f' - gsum (marks gids i a) 0 f)%R.
  Proof.
    intros gids B b p k js gs th d f f' ss i a Ha Hg Hr (t & Et & ETH) Kg Hpre Hloop Lf.
    destruct (restrict_inv _ _ _ _ _ Hr) as (Gx & Gy & Gu & Gv & Gm & Gd).
    pose proof (gather_length _ _ _ _ Gx) as Lx. pose proof (gather_length _ _ _ _ Gy) as Ly. pose proof (gather_length _ _ _ _ Gv) as Lv. pose proof (gather_length _ _ _ _ Gm) as Lm.
    pose proof (gather_length _ _ _ _ Gd) as Ld. pose proof (gather_length _ _ _ _ Hg) as Lg. rewrite seq_length in Ld. cbn [length] in Lx, Ly, Lv, Lm, Lg.
    replace (length (b_x b) - 1) with (length js) by lia.
    assert (AO : arrays_ok (S (length js)) [seq 1 (length js)] (b_x b) (b_y b) (b_vol b) (b_m b) (b_dmg b)).
    { repeat split; auto; [unfold num_bonds; cbn [map fold_right]; rewrite seq_length; lia|cbn; lia|]. constructor; [|constructor]. apply Forall_forall. intros q Hq. apply in_seq in Hq. lia. }
    destruct (elastic_force_total (N:=RN) omega K MU h alpha _ _ _ _ _ _ _ AO) as (fl & Efl & Lfl). exists fl. split; [exact Efl|].
    rewrite on_point_gsum by (auto; lia).
    unfold elastic_force in Efl. cbn [dilatations] in Efl. rewrite (dilatation_local omega h alpha _ _ _ _ _ _ _ _ _ _ p k js Gx Gy Gv Gm Gd), Et in Efl. cbn [bind] in Efl.
    unfold run_kernel in Efl. cbn [point_loop] in Efl.
    rewrite (pre_local omega K MU h alpha _ _ (b_vol B) (b_m B) (b_dmg B) _ _ (b_vol b) _ (b_dmg b) p k js Gx Gy Gm th [t]) in Efl by (unfold at_ub at 1; cbn; auto).
    fold Kg in Efl. rewrite Hpre in Efl. cbn [bind] in Efl.
    apply bind_Ok in Efl as ([fl1 o1] & E1 & E2). injection E2 as ->. apply bind_Ok in E1 as ([fl2 ss2] & E1 & E3). cbn [bind] in E3. injection E3 as -> <-.
    pose proof (loop_local omega K MU h alpha _ _ _ (b_m B) _ _ _ _ (b_m b) _ p k js Gx Gy Gv Gd th [t] (marks gids i a) (marks gs i a) d) as LL.
    specialize (LL (marks_additive gids i a) (marks_additive gs i a)).
    assert (MH : forall u, marks gs i a 0 u = marks gids i a p u).
    { intros u. unfold marks. pose proof (at_head p js _ _ _ Hg) as E. unfold at_ub in E. destruct (nth_error gs 0), (nth_error gids p); congruence || auto. }
    assert (MT : forall pj j post, js = pj ++ j :: post -> forall u, marks gs i a (1 + length pj) u = marks gids i a j u).
    { intros pj j post E u. unfold marks. pose proof (at_tail p js _ _ _ pj j post Hg E) as E'. unfold at_ub in E'. destruct (nth_error gs (1 + length pj)), (nth_error gids j); congruence || auto. }
    specialize (LL MH MT js [] f f' ss (repeat vzero (length (b_x b))) fl ss2 eq_refl). cbn [length] in LL. replace (k + 0) with k in LL by lia.
    specialize (LL Hloop E1). rewrite gsum_zero in LL by apply marks_zero. lra.
  Qed.

  Lemma all_nbhds : forall gids (B : block RN) Y V nbrs p k th thr pth work (f f' : list (V3 RN)) out i a, a < 3 -> b_y B = map (spot Y) gids -> length gids = length (b_x B) ->
    neighbourhoods gids B p k nbrs = Ok work -> dilatations (dilatation (N:=RN) omega h alpha None (b_x B) (b_y B) (b_vol B) (b_dmg B) None (b_m B)) p k nbrs = Ok thr ->
    th = pth ++ thr -> length pth = p ->
    point_loop (lps (N:=RN) omega K MU h alpha None (b_x B) (b_y B) (b_vol B) (b_m B) th (b_dmg B) None) p k nbrs f = Ok (f', out) -> length f = length (b_x B) ->
    (body_force 3 (map to_nbhd work) Y V i a = gsum (marks gids i a) 0 f' - gsum (marks gids i a) 0 f)%R.
  Proof.
    intros gids B Y V. induction nbrs as [|js nbrs IH]; intros p k th thr pth work f f' out i a Ha HY HL HN HD Eth Hp HP Lf; cbn [neighbourhoods dilatations point_loop] in *.
    - injection HN as <-. injection HP as <- <-. cbn [map]. unfold body_force. rewrite so_nil. ring.
    - apply bind_Ok in HN as (gs & Hg & HN). apply bind_Ok in HN as (b & Hb & HN). apply bind_Ok in HN as (work' & HN & EW). injection EW as <-.
      apply bind_Ok in HD as (t & Ht & HD). apply bind_Ok in HD as (thr' & HD & ET). injection ET as <-.
      apply bind_Ok in HP as (d & Hpre & HP). apply bind_Ok in HP as ([f1 ss] & Hloop & HP). apply bind_Ok in HP as ([f2 r] & HP & E2). injection E2 as -> <-.
      destruct (one_nbhd gids B b p k js gs th d f f1 ss i a Ha Hg Hb) as (fl & Efl & Eon); auto.
      { exists t. split; auto. unfold at_ub. rewrite Eth, <- Hp, nth_app_here. reflexivity. }
      assert (L1 : length f1 = length f).
      { clear - Hloop. revert k f f1 ss Hloop. induction js as [|j js IHj]; intros k f f1 ss H; cbn [bond_loop] in H; [injection H as <- <-; auto|].
        apply bind_Ok in H as ([fb s] & _ & H). apply bind_Ok in H as ([vn vs] & _ & H). apply bind_Ok in H as (g1 & A1 & H). apply bind_Ok in H as (g2 & A2 & H). apply bind_Ok in H as ([g3 s3] & A3 & H). injection H as <- <-.
        apply IHj in A3. apply add_at_len in A1. apply sub_at_len in A2. congruence. }
      specialize (IH (1 + p) (length js + k) th thr' (pth ++ [t]) work' f1 f' r i a Ha HY HL HN HD).
      rewrite <- app_assoc in IH. rewrite app_length in IH. cbn [app length] in IH. specialize (IH Eth ltac:(lia) HP ltac:(lia)).
      cbn [map]. unfold body_force in *. rewrite so_cons, IH. cbn [to_nbhd n_gids n_force fst snd].
      destruct (restrict_inv _ _ _ _ _ Hb) as (_ & Gy & _). rewrite HY in Gy. rewrite (gather_map _ _ _ _ _ _ Hg) in Gy. injection Gy as Gy.
      rewrite <- spots_flat. rewrite Gy. rewrite (local_force_flat b (b_y b) fl Efl). rewrite Eon. ring.
  Qed.
End Assembly.
