From Coq Require Import Bool Reals Lra Lia.
From Verif Require Import Base Num ModelNeigh SpecDamage ModelForce ModelGlobal ModelPals SpecForce SpecEnergy SpecPals ProofData ProofForce ProofMaterial ProofCorr ProofEnergy ProofEnergy2 ProofPals ProofPals2 ProofPals3 ProofPals4 ProofPals5.

Section Exists.
  Local Open Scope R_scope.
  Local Notation vec := (V3 RN).
  Lemma multipliers_exist : forall solve omega0 sigma0 h (x : list vec) (v : list R) p js lam tau,
    (forall s k r, In s [lam; tau] -> length s = length r -> map (fun row => dots row s) k = r -> exists s', solve k r = Ok s') ->
    length lam = 6%nat -> length tau = 6%nat -> (p < length x)%nat -> (forall j, In j js -> (j < length x)%nat /\ (j < length v)%nat) ->
    (forall r, (r < 6)%nat -> seen (nth p x vzero) x v js (E6 r)) ->
    (forall r, (r < 6)%nat -> bond_sum (fun d => (omega0 (vlen d) h + dots lam (probes (N:=RN) d)) * nth r (probes (N:=RN) d) 0) (nth p x vzero) x v js = nth r targets 0) ->
    (forall r, (r < 6)%nat -> bond_sum (fun d => (sigma0 (vlen d) h + dots tau (sq6 d)) * nth r (sq6 d) 0) (nth p x vzero) x v js = nth r dev_targets 0) ->
    exists lt, multipliers (N:=RN) solve omega0 sigma0 h x v p js = Ok lt.
  Proof.
    intros solve omega0 sigma0 h x v p js lam tau HG L1 L2 Hp HB Hs Q1 Q2. unfold multipliers.
    rewrite (at_nth _ (@vzero RN) x p Hp). cbn [bind]. set (X := nth p x vzero) in *.
    assert (GE : forall l s0, (forall j, In j l -> (j < length x)%nat /\ (j < length v)%nat) -> exists s,
       foldM (fun s j => let? q := at_ub x j in let? vol := @at_ub (T RN) v j in Ok (add_bond (N:=RN) omega0 sigma0 h (vsub q X) vol s)) s0 l = Ok s).
    { induction l as [|j l IH]; intros s0 H; cbn [foldM]; [eauto|]. destruct (H j (or_introl eq_refl)) as [B1 B2].
      rewrite (at_nth _ (@vzero RN) x j B1), (at_nth (T RN) 0 v j B2). cbn [bind]. apply IH. intros i Hi. apply H. now right. }
    destruct (GE js (zero_system (N:=RN)) HB) as [s Es]. unfold gather_system. rewrite Es. cbn [bind]. cbv zeta.
    destruct (gather_ent omega0 sigma0 h x v X js _ s zero_wf Es) as [Hw G].
    assert (Hf : wfs (finalize (N:=RN) s)).
    { destruct Hw as (W1 & W2 & W3 & W4). repeat split; cbn [finalize s_k s_kdev s_dil s_dev]; auto; try apply W1; try apply W2; rewrite zip_length; rewrite ?W3, ?W4; reflexivity. }
    pose proof (drop_fold (dead (N:=RN) (s_k (finalize (N:=RN) s))) (seq 0 6) _ Hf) as D. cbv zeta in D. fold (drop_dead (N:=RN) (finalize (N:=RN) s)) in D.
    set (s' := drop_dead (N:=RN) (finalize (N:=RN) s)) in *. destruct D as [(W1 & W2 & W3 & W4) D].
    assert (GK : forall r c, (r < 6)%nat -> (c < 6)%nat -> ent (s_k s) r c = bond_sum (fun d => nth r (probes (N:=RN) d) 0 * nth c (probes (N:=RN) d) 0) X x v js).
    { intros r c Hr Hc. destruct (G r c Hr Hc) as (A1 & _). rewrite A1. etransitivity; [apply f_equal2; [exact (proj1 (zero_ent r c Hr Hc))|reflexivity]|apply Rplus_0_l]. }
    assert (DD : forall r, (r < 6)%nat -> dead (N:=RN) (s_k (finalize (N:=RN) s)) r = false).
    { intros r Hr. apply (seen_alive x v _ X js r (proj1 (proj1 Hw)) GK Hr). apply Hs, Hr. }
    destruct Hw as (U1 & U2 & U3 & U4).
    assert (R1 : map (fun row => dots row lam) (s_k s') = s_dil s').
    { apply (nth_ext _ _ (dots [] lam) 0); [rewrite map_length; transitivity 6%nat; [apply W1|symmetry; exact W3]|]. intros r Hr. rewrite map_length in Hr.
      assert (Hr6 : (r < 6)%nat) by (destruct W1 as [LL _]; rewrite <- LL; exact Hr). rewrite (map_nth (fun row => dots row lam) (s_k s') [] r), dots_sum6 by (auto; apply W1; exact Hr6).
      destruct (D r r Hr6 Hr6) as (_ & _ & A3 & _). rewrite (DD r Hr6), andb_false_r in A3. etransitivity; [|symmetry; exact A3]. cbn [finalize s_dil].
      rewrite (zip_nth _ _ _ (s_dil s) r 0) by (cbn [length]; rlia). destruct (G r r Hr6 Hr6) as (_ & _ & B3 & _).
      assert (B5 : nth r (s_dil s) 0 = bond_sum (fun d => omega0 (vlen d) h * nth r (probes (N:=RN) d) 0) X x v js) by (etransitivity; [exact B3|]; etransitivity; [apply f_equal2; [exact (proj2 (zero_ent r r Hr6 Hr6))|reflexivity]|apply Rplus_0_l]).
      pose proof (Q1 r Hr6) as Q. rewrite (bsum_ext _ (fun d => omega0 (vlen d) h * nth r (probes (N:=RN) d) 0 + nth r (probes (N:=RN) d) 0 * sum6 (fun c => nth c (probes (N:=RN) d) 0 * nth c lam 0))), bsum_plus, <- bsum_sum6 in Q.
      - rewrite (sum6_ext _ (fun c => bond_sum (fun d => nth r (probes (N:=RN) d) 0 * nth c (probes (N:=RN) d) 0) X x v js * nth c lam 0)).
        + rewrite B5. change (sum6 (fun c => bond_sum (fun d => nth r (probes (N:=RN) d) 0 * nth c (probes (N:=RN) d) 0) X x v js * nth c lam 0) = nth r targets 0 - 1 * bond_sum (fun d => omega0 (vlen d) h * nth r (probes (N:=RN) d) 0) X x v js).
          rewrite <- Q. change (T RN) with R in *. ring.
        + intros c Hc. destruct (D r c Hr6 Hc) as (A1 & _). rewrite (DD r Hr6), (DD c Hc), !andb_false_r in A1. cbn [orb] in A1. etransitivity; [apply f_equal2; [exact A1|reflexivity]|]. cbn [finalize s_k]. now rewrite GK.
      - intros d. rewrite (dots_sum6 lam) by (auto; reflexivity). rewrite Rmult_plus_distr_r. f_equal. rewrite Rmult_comm. f_equal. apply sum6_ext. intros c _. apply Rmult_comm. }
    assert (R2 : map (fun row => dots row tau) (s_kdev s') = s_dev s').
    { apply (nth_ext _ _ (dots [] tau) 0); [rewrite map_length; transitivity 6%nat; [apply W2|symmetry; exact W4]|]. intros r Hr. rewrite map_length in Hr.
      assert (Hr6 : (r < 6)%nat) by (destruct W2 as [LL _]; rewrite <- LL; exact Hr). rewrite (map_nth (fun row => dots row tau) (s_kdev s') [] r), dots_sum6 by (auto; apply W2; exact Hr6).
      destruct (D r r Hr6 Hr6) as (_ & _ & _ & A3). rewrite (DD r Hr6), andb_false_r in A3. etransitivity; [|symmetry; exact A3]. cbn [finalize s_dev].
      rewrite (zip_nth _ _ _ (s_dev s) r 0) by (cbn [length]; rlia). destruct (G r r Hr6 Hr6) as (_ & _ & _ & B3).
      assert (B5 : nth r (s_dev s) 0 = bond_sum (fun d => sigma0 (vlen d) h * nth r (sq6 d) 0) X x v js) by (etransitivity; [exact B3|]; etransitivity; [apply f_equal2; [exact (proj2 (zero_ent r r Hr6 Hr6))|reflexivity]|apply Rplus_0_l]).
      pose proof (Q2 r Hr6) as Q. rewrite (bsum_ext _ (fun d => sigma0 (vlen d) h * nth r (sq6 d) 0 + nth r (sq6 d) 0 * sum6 (fun c => nth c (sq6 d) 0 * nth c tau 0))), bsum_plus, <- bsum_sum6 in Q.
      - rewrite (sum6_ext _ (fun c => bond_sum (fun d => nth r (sq6 d) 0 * nth c (sq6 d) 0) X x v js * nth c tau 0)).
        + rewrite B5. change (sum6 (fun c => bond_sum (fun d => nth r (sq6 d) 0 * nth c (sq6 d) 0) X x v js * nth c tau 0) = nth r dev_targets 0 - 1 * bond_sum (fun d => sigma0 (vlen d) h * nth r (sq6 d) 0) X x v js).
          rewrite <- Q. change (T RN) with R in *. ring.
        + intros c Hc. destruct (D r c Hr6 Hc) as (_ & A1 & _). rewrite (DD r Hr6), (DD c Hc), !andb_false_r in A1. cbn [orb] in A1. etransitivity; [apply f_equal2; [exact A1|reflexivity]|]. cbn [finalize s_kdev].
          destruct (G r c Hr6 Hc) as (_ & B2 & _). f_equal. etransitivity; [exact B2|]. etransitivity; [apply f_equal2; [exact (proj1 (zero_ent r c Hr6 Hc))|reflexivity]|apply Rplus_0_l].
      - intros d. rewrite (dots_sum6 tau) by (auto; reflexivity). rewrite Rmult_plus_distr_r. f_equal. rewrite Rmult_comm. f_equal. apply sum6_ext. intros c _. apply Rmult_comm. }
    destruct (HG lam _ _ (or_introl eq_refl) (eq_trans L1 (eq_sym W3)) R1) as [l1 E1]. destruct (HG tau _ _ (or_intror (or_introl eq_refl)) (eq_trans L2 (eq_sym W4)) R2) as [l2 E2].
    change (T RN) with R in *. rewrite E1. cbn [bind]. rewrite E2. cbn [bind]. eauto.
  Qed.
  Lemma sq6_rat : forall a b c : R, let S := a * a + b * b + c * c in S <> 0 ->
    sq6 (v3 (N:=RN) a b c) = [(3 * (a * a) - S) * (3 * (a * a) - S) / (9 * S); (3 * (b * b) - S) * (3 * (b * b) - S) / (9 * S); (3 * (c * c) - S) * (3 * (c * c) - S) / (9 * S);
      4 * (a * b * (a * b)) / S; 4 * (a * c * (a * c)) / S; 4 * (b * c * (b * c)) / S].
  Proof.
    intros a b c S HS. assert (P : 0 <= S) by (unfold S; nra). pose proof (sqrt_sqrt S P) as Q. assert (N : sqrt S <> 0) by (intros E; rewrite E in Q; lra).
    unfold sq6, dev_probes. cbn [vx vy vz map]. to_R. change (T RN) with R in *. fold S. set (L := sqrt S) in *. clearbody L. clearbody S. subst S.
    repeat (apply f_equal2); try reflexivity; field; exact N.
  Qed.
End Exists.

Section Lattice.
  Local Open Scope R_scope.
  Local Notation vec := (V3 RN).
  (** a solver that tries some candidates *)
  Definition guess (cands : list (list R)) (k : list (list R)) (r : list R) : outcome (list R) :=
    match find (fun s => if Nat.eq_dec (length s) (length r) then (if list_eq_dec Req_EM_T (map (fun row => dots row s) k) r then true else false) else false) cands with
    | Some s => Ok s
    | None => Err
    end.
  Lemma guess_solves : forall cands, solves (guess cands).
  Proof.
    intros cands k r s H. unfold guess in H.
    destruct (find (fun s => if Nat.eq_dec (length s) (length r) then (if list_eq_dec Req_EM_T (map (fun row => dots row s) k) r then true else false) else false) cands) as [s0|] eqn:E; [|discriminate].
    injection H as <-. apply find_some in E as [_ E]. destruct (Nat.eq_dec _ _); [|discriminate]. destruct (list_eq_dec _ _ _); [auto|discriminate].
  Qed.
  Lemma guess_finds : forall cands s k r, In s cands -> length s = length r -> map (fun row => dots row s) k = r -> exists s', guess cands k r = Ok s'.
  Proof.
    intros cands s k r Hin HL HM. unfold guess.
    destruct (find (fun s => if Nat.eq_dec (length s) (length r) then (if list_eq_dec Req_EM_T (map (fun row => dots row s) k) r then true else false) else false) cands) as [s0|] eqn:E; [eauto|].
    exfalso. pose proof (find_none _ _ E s Hin) as F. cbv beta in F. destruct (Nat.eq_dec (length s) (length r)); [|contradiction]. destruct (list_eq_dec Req_EM_T _ r); [discriminate|contradiction].
  Qed.
  Definition star_x : list vec :=
    let q a b c := v3 (N:=RN) a b c in
    [vzero; q 1 0 0; q (-1) 0 0; q 0 1 0; q 0 (-1) 0; q 0 0 1; q 0 0 (-1);
     q 1 1 0; q 1 (-1) 0; q (-1) 1 0; q (-1) (-1) 0; q 1 0 1; q 1 0 (-1); q (-1) 0 1; q (-1) 0 (-1); q 0 1 1; q 0 1 (-1); q 0 (-1) 1; q 0 (-1) (-1)].
  Definition star_nbrs : list (list nat) := [seq 1 18].
  Definition star_v : list R := repeat 1 19.
  Definition star_lam : list R := [-1/2; -1/2; -1/2; 0; 0; 0].
  Definition star_tau : list R := [-9/8; -9/8; -9/8; -3/16; -3/16; -3/16].
  Definition star_solve := guess [star_lam; star_tau].
  Definition ones : R -> R -> R := fun _ _ => 1.

  Lemma star_bsum : forall g, bond_sum g vzero star_x star_v (seq 1 18) = fold_right (fun d a => g d + a) 0 (tl star_x).
  Proof.
    intros g. unfold bond_sum, star_v. cbn [seq fold_right repeat nth star_x tl]. rewrite !vsub0, !Rmult_1_l. reflexivity.
  Qed.
  Lemma tiny : 1 / 10 ^ 15 <= 1 / 100.
  Proof. unfold Rdiv. rewrite !Rmult_1_l. apply Rinv_le_contravar; [lra|]. cbn [pow]. lra. Qed.
  Lemma star_diag : forall r, (r < 6)%nat -> bond_sum (fun d => felt (E6 r) d * felt (E6 r) d) vzero star_x star_v (seq 1 18) = if Nat.ltb r 3 then 10 else 16.
  Proof.
    intros r Hr. rewrite star_bsum. unfold E6. 
    do 6 (destruct r as [|r]; [unfold felt, matching_strains, diag, rotate, vdot, vadd, vscale; cbn; to_R; change (T RN) with R in *; ring|]). lia.
  Qed.
  Lemma star_seen : forall r, (r < 6)%nat -> seen vzero star_x star_v (seq 1 18) (E6 r).
  Proof.
    intros r Hr. pose proof tiny as Tn. unfold seen. cbv zeta.
    assert (A : fold_right Rplus 0 (map (fun F => bond_sum (fun d => felt F d * felt F d) vzero star_x star_v (seq 1 18)) matching_strains) = 78).
    { pose proof (star_diag 0 ltac:(lia)) as D0. pose proof (star_diag 1 ltac:(lia)) as D1. pose proof (star_diag 2 ltac:(lia)) as D2.
      pose proof (star_diag 3 ltac:(lia)) as D3. pose proof (star_diag 4 ltac:(lia)) as D4. pose proof (star_diag 5 ltac:(lia)) as D5.
      unfold E6 in *. unfold matching_strains in *. cbn [nth Nat.ltb Nat.leb] in *. cbn [map fold_right]. rewrite D0, D1, D2, D3, D4, D5. ring. }
    rewrite A, star_diag by exact Hr. split; [lra|]. destruct (Nat.ltb r 3); lra.
  Qed.
  Lemma star_dil : forall r, (r < 6)%nat ->
    bond_sum (fun d => (ones (vlen d) 2 + dots star_lam (probes (N:=RN) d)) * nth r (probes (N:=RN) d) 0) vzero star_x star_v (seq 1 18) = nth r targets 0.
  Proof.
    intros r Hr. rewrite star_bsum. unfold ones, star_lam, targets.
    do 6 (destruct r as [|r]; [unfold probes; cbn; to_R; change (T RN) with R in *; field|]). lia.
  Qed.
  Lemma star_dev : forall r, (r < 6)%nat ->
    bond_sum (fun d => (ones (vlen d) 2 + dots star_tau (sq6 d)) * nth r (sq6 d) 0) vzero star_x star_v (seq 1 18) = nth r dev_targets 0.
  Proof.
    intros r Hr. rewrite star_bsum. unfold star_x. cbv zeta. cbn [tl fold_right]. rewrite !sq6_rat by lra. unfold ones, star_tau, dev_targets.
    do 6 (destruct r as [|r]; [cbn [dots nth]; field|]). lia.
  Qed.
  Lemma star_init : exists ms m, pals_initialize (N:=RN) star_solve ones ones 2 star_x star_v star_nbrs = Ok (ms, m).
  Proof.
    destruct (multipliers_exist star_solve ones ones 2 star_x star_v 0 (seq 1 18) star_lam star_tau) as [lt E].
    - intros s k r Hin. apply guess_finds. exact Hin.
    - reflexivity.
    - reflexivity.
    - cbn. lia.
    - intros j Hj. apply in_seq in Hj. cbn [length star_x star_v repeat]. lia.
    - exact star_seen.
    - exact star_dil.
    - exact star_dev.
    - unfold pals_initialize, star_nbrs. cbn [multipliers_all]. rewrite E. cbn [bind].
      destruct (multipliers_sums ones ones 2 star_x star_v star_solve 0 (seq 1 18) lt (guess_solves _) E) as (L1 & L2 & _).
      rewrite (volumes_closed ones 2 star_x star_v [0] [lt] [seq 1 18] 19); [cbn [bind]; eauto|reflexivity|reflexivity|cbn; lia| |reflexivity|reflexivity|].
      + constructor; [|constructor]. apply Forall_forall. intros j Hj. apply in_seq in Hj. lia.
      + intros lt' [<-|[]]. auto.
  Qed.
End Lattice.
