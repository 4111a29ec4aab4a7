From Coq Require Import Reals Lra Lia.
From Verif Require Import Base Num ModelForce ModelTangent SpecDamage SpecForce SpecCorr SpecTangent ProofData ProofForce ProofCorr ProofTangent ProofTangent2 ProofTangent3 ProofTangent4 ProofTangent5 ProofTangent6.
Local Open Scope nat_scope.

Section Parts.
  Context (omega : R -> R -> R) (K MU h alpha : R) (W : nat -> R).
  Notation to_nbhd := (to_nbhd omega K MU h alpha).
  Notation block_local := (block_local (N:=RN) omega K MU h alpha).

  (** what the temporary data managers of a part look like *)
  Definition part_block (Y V : field) (P : elastic_part) (p k : nat) (js : list nat) (gs : list nat) (b : block RN) : Prop :=
    nth_error (e_nbrs P) p = Some js /\ gather (e_gids P) (p :: js) = Ok gs /\
    gather (e_x P) (p :: js) = Ok (b_x b) /\ b_y b = map (spot Y) gs /\ b_vel b = map (spot V) gs /\ b_vol b = map W gs /\ gather (e_m P) (p :: js) = Ok (b_m b) /\
    gather (e_dmg P) (seq k (length js)) = Ok (b_dmg b).
  Lemma work_In : forall Y V P nbrs p k work pre, e_nbrs P = pre ++ nbrs -> length pre = p -> neighbourhoods (e_gids P) (e_block Y V W P) p k nbrs = Ok work ->
    Forall (fun w => exists p k js, part_block Y V P p k js (fst w) (snd w)) work.
  Proof.
    intros Y V P. induction nbrs as [|js nbrs IH]; intros p k work pr E Hp H; cbn [neighbourhoods] in H.
    - injection H as <-. constructor.
    - apply bind_Ok in H as (gs & Hg & H). apply bind_Ok in H as (b & Hb & H). apply bind_Ok in H as (work' & H & EW). injection EW as <-. constructor.
      + exists p, k, js. cbn [fst snd]. destruct (restrict_inv _ _ _ _ _ Hb) as (Gx & Gy & Gu & Gv & Gm & Gd). cbn [b_x b_y b_vel b_vol b_m b_dmg e_block] in *.
        rewrite (gather_map _ _ (spot Y) _ _ _ Hg) in Gy. rewrite (gather_map _ _ (spot V) _ _ _ Hg) in Gu.
        pose proof (gather_map _ _ W _ _ _ Hg) as Gw. change (T RN) with R in *. rewrite Gw in Gv. injection Gy as Gy. injection Gu as Gu. injection Gv as Gv.
        repeat split; auto. rewrite E, <- Hp. apply nth_app_here.
      + eapply (IH (1 + p)); [rewrite E; change (pr ++ js :: nbrs) with (pr ++ [js] ++ nbrs); apply app_assoc|rewrite app_length; cbn; lia|eauto].
  Qed.
  Lemma gather_total_dmg : forall A (l : list A) k n, k + n <= length l -> exists r, gather l (seq k n) = Ok r.
  Proof. intros A l k n H. apply gather_total. apply Forall_forall. intros i Hi. apply in_seq in Hi. lia. Qed.
  Lemma neighbourhoods_total : forall Y V P nbrs p k pre, elastic_ok P -> e_nbrs P = pre ++ nbrs -> length pre = p -> k + num_bonds nbrs <= length (e_dmg P) ->
    exists work, neighbourhoods (e_gids P) (e_block Y V W P) p k nbrs = Ok work.
  Proof.
    intros Y V P nbrs p k pr (ND & Lx & Lm & Ld & Ln & HN). revert p k pr. induction nbrs as [|js nbrs IH]; intros p k pr E Hp Hk; cbn [neighbourhoods]; [eauto|].
    assert (EP : nth_error (e_nbrs P) p = Some js) by (rewrite E, <- Hp; apply nth_app_here).
    destruct (HN p js EP) as (_ & _ & HF). assert (Hpl : p < length (e_nbrs P)) by (apply nth_error_Some; congruence).
    assert (HL : forall A (l : list A), length l = length (e_gids P) -> exists r, gather l (p :: js) = Ok r).
    { intros A l Hl. apply gather_total. rewrite Hl. constructor; [lia|exact HF]. }
    destruct (HL _ (e_gids P) eq_refl) as [gs ->]. cbn [bind]. unfold restrict. cbn [b_x b_y b_vel b_vol b_m b_dmg e_block].
    destruct (HL _ (e_x P) Lx) as [x ->]. cbn [bind].
    destruct (HL _ (map (spot Y) (e_gids P))) as [y ->]; [apply map_length|]. cbn [bind].
    destruct (HL _ (map (spot V) (e_gids P))) as [u ->]; [apply map_length|]. cbn [bind].
    destruct (HL _ (map W (e_gids P))) as [v Ev]; [apply map_length|]. change (T RN) with R. rewrite Ev. cbn [bind].
    destruct (HL _ (e_m P) Lm) as [m ->]. cbn [bind]. unfold num_bonds in Hk. cbn [map fold_right] in Hk.
    destruct (gather_total_dmg _ (e_dmg P) k (length js)) as [dm Ed]; [lia|]. rewrite Ed. cbn [bind].
    destruct (IH (1 + p) (length js + k) (pr ++ [js])) as [w Ew]; [now rewrite <- app_assoc|rewrite app_length; cbn; lia|unfold num_bonds; lia|].
    change (T RN) with R in Ew. rewrite Ew. cbn [bind]. eauto.
  Qed.
  Lemma nbhd_indep : forall Y V Y' V' P nbrs p k w w', neighbourhoods (e_gids P) (e_block Y V W P) p k nbrs = Ok w -> neighbourhoods (e_gids P) (e_block Y' V' W P) p k nbrs = Ok w' ->
    map to_nbhd w = map to_nbhd w'.
  Proof.
    intros Y V Y' V' P. induction nbrs as [|js nbrs IH]; intros p k w w' H H'; cbn [neighbourhoods] in *.
    - injection H as <-. injection H' as <-. reflexivity.
    - apply bind_Ok in H as (gs & Hg & H). apply bind_Ok in H as (b & Hb & H). apply bind_Ok in H as (work & H & EW). injection EW as <-.
      apply bind_Ok in H' as (gs' & Hg' & H'). apply bind_Ok in H' as (b' & Hb' & H'). apply bind_Ok in H' as (work' & H' & EW'). injection EW' as <-.
      cbn [map]. f_equal; [|eapply IH; eauto]. rewrite Hg in Hg'. injection Hg' as <-.
      destruct (restrict_inv _ _ _ _ _ Hb) as (Gx & Gy & Gu & Gv & Gm & Gd), (restrict_inv _ _ _ _ _ Hb') as (Gx' & Gy' & Gu' & Gv' & Gm' & Gd'). cbn [b_x b_y b_vel b_vol b_m b_dmg e_block] in *.
      assert (Ex : b_x b = b_x b') by congruence. assert (Ev : b_vol b = b_vol b') by congruence. assert (Em : b_m b = b_m b') by congruence. assert (Ed : b_dmg b = b_dmg b') by congruence.
      unfold ProofTangent6.to_nbhd, local_force. cbn [fst snd block_local force_of ModelTangent.block_local]. now rewrite Ex, Ev, Em, Ed.
  Qed.
  Lemma part_arrays : forall Y P, elastic_ok P -> arrays_ok (N:=RN) (length (e_gids P)) (e_nbrs P) (e_x P) (map (spot Y) (e_gids P)) (map W (e_gids P)) (e_m P) (e_dmg P).
  Proof.
    intros Y P (ND & Lx & Lm & Ld & Ln & HN). repeat split; rewrite ?map_length; auto. apply Forall_forall. intros js Hj. apply In_nth_error in Hj as [p Hp]. apply (HN p js Hp).
  Qed.
  Lemma part_body : forall Y V P work i a, a < 3 -> elastic_ok P -> neighbourhoods (e_gids P) (e_block Y V W P) 0 0 (e_nbrs P) = Ok work ->
    exists f, part_force omega K MU h alpha Y W P = Ok f /\ length f = length (e_gids P) /\ on_point 3 (e_gids P) (flat f) i a = body_force 3 (map to_nbhd work) Y V i a.
  Proof.
    intros Y V P work i a Ha HO HN. destruct (elastic_force_total (N:=RN) omega K MU h alpha _ _ _ _ _ _ _ (part_arrays Y P HO)) as (f & Ef & Lf). exists f. split; [exact Ef|]. split; [exact Lf|].
    rewrite on_point_gsum by auto. unfold elastic_force in Ef. apply bind_Ok in Ef as (th & Eth & Ef). apply bind_Ok in Ef as ([f1 o] & Er & Ef). injection Ef as ->.
    destruct HO as (ND & Lx & Lm & Ld & Ln & HX).
    rewrite (all_nbhds omega K MU h alpha (e_gids P) (e_block Y V W P) Y V (e_nbrs P) 0 0 th th [] work (repeat vzero (length (e_x P))) f o i a); auto; [|now rewrite repeat_length].
    rewrite gsum_zero by apply marks_zero. ring.
  Qed.
  Lemma nodup_gather : forall A (l : list A) ids r, NoDup l -> NoDup ids -> gather l ids = Ok r -> NoDup r.
  Proof.
    intros A l ids r NL NI H. apply gather_spec in H. induction H as [|i a ids r Hi HF IH]; [constructor|]. inversion NI; subst. constructor; auto.
    intros Hin. apply In_nth_error in Hin as [q Hq]. assert (exists i', nth_error ids q = Some i' /\ nth_error l i' = Some a) as (i' & Hq' & Hi').
    { clear - HF Hq. revert q Hq. induction HF as [|i x ids r Hx HF IH]; intros [|q] Hq; cbn in *; try discriminate; [injection Hq as ->; eauto|auto]. }
    apply H1. replace i with i'; [eapply nth_error_In; eauto|]. eapply (nodup_nth _ l); eauto.
  Qed.
  Lemma part_block_facts : forall Y V P p k js gs b, elastic_ok P -> part_block Y V P p k js gs b ->
    NoDup gs /\ 2 <= length gs /\ length (b_x b) = length gs /\ forall y : list (V3 RN), length y = length gs ->
      arrays_ok (N:=RN) (length gs) [seq 1 (length (b_x b) - 1)] (b_x b) y (b_vol b) (b_m b) (b_dmg b).
  Proof.
    intros Y V P p k js gs b (ND & Lx & Lm & Ld & Ln & HX) (Hp & Hg & Gx & Gy & Gu & Gv & Gm & Gd).
    pose proof (gather_length _ _ _ _ Hg) as Lg. pose proof (gather_length _ _ _ _ Gx) as Lbx. pose proof (gather_length _ _ _ _ Gm) as Lbm. pose proof (gather_length _ _ _ _ Gd) as Lbd.
    rewrite seq_length in Lbd. cbn [length] in *. destruct (HX p js Hp) as (Hne & NDj & HF).
    split; [exact (nodup_gather _ _ _ _ ND NDj Hg)|]. split; [destruct js; [congruence|cbn in *; lia]|]. split; [congruence|].
    intros y Ly. rewrite Lbx. cbn [Nat.sub]. rewrite Nat.sub_0_r.
    assert (Lv : length (b_vol b) = length gs) by (rewrite Gv; apply map_length). unfold arrays_ok. change (T RN) with R in *.
    split; [congruence|]. split; [exact Ly|]. split; [exact Lv|]. split; [congruence|].
    split; [unfold num_bonds; cbn [map fold_right]; rewrite seq_length, Nat.add_0_r; exact Lbd|]. split; [cbn; lia|].
    constructor; [|constructor]. apply Forall_forall. intros q Hq. apply in_seq in Hq. lia.
  Qed.
  Lemma part_holds : forall Y V P p k js gs b, elastic_ok P -> part_block Y V P p k js gs b -> holds Y V W (gs, block_local b) (to_nbhd (gs, b)).
  Proof.
    intros Y V P p k js gs b HO HB. pose proof (part_block_facts Y V P p k js gs b HO HB) as (NDg & L2 & Lx & AO). destruct HB as (Hp & Hg & Gx & Gy & Gu & Gv & Gm & Gd).
    split; [reflexivity|]. split; [exact NDg|]. split; [exact L2|]. cbn [fst snd ModelTangent.block_local l_y l_v l_vol ProofTangent6.to_nbhd n_gids n_force].
    rewrite Gy, Gu, Gv, !spots_flat. split; [reflexivity|]. split; [reflexivity|]. split; [reflexivity|].
    intros y v Ly Lv. unfold local_force. cbn [ModelTangent.block_local force_of]. destruct (flat_triples RN y (length gs) Ly) as (t & Et & Ft & Lt). rewrite Et. cbn [bind].
    destruct (elastic_force_total (N:=RN) omega K MU h alpha _ _ _ _ _ _ _ (AO t Lt)) as (f & Ef & Lf). rewrite Ef. cbn [bind]. split; [reflexivity|]. etransitivity; [exact (flat_len RN f)|lia].
  Qed.
End Parts.
