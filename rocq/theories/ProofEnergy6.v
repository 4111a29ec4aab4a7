From Coq Require Import Reals Lra Lia.
From Verif Require Import Base Num ModelNeigh SpecDamage ModelForce ModelGlobal ModelEnergy SpecForce SpecGlobal SpecEnergy ProofData ProofFrame ProofForce ProofMaterial ProofCorr ProofGlobal ProofEnergy ProofEnergy2.

Section Output.
  Local Open Scope R_scope.
  Local Notation vec := (V3 RN).
  Lemma points_nth : forall K MU rho x y vel v m theta owned nbrs q l, output_points (N:=RN) K MU rho x y vel v m theta q owned nbrs = Ok l ->
    length l = length owned /\ forall i ID, nth_error owned i = Some ID -> exists js a, nth_error nbrs i = Some js /\ nth_error l i = Some a /\
      output_point (N:=RN) K MU rho x y vel v m theta (q + i) ID js = Ok a.
  Proof.
    intros K MU rho x y vel v m theta. induction owned as [|ID owned IH]; intros nbrs q l H; cbn [output_points] in H.
    - injection H as <-. split; [reflexivity|]. intros [|i] ID Hi; discriminate.
    - destruct nbrs as [|js nbrs]; [discriminate|]. apply bind_Ok in H as (a & Ha & H). apply bind_Ok in H as (r & Hr & H). injection H as <-.
      destruct (IH _ _ _ Hr) as [L G]. split; [cbn [length]; f_equal; exact L|]. intros [|i] ID' Hi; cbn [nth_error] in *.
      + injection Hi as <-. exists js, a. rewrite Nat.add_0_r. auto.
      + destruct (G i ID' Hi) as (js' & a' & G1 & G2 & G3). exists js', a'. replace (q + S i)%nat with (1 + q + i)%nat by lia. auto.
  Qed.
  Lemma point_parts : forall K MU rho x y vel v m theta i ID js W SE KE, output_point (N:=RN) K MU rho x y vel v m theta i ID js = Ok (W, SE, KE) ->
    exists vol u, nth_error v ID = Some vol /\ nth_error vel ID = Some u /\ SE = vol * W /\ KE = 1 / 2 * rho * vol * vdot u u.
  Proof.
    intros K MU rho x y vel v m theta i ID js W SE KE H. unfold output_point in H.
    apply bind_Ok in H as (vol & H1 & H). apply bind_Ok in H as (mp & H2 & H). apply bind_Ok in H as (u & H3 & H). apply bind_Ok in H as (We & H4 & H). apply bind_Ok in H as (th & H5 & H).
    cbv zeta in H. apply Ok_pair in H as [H HK]. apply (f_equal (fun a => a)) in H.
    exists vol, u. apply at_ub_Ok in H1, H3. split; [exact H1|]. split; [exact H3|]. injection H as H6 H7. subst. split; [reflexivity|].
    unfold vdot. unfold lit. cbn [ofZ div]. to_R. change (T RN) with R in *. field.
  Qed.
  Lemma fold_plus : forall A (g : A -> R) l a, fold_left (fun s x => s + g x) l a = a + Rsum (map g l).
  Proof. intros A g. induction l as [|b l IH]; intros a; cbn [fold_left map]; [unfold Rsum; cbn; ring|]. rewrite IH. unfold Rsum. cbn [fold_right]. fold (Rsum (map g l)). ring. Qed.
  Lemma totals_sum : forall l : list (R * R * R), output_totals (N:=RN) l = (Rsum (map (fun a => snd (fst a)) l), Rsum (map snd l)).
  Proof.
    intros l. unfold output_totals. change (ofZ (n:=RN) 0) with 0.
    pose proof (fold_plus _ (fun a : R * R * R => snd (fst a)) l 0) as E1. pose proof (fold_plus _ (fun a : R * R * R => snd a) l 0) as E2.
    apply f_equal2; [etransitivity; [exact E1|apply Rplus_0_l]|etransitivity; [exact E2|apply Rplus_0_l]].
  Qed.
  Definition padd (a b : R * R) : R * R := (fst a + fst b, snd a + snd b).
  Lemma zip_pair : forall (g : R * R -> R), (forall a b, g (padd a b) = g a + g b) -> forall a b, length a = length b ->
    Rsum (map g (zip_with padd a b)) = Rsum (map g a) + Rsum (map g b).
  Proof.
    intros g Hg. induction a as [|p a IH]; intros [|q b] L; try discriminate; cbn [zip_with map]; unfold Rsum; cbn [fold_right]; [ring|].
    fold (Rsum (map g (zip_with padd a b))) (Rsum (map g a)) (Rsum (map g b)). rewrite IH by (injection L; auto). rewrite Hg. ring.
  Qed.
  Lemma zip_pairs : forall (g : R * R -> R) nb, (forall a b, g (padd a b) = g a + g b) -> forall t a, length a = nb -> Forall (fun l => length l = nb) t ->
    length (fold_left (zip_with padd) t a) = nb /\ Rsum (map g (fold_left (zip_with padd) t a)) = Rsum (map g a) + Rsum (map g (concat t)).
  Proof.
    intros g nb Hg. induction t as [|b t IH]; intros a La Ht; cbn [fold_left concat].
    - split; [exact La|]. unfold Rsum at 3. cbn. ring.
    - inversion Ht as [|? ? Lb Ht']; subst. destruct (IH (zip_with padd a b)) as [L E]; [rewrite zip_len; auto|exact Ht'|]. split; [exact L|].
      rewrite E, (zip_pair g Hg) by auto. rewrite map_app, Rsum_app. ring.
  Qed.
  Lemma global_sum : forall nb psss, psss <> [] -> Forall (fun pss => length pss = nb) psss ->
    output_global (N:=RN) (map (map (output_totals (N:=RN))) psss)
    = Ok (Rsum (map (fun a => snd (fst a)) (concat (concat psss))), Rsum (map snd (concat (concat psss)))).
  Proof.
    intros nb psss H0 HL. destruct psss as [|p t]; [easy|]. unfold output_global. cbn [map all_reduce bind].
    inversion HL as [|? ? Lp Lt]; subst.
    assert (TOT : forall (g : R * R -> R) (g' : R * R * R -> R), (forall a b, g (padd a b) = g a + g b) -> (forall l, g (output_totals (N:=RN) l) = Rsum (map g' l)) ->
      fold_left (fun s a => s + g a) (fold_left (zip_with padd) (map (map (output_totals (N:=RN))) t) (map (output_totals (N:=RN)) p)) 0 = Rsum (map g' (concat (concat (p :: t))))).
    { intros g g' Hg Hg'. etransitivity; [apply fold_plus|].
      destruct (zip_pairs g (length p) Hg (map (map (output_totals (N:=RN))) t) (map (output_totals (N:=RN)) p)) as [_ E].
      - now rewrite map_length.
      - apply Forall_map. eapply Forall_impl; [|exact Lt]. intros a Ha. cbv beta. now rewrite map_length.
      - rewrite E. cbn [concat]. rewrite concat_app, map_app, Rsum_app.
        assert (S1 : forall q, Rsum (map g (map (output_totals (N:=RN)) q)) = Rsum (map g' (concat q))).
        { induction q as [|l q IH]; [reflexivity|]. cbn [map concat]. rewrite map_app, Rsum_app. unfold Rsum at 1. cbn [fold_right]. fold (Rsum (map g (map (output_totals (N:=RN)) q))). apply f_equal2; [apply Hg'|exact IH]. }
        rewrite S1, <- concat_map, S1. apply Rplus_0_l. }
    f_equal. apply f_equal2.
    - apply (TOT fst (fun a => snd (fst a))); [reflexivity|]. intros l. now rewrite totals_sum.
    - apply (TOT snd snd); [reflexivity|]. intros l. now rewrite totals_sum.
  Qed.

  (** uniform expansion *)
  Lemma output_sum_zero : forall x y v theta i (js : list nat), (forall j, In j js -> (j < length x)%nat /\ (j < length y)%nat /\ (j < length v)%nat) ->
    (i < length x)%nat -> (i < length y)%nat -> (i < length theta)%nat ->
    (forall j, In j js -> vlen (vsub (nth j y vzero) (nth i y (@vzero RN))) - vlen (vsub (nth j x vzero) (nth i x (@vzero RN))) = nth i theta 0 * vlen (vsub (nth j x vzero) (nth i x (@vzero RN))) / 3) ->
    output_sum (N:=RN) x y v theta i i js = Ok 0.
  Proof.
    intros x y v theta i js HJ Hx Hy Ht HE. unfold output_sum. change (ofZ 0) with 0.
    match goal with |- foldM ?f _ _ = _ => set (g := f) end.
    assert (ST : forall j, In j js -> g 0 j = Ok 0).
    { intros j Hj. destruct (HJ j Hj) as (J1 & J2 & J3). unfold g.
      rewrite (at_nth (T RN) 0 v j), !(at_nth _ (@vzero RN) x), !(at_nth _ (@vzero RN) y), (at_nth (T RN) 0 theta i) by rlia. cbn [bind]. f_equal.
      pose proof (HE j Hj) as Q. unfold output_bond. cbv zeta. revert Q.
      generalize (vlen (vsub (nth j y vzero) (nth i y (@vzero RN)))) (vlen (vsub (nth j x vzero) (nth i x (@vzero RN)))) (nth j v 0).
      intros a b d Q. change (T RN) with R in *. change (0 + 1 * (a - b - nth i theta 0 * b / 3) * d = 0). rewrite Q. unfold Rdiv. ring. }
    clearbody g. clear - ST. induction js as [|j js IH]; [reflexivity|]. cbn [foldM]. rewrite (ST j (or_introl eq_refl)). cbn [bind]. apply IH. intros a Ha. apply ST. now right.
  Qed.
  Lemma points_total : forall K MU rho x y vel v m theta (f : nat -> nat -> list nat -> R * R * R) nbrs q,
    (forall i js, nth_error nbrs i = Some js -> output_point (N:=RN) K MU rho x y vel v m theta (q + i) (q + i) js = Ok (f (q + i)%nat 0%nat js)) ->
    exists l, output_points (N:=RN) K MU rho x y vel v m theta q (seq q (length nbrs)) nbrs = Ok l /\ forall i js, nth_error nbrs i = Some js -> nth_error l i = Some (f (q + i)%nat 0%nat js).
  Proof.
    intros K MU rho x y vel v m theta f. induction nbrs as [|js nbrs IH]; intros q H; cbn [length seq output_points].
    - exists []. split; [reflexivity|]. intros [|i] js; discriminate.
    - pose proof (H 0%nat js eq_refl) as H0. rewrite Nat.add_0_r in H0. rewrite H0. cbn [bind].
      destruct (IH (S q)) as (l & E & G). { intros i js' Hi. specialize (H (S i) js' Hi). now replace (S q + i)%nat with (q + S i)%nat by lia. }
      change (1 + q)%nat with (S q). rewrite E. cbn [bind]. eexists. split; [reflexivity|]. intros [|i] js' Hi; cbn [nth_error] in *.
      + injection Hi as <-. now rewrite Nat.add_0_r.
      + rewrite (G i js' Hi). now replace (S q + i)%nat with (q + S i)%nat by lia.
  Qed.
End Output.
