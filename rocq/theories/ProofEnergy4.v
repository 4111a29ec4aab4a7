From Coq Require Import Reals Lra Lia.
From Verif Require Import Base Num ModelNeigh SpecDamage ModelForce ModelDiffusion ModelEnergy SpecForce SpecEnergy ProofData ProofDamage ProofFrame ProofForce ProofMaterial ProofCorr ProofEnergy ProofEnergy2 ProofEnergy3.

Section Main.
  Local Open Scope R_scope.
  Local Notation vec := (V3 RN).
  Lemma In_nth0 : forall (P : R -> Prop) l, (forall a, In a l -> P a) -> forall i, (i < length l)%nat -> P (nth i l 0).
  Proof. intros P l H i Hi. apply H. now apply nth_In. Qed.

  Lemma mended_pmap : forall MU g gt m md nbrs (gm : nat -> nat -> list nat -> R), length m = length nbrs ->
    length md = length nbrs -> (forall p k js, at_point nbrs p k js -> nth_error md p = Some (gm p k js)) ->
    mended MU (pmap g 0 0 nbrs) (pmap gt 0 0 nbrs) m md =
    pmap (fun p k js => g p k js + 15 * MU / nth p m 0 * gt p k js * gt p k js * (nth p m 0 - gm p k js) / 18) 0 0 nbrs.
  Proof.
    intros MU g gt m md nbrs gm Lm Lmd Hmd.
    assert (HM : forall p, (p < length nbrs)%nat -> nth_error m p = Some (nth p m 0)) by (intros p Hp; apply nth_error_nth'; lia).
    assert (G : forall l p k, (p + length l = length nbrs)%nat -> (forall q js, nth_error l q = Some js -> nth_error md (p + q) = Some (gm (p + q)%nat (k + offset l q)%nat js)) ->
       mended MU (pmap g p k l) (pmap gt p k l) (skipn p m) (skipn p md) =
       pmap (fun p k js => g p k js + 15 * MU / nth p m 0 * gt p k js * gt p k js * (nth p m 0 - gm p k js) / 18) p k l).
    { induction l as [|js l IH]; intros p k Hl H; cbn [pmap mended]; [reflexivity|]. cbn [length] in Hl.
      pose proof (H 0%nat js eq_refl) as E. unfold offset in E. cbn in E. rewrite !Nat.add_0_r in E.
      pose proof (HM p ltac:(lia)) as E'.
      assert (S1 : skipn p m = nth p m 0 :: skipn (S p) m) by (clear - E'; revert E'; generalize (nth p m 0); intros a; revert m; induction p as [|p IH]; intros [|b m] E; cbn in *; try discriminate; [injection E as ->; reflexivity|]; auto).
      assert (S2 : skipn p md = gm p k js :: skipn (S p) md) by (clear - E; revert E; generalize (gm p k js); intros a; revert md; induction p as [|p IH]; intros [|b m] E; cbn in *; try discriminate; [injection E as ->; reflexivity|]; auto).
      rewrite S1, S2. f_equal. apply IH; [lia|]. intros q js' Hq. specialize (H (S q) js' Hq). unfold offset in H |- *. cbn [firstn] in H. unfold num_bonds in H |- *. cbn in H.
      replace (S p + q)%nat with (p + S q)%nat by lia. rewrite H. do 2 f_equal. lia. }
    apply (G nbrs 0%nat 0%nat); [reflexivity|]. intros q js Hq. apply Hmd. split; [exact Hq|reflexivity].
  Qed.
  Lemma mended_fluid_pmap : forall MU g gt m md scf pr nbrs (gm : nat -> nat -> list nat -> R), length m = length nbrs ->
    length md = length nbrs -> length scf = length nbrs -> length pr = length nbrs -> (forall p k js, at_point nbrs p k js -> nth_error md p = Some (gm p k js)) ->
    mended_fluid MU (pmap g 0 0 nbrs) (pmap gt 0 0 nbrs) m md scf pr =
    pmap (fun p k js => g p k js - nth p pr 0 * gt p k js + 15 * MU / nth p m 0 * nth p scf 0 * gt p k js * gt p k js * (nth p m 0 - gm p k js) / 18) 0 0 nbrs.
  Proof.
    intros MU g gt m md scf pr nbrs gm Lm Lmd Ls Lp Hmd.
    assert (SK : forall A (l : list A) p a, nth_error l p = Some a -> skipn p l = a :: skipn (S p) l).
    { clear. intros A l p a. revert l. induction p as [|p IH]; intros [|b l] E; cbn in *; try discriminate; [injection E as ->; reflexivity|]; auto. }
    assert (HM : forall l p, length l = length nbrs -> (p < length nbrs)%nat -> skipn p l = nth p l 0 :: skipn (S p) l) by (intros l p Hl Hp; apply SK; apply nth_error_nth'; lia).
    assert (G : forall l p k, (p + length l = length nbrs)%nat -> (forall q js, nth_error l q = Some js -> nth_error md (p + q) = Some (gm (p + q)%nat (k + offset l q)%nat js)) ->
       mended_fluid MU (pmap g p k l) (pmap gt p k l) (skipn p m) (skipn p md) (skipn p scf) (skipn p pr) =
       pmap (fun p k js => g p k js - nth p pr 0 * gt p k js + 15 * MU / nth p m 0 * nth p scf 0 * gt p k js * gt p k js * (nth p m 0 - gm p k js) / 18) p k l).
    { induction l as [|js l IH]; intros p k Hl H; cbn [pmap mended_fluid]; [reflexivity|]. cbn [length] in Hl.
      pose proof (H 0%nat js eq_refl) as E. unfold offset in E. cbn in E. rewrite !Nat.add_0_r in E. apply SK in E.
      rewrite (HM m p), (HM scf p), (HM pr p), E by lia. f_equal. apply IH; [lia|]. intros q js' Hq. specialize (H (S q) js' Hq). unfold offset in H |- *. cbn [firstn] in H. unfold num_bonds in H |- *. cbn in H.
      replace (S p + q)%nat with (p + S q)%nat by lia. rewrite H. do 2 f_equal. lia. }
    apply (G nbrs 0%nat 0%nat); [reflexivity|]. intros q js Hq. apply Hmd. split; [exact Hq|reflexivity].
  Qed.

  Lemma elastic_closed : forall omega K MU h al deltaT n nbrs x y v m dmg, cloud_ok (N:=RN) n nbrs x y v -> per_point (N:=RN) nbrs m -> per_bond (N:=RN) nbrs dmg ->
    opt_ok (per_point (N:=RN) nbrs) deltaT ->
    exists f out, run_kernel (lps (N:=RN) omega K MU h al deltaT x y v m (pmap (th_sum omega h al deltaT x v m dmg y) 0 0 nbrs) dmg None) nbrs (repeat vzero n) = Ok (f, out) /\
      elastic_evaluation (N:=RN) omega K MU h al deltaT x y v m dmg nbrs =
      Ok (f, pmap (energy_at omega K MU h al deltaT x v m dmg None y) 0 0 nbrs, pmap (th_sum omega h al deltaT x v m dmg y) 0 0 nbrs).
  Proof.
    intros omega K MU h al deltaT n nbrs x y v m dmg (Lx & Ly & Lv & Ln & Hj) Lm Ld LT. unfold per_point, per_bond in *.
    destruct (lps_run omega K MU h al deltaT x v m dmg nbrs n Lx Lv Ln Hj Lm Ld LT y Ly) as (f & out & E). exists f, out. split; [exact E|].
    unfold elastic_evaluation. rewrite (dilatations_closed omega h al deltaT x v m dmg nbrs n Lx Lv Ln Hj Lm Ld LT y Ly). cbn [bind].
    replace (length x) with n. rewrite E. cbn [bind].
    etransitivity; [apply f_equal2; [exact (energies_closed omega K MU h al deltaT x v m dmg nbrs n Lx Lv Ln Hj Lm Ld LT None y Ly I)|reflexivity]|]. reflexivity.
  Qed.
  Lemma multi_closed : forall omega K MU h al deltaT n nbrs x y pr v m scf dmg, cloud_ok (N:=RN) n nbrs x y v -> per_point (N:=RN) nbrs m -> per_bond (N:=RN) nbrs dmg ->
    opt_ok (per_point (N:=RN) nbrs) deltaT -> per_point (N:=RN) nbrs scf -> per_point (N:=RN) nbrs pr ->
    exists f out, run_kernel (coupled (N:=RN) omega K MU h al deltaT x y pr v m (pmap (th_sum omega h al deltaT x v m dmg y) 0 0 nbrs) scf dmg) nbrs (repeat vzero n) = Ok (f, out) /\
      multiphysics_evaluation (N:=RN) omega K MU h al deltaT x y pr v m scf dmg nbrs =
      Ok (f, pmap (energy_at omega K MU h al deltaT x v m dmg (Some scf) y) 0 0 nbrs, pmap (th_sum omega h al deltaT x v m dmg y) 0 0 nbrs).
  Proof.
    intros omega K MU h al deltaT n nbrs x y pr v m scf dmg (Lx & Ly & Lv & Ln & Hj) Lm Ld LT Ls Lp. unfold per_point, per_bond in *.
    destruct (coupled_run omega K MU h al deltaT x v m dmg nbrs n Lx Lv Ln Hj Lm Ld LT scf pr y Ls Lp Ly) as (f & out & E). exists f, out. split; [exact E|].
    unfold multiphysics_evaluation. rewrite (dilatations_closed omega h al deltaT x v m dmg nbrs n Lx Lv Ln Hj Lm Ld LT y Ly). cbn [bind].
    replace (length x) with n. rewrite E. cbn [bind].
    etransitivity; [apply f_equal2; [exact (energies_closed omega K MU h al deltaT x v m dmg nbrs n Lx Lv Ln Hj Lm Ld LT (Some scf) y Ly Ls)|reflexivity]|]. reflexivity.
  Qed.

  Lemma potential_power : forall omega K MU h al deltaT n nbrs x v m dmg scf P y t w f,
    length x = n -> length v = n -> (length nbrs <= n)%nat -> Forall (Forall (fun j => (j < n)%nat)) nbrs -> length m = length nbrs -> length dmg = num_bonds nbrs ->
    opt_ok (per_point (N:=RN) nbrs) deltaT -> (forall a, In a m -> a <> 0) -> moves y t w -> length w = n -> apart nbrs (y t) ->
    power v f w = - rsum (pmap (fun p k js => nth p v 0 * jsum (fun k j => nth j v 0 * tension omega K MU h al deltaT x v m dmg nbrs scf P (y t) p k j * lrate (y t) w p j) k js) 0 0 nbrs) ->
    derivable_pt_lim (fun s => total v (pmap (potential omega K MU h al deltaT x v m dmg scf P (y s)) 0 0 nbrs)) t (- power v f w).
  Proof.
    intros omega K MU h al deltaT n nbrs x v m dmg scf P y t w f Lx Lv Ln Hj Lm Ld LT Hm HM Lw HA HP.
    assert (Hm' : forall p, (p < length nbrs)%nat -> nth p m 0 <> 0) by (intros p Hp; apply (In_nth0 (fun a => a <> 0) m Hm); lia).
    eapply (derivable_pt_lim_ext (fun s => rsum (pmap (fun p k js => nth p v 0 * potential omega K MU h al deltaT x v m dmg scf P (y s) p k js) 0 0 nbrs))).
    { intros s. symmetry. apply total_pmap. lia. }
    eapply lim_eq'; [apply (rsum_deriv (fun s p k js => nth p v 0 * potential omega K MU h al deltaT x v m dmg scf P (y s) p k js))|].
    - intros p k js Ha. apply (derivable_pt_lim_scal (fun s => potential omega K MU h al deltaT x v m dmg scf P (y s) p k js)).
      eapply potential_rate; eauto.
    - rewrite HP. rewrite Ropp_involutive. reflexivity.
  Qed.

  Lemma damaged_potential : forall omega K MU h al deltaT n nbrs x v m dmg md y t w,
    cloud_ok (N:=RN) n nbrs x x v -> per_point (N:=RN) nbrs m -> per_bond (N:=RN) nbrs dmg -> opt_ok (per_point (N:=RN) nbrs) deltaT ->
    (forall a, In a m -> a <> 0) -> (forall b, In b dmg -> b = 0 \/ b = 1) -> intact_volumes omega h x v dmg nbrs md ->
    moves y t w -> length w = n -> apart nbrs (y t) ->
    exists F W th, (forall s, elastic_evaluation (N:=RN) omega K MU h al deltaT x (y s) v m dmg nbrs = Ok (F s, W s, th s)) /\
      derivable_pt_lim (fun s => total v (mended MU (W s) (th s) m md)) t (- power v (F t) w).
  Proof.
    intros omega K MU h al deltaT n nbrs x v m dmg md y t w HC Lm Ld LT Hm HD [Lmd Hmd] HM Lw HA.
    pose proof HC as (Lx & _ & Lv & Ln & Hj). pose proof (proj1 HM) as Ly.
    assert (HC' : forall s, cloud_ok (N:=RN) n nbrs x (y s) v). { intros s. repeat split; auto. rewrite Ly. exact Lw. }
    set (W := fun s => pmap (energy_at omega K MU h al deltaT x v m dmg None (y s)) 0 0 nbrs).
    set (th := fun s => pmap (th_sum omega h al deltaT x v m dmg (y s)) 0 0 nbrs).
    exists (fun s => match elastic_evaluation (N:=RN) omega K MU h al deltaT x (y s) v m dmg nbrs with Ok (f, _, _) => f | _ => [] end), W, th.
    split.
    - intros s. destruct (elastic_closed omega K MU h al deltaT n nbrs x (y s) v m dmg (HC' s) Lm Ld LT) as (f & out & _ & E).
      rewrite E. reflexivity.
    - destruct (elastic_closed omega K MU h al deltaT n nbrs x (y t) v m dmg (HC' t) Lm Ld LT) as (f & out & RUN & E). rewrite E. cbv iota beta.
      unfold per_point, per_bond in *.
      eapply (derivable_pt_lim_ext (fun s => total v (pmap (potential omega K MU h al deltaT x v m dmg None (fun _ => 0) (y s)) 0 0 nbrs))).
      { intros s. f_equal. unfold W, th. rewrite (mended_pmap MU _ _ m md nbrs (md_sum omega h x v dmg) Lm Lmd).
        - apply pmap_ext. intros p k js Ha. assert (Hpp : (p < n)%nat /\ (p < length m)%nat) by (eapply point_lt; eauto). destruct Hpp as [Hp Hpm].
          rewrite (energy_potential omega K MU h al deltaT x v m dmg nbrs n Hj Ld None (fun _ => 0) (y s) p k js Ha).
          + unfold alpha_of. unfold Rdiv. ring.
          + apply (In_nth0 (fun a => a <> 0)); auto.
          + apply (In_nth0 (fun b => b = 0 \/ b = 1)). exact HD.
        - intros p k js [Hp ->]. rewrite (Hmd p js Hp). f_equal. apply intact_closed. }
      apply (potential_power omega K MU h al deltaT n nbrs x v m dmg None (fun _ => 0) y t w f); auto.
      eapply (run_power _ _ (lps (N:=RN) omega K MU h al deltaT x (y t) v m (pmap (th_sum omega h al deltaT x v m dmg (y t)) 0 0 nbrs) dmg None) nbrs v (y t) w n); [reflexivity|exact Lv|exact Lw| |exact RUN].
      intros p k j js d fb s. eapply lps_force; eauto. rewrite Ly. exact Lw.
  Qed.
  Lemma fluid_potential : forall omega K MU h al deltaT n nbrs x pr v m scf dmg md y t w,
    cloud_ok (N:=RN) n nbrs x x v -> per_point (N:=RN) nbrs m -> per_bond (N:=RN) nbrs dmg -> opt_ok (per_point (N:=RN) nbrs) deltaT ->
    per_point (N:=RN) nbrs scf -> per_point (N:=RN) nbrs pr ->
    (forall a, In a m -> a <> 0) -> (forall b, In b dmg -> b = 0 \/ b = 1) -> intact_volumes omega h x v dmg nbrs md ->
    moves y t w -> length w = n -> apart nbrs (y t) ->
    exists F W th, (forall s, multiphysics_evaluation (N:=RN) omega K MU h al deltaT x (y s) pr v m scf dmg nbrs = Ok (F s, W s, th s)) /\
      derivable_pt_lim (fun s => total v (mended_fluid MU (W s) (th s) m md scf pr)) t (- power v (F t) w).
  Proof.
    intros omega K MU h al deltaT n nbrs x pr v m scf dmg md y t w HC Lm Ld LT Ls Lp Hm HD [Lmd Hmd] HM Lw HA.
    pose proof HC as (Lx & _ & Lv & Ln & Hj). pose proof (proj1 HM) as Ly.
    assert (HC' : forall s, cloud_ok (N:=RN) n nbrs x (y s) v). { intros s. repeat split; auto. rewrite Ly. exact Lw. }
    set (W := fun s => pmap (energy_at omega K MU h al deltaT x v m dmg (Some scf) (y s)) 0 0 nbrs).
    set (th := fun s => pmap (th_sum omega h al deltaT x v m dmg (y s)) 0 0 nbrs).
    exists (fun s => match multiphysics_evaluation (N:=RN) omega K MU h al deltaT x (y s) pr v m scf dmg nbrs with Ok (f, _, _) => f | _ => [] end), W, th.
    split.
    - intros s. destruct (multi_closed omega K MU h al deltaT n nbrs x (y s) pr v m scf dmg (HC' s) Lm Ld LT Ls Lp) as (f & out & _ & E).
      rewrite E. reflexivity.
    - destruct (multi_closed omega K MU h al deltaT n nbrs x (y t) pr v m scf dmg (HC' t) Lm Ld LT Ls Lp) as (f & out & RUN & E). rewrite E. cbv iota beta.
      unfold per_point, per_bond in *.
      eapply (derivable_pt_lim_ext (fun s => total v (pmap (potential omega K MU h al deltaT x v m dmg (Some scf) (fun p => nth p pr 0) (y s)) 0 0 nbrs))).
      { intros s. f_equal. unfold W, th. rewrite (mended_fluid_pmap MU _ _ m md scf pr nbrs (md_sum omega h x v dmg) Lm Lmd Ls Lp).
        - apply pmap_ext. intros p k js Ha. assert (Hpp : (p < n)%nat /\ (p < length m)%nat) by (eapply point_lt; eauto). destruct Hpp as [Hp Hpm].
          rewrite (energy_potential omega K MU h al deltaT x v m dmg nbrs n Hj Ld (Some scf) (fun p => nth p pr 0) (y s) p k js Ha).
          + unfold alpha_of. cbv beta. rrd.
          + apply (In_nth0 (fun a => a <> 0)); auto.
          + apply (In_nth0 (fun b => b = 0 \/ b = 1)). exact HD.
        - intros p k js [Hp ->]. rewrite (Hmd p js Hp). f_equal. apply intact_closed. }
      apply (potential_power omega K MU h al deltaT n nbrs x v m dmg (Some scf) (fun p => nth p pr 0) y t w f); auto.
      eapply (run_power _ _ (coupled (N:=RN) omega K MU h al deltaT x (y t) pr v m (pmap (th_sum omega h al deltaT x v m dmg (y t)) 0 0 nbrs) scf dmg) nbrs v (y t) w n); [reflexivity|exact Lv|exact Lw| |exact RUN].
      intros p k j js d fb s. eapply coupled_force; eauto. rewrite Ly. exact Lw.
  Qed.
  (** undamaged bodies *)
  Lemma intact_whole : forall omega h n nbrs x v m, cloud_ok (N:=RN) n nbrs x x v ->
    dilatations (fun p _ js => weightedVolume (N:=RN) omega x v h p js) 0 0 nbrs = Ok m ->
    per_point (N:=RN) nbrs m /\ intact_volumes omega h x v (repeat 0 (num_bonds nbrs)) nbrs m.
  Proof.
    intros omega h n nbrs x v m (Lx & _ & Lv & Ln & Hj) E.
    assert (C : dilatations (fun p _ js => weightedVolume (N:=RN) omega x v h p js) 0 0 nbrs = Ok (pmap (md_sum omega h x v (repeat 0 (num_bonds nbrs))) 0 0 nbrs)).
    { apply dil_pmap. intros p k js Ha. unfold weightedVolume.
      assert (Hp : (p < n)%nat) by (destruct Ha as [H _]; assert ((p < length nbrs)%nat) by (apply nth_error_Some; congruence); lia).
      rewrite (at_nth _ (@vzero RN) x p) by rlia. cbn [bind].
      pose proof (fun i j Hi => bond_at_In _ _ _ _ _ (bonds_of _ _ _ _ Ha i j Hi) Hj) as HB. cbv beta in HB.
      transitivity (Ok (0 + md_sum omega h x v (repeat 0 (num_bonds nbrs)) p k js)); [|f_equal; ring].
      change (ofZ 0) with 0. generalize 0 at 1 2 as acc. clear Ha E. revert k. induction js as [|j js IH]; intros k acc; cbn [foldM].
      - unfold md_sum. cbn [jsum]. f_equal. ring.
      - pose proof (HB 0%nat j eq_refl) as Hjn. rewrite (at_nth (T RN) 0 v j), (at_nth _ (@vzero RN) x j) by rlia. cbn [bind].
        etransitivity; [apply (IH (fun i j' Hi => HB (S i) j' Hi) (S k))|]. f_equal. unfold md_sum. cbn [jsum].
        assert (Z : nth k (repeat 0 (num_bonds nbrs)) 0 = 0) by (clear; generalize (num_bonds nbrs) as q; revert k; intros k q; revert k; induction q; intros [|k]; cbn; auto).
        rewrite Z. cbv zeta. rewrite (dist_sqr (nth p x vzero) (nth j x vzero)). rewrite <- (vlen_dist (nth p x vzero) (nth j x vzero)). unfold om. fold (ze x p j).
        change (sqr_root (n:=RN) (Rsqr (ze x p j))) with (sqrt (Rsqr (ze x p j))). rewrite sqrt_Rsqr by (unfold ze; rewrite vlen_dist; apply dist_pos). unfold Rsqr. rring. }
    rewrite C in E. injection E as <-. split; [apply pmap_len|]. split; [apply pmap_len|]. intros p js Hp.
    rewrite (pmap_nth _ _ nbrs p (offset nbrs p) js) by (split; auto). now rewrite intact_closed.
  Qed.
  Lemma mended_same : forall MU m W th, length W = length m -> length th = length m -> (forall a, In a m -> a <> 0) -> mended MU W th m m = W.
  Proof.
    intros MU m. induction m as [|a m IH]; intros [|b W] [|q th] L1 L2 H; try discriminate; cbn [mended]; [reflexivity|].
    f_equal; [field; apply H; now left|]. apply IH; auto. intros c Hc. apply H. now right.
  Qed.
End Main.
