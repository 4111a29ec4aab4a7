From Coq Require Import Reals Lra Lia.
From Verif Require Import Base Num ModelNeigh SpecDamage ModelForce ModelDiffusion ModelEnergy ModelShear SpecForce SpecEnergy SpecShear ProofData ProofDamage ProofForce ProofMaterial ProofCorr ProofEnergy ProofEnergy2 ProofEnergy3.
Section Shear.
  Local Open Scope R_scope.
  Local Notation vec := (V3 RN).

  Lemma foldM_sum : forall (f : R -> nat -> outcome R) F js s k, (forall s j, In j js -> f s j = Ok (s + F j)) ->
    foldM f s js = Ok (s + jsum (fun _ j => F j) k js).
  Proof.
    intros f F. induction js as [|j js IH]; intros s k H; cbn [foldM jsum]; [f_equal; ring|].
    rewrite H by (now left). cbn [bind]. rewrite (IH _ (S k)) by (intros; apply H; now right). f_equal. ring.
  Qed.

  Lemma write_at : forall A (d : A) l i a, (i < length l)%nat -> exists l', upd_ub l i a = Ok l' /\ length l' = length l /\ nth i l' d = a /\ forall k, k <> i -> nth k l' d = nth k l d.
  Proof.
    intros A d l i a Hi. destruct (upd_lt A l i a Hi) as [l' U]. exists l'. unfold upd_ub. rewrite U. split; [reflexivity|].
    destruct (upd_nth l i a l' U) as (L & P & Q). split; [exact L|]. split; [now apply nth_error_nth|].
    intros k Hk. specialize (Q k Hk). destruct (nth_error l k) eqn:E; [now rewrite (nth_error_nth _ _ d E), (nth_error_nth _ _ d Q)|].
    apply nth_error_None in E, Q. now rewrite !nth_overflow.
  Qed.

  Definition shape (m : shear_mode) : R -> vec -> vec -> vec := match m with XY => shear_xy | ZX => shear_zx | YZ => shear_yz end.
  Lemma shear_to_shape : forall m g X XP, shear_to (N:=RN) m g X XP = shape m g X XP.
  Proof.
    intros m g [a b c] [d e f]. unfold shear_to. destruct m; apply v3_ext; cbn; rring.
  Qed.
  Lemma shape_fix : forall m g X, shape m g X X = X.
  Proof. intros m g [a b c]. destruct m; apply v3_ext; cbn; rring. Qed.

  Variables (omega : R -> R -> R) (h g : R) (x : list vec) (v m : list R) (nbrs : list (list nat)) (n : nat).
  Hypothesis (Lx : length x = n) (Lv : length v = n) (Ln : (length nbrs <= n)%nat) (Hj : Forall (Forall (fun j => (j < n)%nat)) nbrs)
    (Lm : length m = length nbrs) (HS : no_self nbrs).

  Lemma set_shear : forall md X js y, Forall (fun j => (j < n)%nat) js -> length y = n ->
    exists y', set_pure_shear (N:=RN) md g x X js y = Ok y' /\ length y' = n /\
      (forall j, In j js -> nth j y' vzero = shape md g X (nth j x vzero)) /\
      (forall i, ~ In i js -> nth i y' vzero = nth i y vzero).
  Proof.
    intros md X. induction js as [|j js IH]; intros y HJ Ly.
    - exists y. repeat split; auto. intros j [].
    - apply Forall_cons_iff in HJ as [Hj0 HJ]. unfold set_pure_shear. cbn [foldM]. rewrite (at_nth vec vzero x j) by lia. cbn [bind].
      rewrite shear_to_shape.
      destruct (write_at vec vzero y j (shape md g X (nth j x vzero))) as (y1 & U & L1 & P & Q); [lia|].
      rewrite U. cbn [bind].
      destruct (IH y1) as (y' & E & L & A & B); auto; [lia|].
      exists y'. split; [exact E|]. split; [exact L|]. split.
      + intros i [<-|Hi]; [|now apply A]. destruct (in_dec Nat.eq_dec j js) as [Hi|Hi]; [now apply A|].
        rewrite B by exact Hi. exact P.
      + intros i Hi. rewrite B by (intros HQ; apply Hi; now right). apply Q. intros ->. apply Hi. now left.
  Qed.

  Definition probed (md : shear_mode) (p : nat) : list vec := map (shape md g (nth p x vzero)) x.
  Lemma probed_nth : forall md p j, (j < n)%nat -> nth j (probed md p) vzero = shape md g (nth p x vzero) (nth j x vzero).
  Proof. intros md p j H. unfold probed. rewrite (nth_indep _ vzero (shape md g (nth p x vzero) vzero)) by (rewrite map_length, Lx; exact H). apply map_nth. Qed.

  Variables (al : R) (dmg : list R).
  Hypothesis (Z : forall k, nth k dmg 0 = 0).
  Definition dil (md : shear_mode) (p k : nat) (js : list nat) : R := th_sum omega h al None x v m dmg (probed md p) p k js.
  Definition dev (md : shear_mode) (p k : nat) (js : list nat) : R := dev_sum omega h al None x v dmg (probed md p) (dil md p k js) p k js.
  Lemma probe_closed : forall md p k js y, at_point nbrs p k js -> length y = n ->
    exists y', probe (N:=RN) omega h g x v (nth p m 0) p js md y = Ok (y', dev md p k js) /\ length y' = n.
  Proof.
    intros md p k js y Ha Ly. destruct Ha as [Hp Hk].
    assert (Hpn : (p < n)%nat) by (assert ((p < length nbrs)%nat) by (apply nth_error_Some; congruence); lia).
    pose proof (HS p js Hp) as Hs.
    assert (HJ : Forall (fun j => (j < n)%nat) js) by (eapply Forall_forall in Hj; [exact Hj|eapply nth_error_In; exact Hp]).
    unfold probe. rewrite (at_nth vec vzero x p) by lia. cbn [bind].
    destruct (write_at vec vzero y p (nth p x vzero)) as (y1 & U & L1 & P & Q); [lia|]. rewrite U. cbn [bind].
    destruct (set_shear md (nth p x vzero) js y1 HJ) as (y2 & E & L & A & B); [lia|]. rewrite E. cbn [bind].
    rewrite (at_nth vec vzero y2 p) by lia. cbn [bind]. rewrite (B p Hs), P.
    exists y2. split; [|exact L].
    assert (EX : forall j, In j js -> vlen (vsub (nth j y2 vzero) (nth p x vzero)) - ze x p j = ex al None x (probed md p) p j).
    { intros j Hjs. unfold ex, shift, dTat. rewrite !probed_nth by (auto; eapply Forall_forall in HJ; eauto). rewrite shape_fix, (A j Hjs). ring. }
    assert (D : dilatation_one (N:=RN) omega h x y2 v (nth p m 0) (nth p x vzero) (nth p x vzero) js = Ok (dil md p k js)).
    { unfold dilatation_one. rewrite (foldM_sum _ (fun j => 3 * om omega h x p j * (1 - 0) * ze x p j * ex al None x (probed md p) p j * nth j v 0 / nth p m 0) js 0 k).
      - f_equal. unfold dil, th_sum. rewrite Rplus_0_l. apply jsum_ext. intros i j Hi. cbv beta. rewrite Z. reflexivity.
      - intros s j Hi. eapply Forall_forall in HJ; [|exact Hi]. cbv beta in HJ.
        rewrite (at_nth (T RN) 0 v j) by (change (T RN) with R; lia). rewrite (at_nth vec vzero x j) by lia. rewrite (at_nth vec vzero y2 j) by lia. cbn [bind].
        f_equal. rewrite <- (EX j Hi). unfold om. fold (ze x p j). reflexivity. }
    unfold norm_deviatoric. rewrite D. cbn [bind].
    rewrite (foldM_sum _ (fun j => (1 - 0) * om omega h x p j * (ex al None x (probed md p) p j - dil md p k js * ze x p j / 3) * (ex al None x (probed md p) p j - dil md p k js * ze x p j / 3) * nth j v 0) js 0 k).
    - cbn [bind]. f_equal. f_equal. unfold dev, dev_sum. rewrite Rplus_0_l. apply jsum_ext. intros i j Hi. cbv beta. rewrite Z. reflexivity.
    - intros s j Hi. eapply Forall_forall in HJ; [|exact Hi]. cbv beta in HJ.
      rewrite (at_nth (T RN) 0 v j) by (change (T RN) with R; lia). rewrite (at_nth vec vzero x j) by lia. rewrite (at_nth vec vzero y2 j) by lia. cbn [bind].
      f_equal. rewrite <- (EX j Hi). unfold om. fold (ze x p j). to_R. change (T RN) with R in *. ring.
  Qed.

  Definition dev_max (p k : nat) (js : list nat) : R := Rmax (Rmax (dev XY p k js) (dev ZX p k js)) (dev YZ p k js).
  Definition factor_at (p k : nat) (js : list nat) : R := 4 * g * g * nth p m 0 / dev_max p k js / 15.
  Lemma max_if : forall a b, (if Rltb a b then b else a) = Rmax a b.
  Proof.
    intros a b. destruct (Rltb a b) eqn:E.
    - apply Rltb_true in E. rewrite Rmax_right; lra.
    - apply Rltb_false in E. rewrite Rmax_left; lra.
  Qed.
  Lemma point_closed : forall p k js y, at_point nbrs p k js -> length y = n ->
    exists y', shear_point (N:=RN) omega h g x v m p js y = Ok (y', factor_at p k js) /\ length y' = n.
  Proof.
    intros p k js y Ha Ly.
    assert (Hp : (p < length nbrs)%nat) by (destruct Ha as [Hp _]; apply nth_error_Some; congruence).
    unfold shear_point. rewrite (at_nth (T RN) 0 m p) by (change (T RN) with R; lia). cbn [bind]. change (T RN) with R in *.
    destruct (probe_closed XY p k js y Ha Ly) as (y1 & E1 & L1). rewrite E1. cbn [bind].
    destruct (probe_closed ZX p k js y1 Ha L1) as (y2 & E2 & L2). rewrite E2. cbn [bind].
    destruct (probe_closed YZ p k js y2 Ha L2) as (y3 & E3 & L3). rewrite E3. cbn [bind].
    rewrite (at_nth vec vzero x p) by lia. cbn [bind].
    destruct (write_at vec vzero y3 p (nth p x vzero)) as (y4 & U & L4 & _); [lia|]. rewrite U. cbn [bind].
    exists y4. split; [|lia]. f_equal. f_equal. unfold factor_at, dev_max. rewrite <- !max_if. reflexivity.
  Qed.
  Lemma points_closed : forall y, length y = n -> shear_points (N:=RN) omega h g x v m 0 nbrs y = Ok (pmap factor_at 0 0 nbrs).
  Proof.
    apply (visit (fun l p k => forall y, length y = n -> shear_points (N:=RN) omega h g x v m p l y = Ok (pmap factor_at p k l))); [reflexivity|].
    intros js rest p k Ha IH y Ly. cbn [shear_points pmap].
    destruct (point_closed p k js y Ha Ly) as (y' & E & L). rewrite E. cbn [bind]. change (1 + p)%nat with (S p). rewrite (IH y' L). reflexivity.
  Qed.
End Shear.
