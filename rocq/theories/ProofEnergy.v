From Coq Require Import Reals Lra Lia.
From Verif Require Import Base Num ModelNeigh SpecDamage ModelForce SpecForce SpecEnergy ProofData ProofDamage ProofFrame ProofForce ProofMaterial ProofCorr.

(** ** sums over the bonds of a point, and per-point results *)
Section Sums.
  Local Open Scope R_scope.
  Fixpoint jsum (F : nat -> nat -> R) (k : nat) (js : list nat) {struct js} : R :=
    match js with [] => 0 | j :: js' => F k j + jsum F (S k) js' end.
  Lemma jsum_ext : forall F G js k, (forall n j, nth_error js n = Some j -> F (k + n)%nat j = G (k + n)%nat j) -> jsum F k js = jsum G k js.
  Proof.
    intros F G. induction js as [|j js IH]; intros k H; cbn [jsum]; [reflexivity|]. f_equal.
    - specialize (H 0%nat j eq_refl). now rewrite Nat.add_0_r in H.
    - apply IH. intros n i Hn. specialize (H (S n) i Hn). now replace (S k + n)%nat with (k + S n)%nat by lia.
  Qed.
  Lemma jsum_plus : forall F G js k, jsum (fun k j => F k j + G k j) k js = jsum F k js + jsum G k js.
  Proof. intros F G. induction js as [|j js IH]; intros k; cbn [jsum]; [ring|]. rewrite IH. ring. Qed.
  Lemma jsum_scal : forall c F js k, jsum (fun k j => c * F k j) k js = c * jsum F k js.
  Proof. intros c F. induction js as [|j js IH]; intros k; cbn [jsum]; [ring|]. rewrite IH. ring. Qed.
  Lemma jsum_nonneg : forall F js k, (forall n j, nth_error js n = Some j -> 0 <= F (k + n)%nat j) -> 0 <= jsum F k js.
  Proof.
    intros F. induction js as [|j js IH]; intros k H; cbn [jsum]; [lra|].
    pose proof (H 0%nat j eq_refl) as H0. rewrite Nat.add_0_r in H0.
    assert (0 <= jsum F (S k) js); [|lra]. apply IH. intros n i Hn. specialize (H (S n) i Hn). now replace (S k + n)%nat with (k + S n)%nat by lia.
  Qed.
  Lemma jsum_zero : forall F js k, (forall n j, nth_error js n = Some j -> F (k + n)%nat j = 0) -> jsum F k js = 0.
  Proof.
    intros F js k H. rewrite (jsum_ext F (fun _ _ => 0 * 0)).
    - rewrite jsum_scal. ring.
    - intros n j Hn. rewrite (H n j Hn). ring.
  Qed.
  Lemma jsum_deriv : forall (F : R -> nat -> nat -> R) F' t js k,
    (forall n j, nth_error js n = Some j -> derivable_pt_lim (fun s => F s (k + n)%nat j) t (F' (k + n)%nat j)) ->
    derivable_pt_lim (fun s => jsum (F s) k js) t (jsum F' k js).
  Proof.
    intros F F' t. induction js as [|j js IH]; intros k H; cbn [jsum].
    - apply derivable_pt_lim_const.
    - apply (derivable_pt_lim_plus (fun s => F s k j) (fun s => jsum (F s) (S k) js)).
      + specialize (H 0%nat j eq_refl). now rewrite Nat.add_0_r in H.
      + apply IH. intros n i Hn. specialize (H (S n) i Hn). now replace (S k + n)%nat with (k + S n)%nat by lia.
  Qed.

  Fixpoint pmap {A} (g : nat -> nat -> list nat -> A) (p k : nat) (nbrs : list (list nat)) {struct nbrs} : list A :=
    match nbrs with [] => [] | js :: rest => g p k js :: pmap g (S p) (length js + k) rest end.
  (** the points and bond numbers visited *)
  Definition at_point (nbrs : list (list nat)) (p k : nat) (js : list nat) : Prop := nth_error nbrs p = Some js /\ k = offset nbrs p.
  Lemma visit : forall (P : list (list nat) -> nat -> nat -> Prop) nbrs, P [] (length nbrs) (num_bonds nbrs) ->
    (forall js rest p k, at_point nbrs p k js -> P rest (S p) (length js + k)%nat -> P (js :: rest) p k) -> P nbrs 0%nat 0%nat.
  Proof.
    intros P nbrs H0 HS.
    assert (G : forall todo done, nbrs = done ++ todo -> P todo (length done) (num_bonds done)).
    { induction todo as [|js todo IH]; intros done E.
      - rewrite app_nil_r in E. subst done. exact H0.
      - apply HS.
        + split; [rewrite E; apply nth_app_here|]. rewrite E. symmetry. apply offset_app.
        + specialize (IH (done ++ [js])). rewrite app_length, num_bonds_app in IH. cbn [length] in IH. rewrite Nat.add_1_r in IH.
          replace (num_bonds done + num_bonds [js])%nat with (length js + num_bonds done)%nat in IH by (unfold num_bonds; simpl; lia).
          apply IH. subst. now rewrite <- app_assoc. }
    exact (G nbrs [] eq_refl).
  Qed.
  Lemma pmap_len : forall A (g : nat -> nat -> list nat -> A) nbrs p k, length (pmap g p k nbrs) = length nbrs.
  Proof. intros A g. induction nbrs as [|js nbrs IH]; intros p k; cbn [pmap length]; [reflexivity|]. now rewrite IH. Qed.
  Lemma pmap_nth : forall A (g : nat -> nat -> list nat -> A) nbrs p k js, at_point nbrs p k js -> nth_error (pmap g 0 0 nbrs) p = Some (g p k js).
  Proof.
    intros A g nbrs p k js [Hp ->].
    assert (G : forall nbrs p0 k0 p js, nth_error nbrs p = Some js -> nth_error (pmap g p0 k0 nbrs) p = Some (g (p0 + p)%nat (k0 + offset nbrs p)%nat js)).
    { clear. induction nbrs as [|l nbrs IH]; intros p0 k0 p js H; [destruct p; discriminate|]. destruct p as [|p]; cbn [nth_error pmap] in *.
      - injection H as ->. unfold offset. cbn. now rewrite !Nat.add_0_r.
      - rewrite (IH _ _ _ _ H). do 2 f_equal; [lia|]. unfold offset. cbn [firstn]. unfold num_bonds. cbn [concat map fold_right]. cbn. unfold offset, num_bonds. lia. }
    exact (G nbrs 0%nat 0%nat p js Hp).
  Qed.
  Lemma pmap_ext : forall A (g g' : nat -> nat -> list nat -> A) nbrs, (forall p k js, at_point nbrs p k js -> g p k js = g' p k js) -> pmap g 0 0 nbrs = pmap g' 0 0 nbrs.
  Proof.
    intros A g g' nbrs H. apply (visit (fun l p k => pmap g p k l = pmap g' p k l)); [reflexivity|].
    intros js rest p k Ha IH. cbn [pmap]. rewrite IH. now rewrite (H _ _ _ Ha).
  Qed.
  Lemma dil_pmap : forall (f : nat -> nat -> list nat -> outcome R) g nbrs, (forall p k js, at_point nbrs p k js -> f p k js = Ok (g p k js)) ->
    dilatations (N:=RN) f 0 0 nbrs = Ok (pmap g 0 0 nbrs).
  Proof.
    intros f g nbrs H. apply (visit (fun l p k => dilatations (N:=RN) f p k l = Ok (pmap g p k l))); [reflexivity|].
    intros js rest p k Ha IH. cbn [dilatations pmap Nat.add]. rewrite (H _ _ _ Ha). cbn [bind]. rewrite IH. reflexivity.
  Qed.
  Definition rsum (l : list R) : R := fold_right Rplus 0 l.
  Lemma rsum_deriv : forall (g : R -> nat -> nat -> list nat -> R) g' t nbrs,
    (forall p k js, at_point nbrs p k js -> derivable_pt_lim (fun s => g s p k js) t (g' p k js)) ->
    derivable_pt_lim (fun s => rsum (pmap (g s) 0 0 nbrs)) t (rsum (pmap g' 0 0 nbrs)).
  Proof.
    intros g g' t nbrs H. apply (visit (fun l p k => derivable_pt_lim (fun s => rsum (pmap (g s) p k l)) t (rsum (pmap g' p k l)))).
    - apply derivable_pt_lim_const.
    - intros js rest p k Ha IH. cbn [pmap rsum fold_right].
      apply (derivable_pt_lim_plus (fun s => g s p k js) (fun s => rsum (pmap (g s) (S p) (length js + k) rest))); auto.
  Qed.
  Lemma rsum_opp : forall (g g' : nat -> nat -> list nat -> R) nbrs, (forall p k js, at_point nbrs p k js -> g p k js = - g' p k js) ->
    rsum (pmap g 0 0 nbrs) = - rsum (pmap g' 0 0 nbrs).
  Proof.
    intros g g' nbrs H. apply (visit (fun l p k => rsum (pmap g p k l) = - rsum (pmap g' p k l))).
    - cbn. ring.
    - intros js rest p k Ha IH. cbn [pmap rsum fold_right]. unfold rsum in IH. rewrite IH, (H _ _ _ Ha). ring.
  Qed.

  Lemma total_pmap : forall (v : list R) (g : nat -> nat -> list nat -> R) nbrs, (length nbrs <= length v)%nat ->
    total v (pmap g 0 0 nbrs) = rsum (pmap (fun p k js => nth p v 0 * g p k js) 0 0 nbrs).
  Proof.
    intros v g nbrs L.
    assert (G : forall l p k v0, (forall i, (i < length l)%nat -> exists a, nth_error v0 i = Some a /\ nth (p + i) v 0 = a) ->
       total v0 (pmap g p k l) = rsum (pmap (fun p k js => nth p v 0 * g p k js) p k l)).
    { induction l as [|js l IH]; intros p k v0 H; cbn [pmap total rsum fold_right]; [destruct v0; reflexivity|].
      destruct (H 0%nat) as (a & E1 & E2); [cbn; lia|]. destruct v0 as [|b v0]; [discriminate|]. injection E1 as ->. rewrite Nat.add_0_r in E2.
      rewrite E2. f_equal. apply IH. intros i Hi. destruct (H (S i)) as (a' & F1 & F2); [cbn; lia|]. exists a'. split; [exact F1|].
      now replace (S p + i)%nat with (p + S i)%nat by lia. }
    apply G. intros i Hi. destruct (nth_error v i) as [a|] eqn:E.
    - exists a. split; [reflexivity|]. now apply nth_error_nth.
    - apply nth_error_None in E. lia.
  Qed.
End Sums.

(** ** rate of work of a kernel *)
Section Power.
  Local Open Scope R_scope.
  Local Notation vec := (V3 RN).
  Lemma power_gsum : forall f v w i0 (vv : list R) (ww : list vec), length v = length f -> length w = length f ->
    (forall i, nth (i0 + i) vv 0 = nth i v 0) -> (forall i, nth (i0 + i) ww vzero = nth i w vzero) ->
    power v f w = gsum (fun i a => nth i vv 0 * vdot a (nth i ww vzero)) i0 f.
  Proof.
    induction f as [|a f IH]; intros v w i0 vv ww L1 L2 Hv Hw; cbn [power gsum].
    - destruct v; auto.
    - destruct v as [|r v]; [discriminate|]. destruct w as [|u w]; [discriminate|].
      apply nth_tail in Hv as [E Hv]. apply nth_tail in Hw as [E' Hw].
      rewrite E. etransitivity; [|apply Rplus_comm]. rewrite Rplus_comm. f_equal; [|f_equal].
      + cbn in L1, L2. apply IH; auto.
      + f_equal. symmetry. exact E'.
  Qed.
  Lemma gsum_zero : forall g n i0, (forall i, g i vzero = 0) -> gsum g i0 (repeat vzero n) = 0.
  Proof. intros g. induction n as [|n IH]; intros i0 H; cbn [repeat gsum]; [reflexivity|]. rewrite H, IH; auto. ring. Qed.
  Lemma run_gsum : forall D S (K : kernel RN D S) nbrs (g : nat -> vec -> R) (h : nat -> nat -> nat -> R),
    (forall i, additive (g i)) ->
    (forall p k j js d fb s vn vs, nth_error nbrs p = Some js -> pre _ _ K p (offset nbrs p) js = Ok d ->
        bond_at nbrs p k j -> bond _ _ K d p k j = Ok (fb, s) -> vols _ _ K p k j = Ok (vn, vs) ->
        g p (vmulr fb vn) - g j (vmulr fb vs) = h p k j) ->
    forall f f' out, run_kernel K nbrs f = Ok (f', out) -> gsum g 0 f' = gsum g 0 f + rsum (pmap (fun p k js => jsum (h p) k js) 0 0 nbrs).
  Proof.
    intros D S K nbrs g h Ha Hb f f' out H.
    assert (GB : forall p js d, nth_error nbrs p = Some js -> pre _ _ K p (offset nbrs p) js = Ok d ->
      forall post pre_js, js = pre_js ++ post -> forall f f' ss,
      bond_loop K d p (offset nbrs p + length pre_js) post f = Ok (f', ss) ->
      gsum g 0 f' = gsum g 0 f + jsum (h p) (offset nbrs p + length pre_js) post).
    { intros p js d Hp Hpre. induction post as [|j post IH]; intros pre_js E f0 f0' ss H0; cbn [bond_loop jsum] in H0 |- *.
      - injection H0 as <- _. ring.
      - apply bind_Ok in H0 as [[fb s] [Eb H0]]. apply bind_Ok in H0 as [[vn vs] [Ev H0]].
        apply bind_Ok in H0 as [f1 [E1 H0]]. apply bind_Ok in H0 as [f2 [E2 H0]].
        apply bind_Ok in H0 as [[f3 ss'] [E3 H0]]. injection H0 as <- _.
        assert (Hbd : bond_at nbrs p (offset nbrs p + length pre_js) j).
        { exists js, (length pre_js). subst js. rewrite nth_app_here. auto. }
        specialize (IH (pre_js ++ [j])). rewrite app_length in IH. cbn [length] in IH.
        replace (offset nbrs p + (length pre_js + 1))%nat with (Datatypes.S (offset nbrs p + length pre_js)) in IH by lia.
        rewrite (IH ltac:(subst; now rewrite <- app_assoc) _ _ _ E3).
        rewrite (gsum_sub g _ _ _ _ (Ha j) E2), (gsum_add g _ _ _ _ (Ha p) E1).
        rewrite <- (Hb p _ j js d fb s vn vs Hp Hpre Hbd Eb Ev). ring. }
    unfold run_kernel in H. revert f f' out H.
    apply (visit (fun l p k => forall f f' out, point_loop K p k l f = Ok (f', out) ->
       gsum g 0 f' = gsum g 0 f + rsum (pmap (fun p k js => jsum (h p) k js) p k l))).
    - intros f f' out H. cbn in H. injection H as <- _. cbn. ring.
    - intros js rest p k [Hp ->] IH f f' out H. cbn [point_loop pmap rsum fold_right Nat.add] in H |- *.
      apply bind_Ok in H as [d [Ed H]]. apply bind_Ok in H as [[f1 ss] [E1 H]]. apply bind_Ok in H as [[f2 r] [E2 H]].
      injection H as <- _. rewrite (IH _ _ _ E2). unfold rsum.
      pose proof (GB p js d Hp Ed js [] eq_refl f f1 ss) as G. cbn [length] in G. rewrite Nat.add_0_r in G. rewrite (G E1). ring.
  Qed.

  (** kernels whose bond force is along the current bond, started from zero *)
  Definition lrate (y w : list vec) (p j : nat) : R :=
    vdot (vsub (nth j y vzero) (nth p y vzero)) (vsub (nth j w vzero) (nth p w vzero)) / vlen (vsub (nth j y vzero) (nth p y vzero)).
  Lemma run_power : forall D S (K : kernel RN D S) nbrs (v : list R) (y w : list vec) n (tf : nat -> nat -> nat -> R),
    vols _ _ K = cell_volumes (N:=RN) v -> length v = n -> length w = n ->
    (forall p k j js d fb s, nth_error nbrs p = Some js -> pre _ _ K p (offset nbrs p) js = Ok d ->
        bond_at nbrs p k j -> bond _ _ K d p k j = Ok (fb, s) ->
        fb = along (N:=RN) (tf p k j) (vsub (nth j y vzero) (nth p y vzero)) (vlen (vsub (nth j y vzero) (nth p y vzero)))) ->
    forall f' out, run_kernel K nbrs (repeat vzero n) = Ok (f', out) ->
    power v f' w = - rsum (pmap (fun p k js => nth p v 0 * jsum (fun k j => nth j v 0 * tf p k j * lrate y w p j) k js) 0 0 nbrs).
  Proof.
    intros D S K nbrs v y w n tf HV Lv Lw HB f' out H.
    pose proof (run_len K _ _ _ _ H) as L'. rewrite repeat_length in L'.
    rewrite (power_gsum f' v w 0 v w) by (auto; congruence).
    rewrite (run_gsum D S K nbrs _ (fun p k j => - (nth p v 0 * (nth j v 0 * tf p k j * lrate y w p j)))) with (f := repeat vzero n) (out := out); [| | |exact H].
    - rewrite gsum_zero by (intros i; cbn; rring). rewrite Rplus_0_l. apply rsum_opp.
      intros p k js _. rewrite <- jsum_scal.
      transitivity (-1 * jsum (fun k0 j => nth p v 0 * (nth j v 0 * tf p k0 j * lrate y w p j)) k js); [|ring].
      rewrite <- jsum_scal. apply jsum_ext. intros m j _. ring.
    - intros i. split; intros [] []; cbn; rring.
    - intros p k j js d fb s vn vs Hp Hpre Hbd Eb Ev.
      rewrite (HB p k j js d fb s Hp Hpre Hbd Eb).
      rewrite HV in Ev. unfold cell_volumes in Ev. apply bind_Ok in Ev as [a [Q1 Ev]]. apply bind_Ok in Ev as [b [Q2 Ev]]. injection Ev as <- <-.
      apply at_ub_Ok in Q1, Q2. apply nth_error_nth with (d := 0) in Q1, Q2. unfold lrate.
      change (T RN) with R in *. rewrite Q1, Q2.
      generalize (nth j y (@vzero RN)) (nth p y (@vzero RN)) (nth j w (@vzero RN)) (nth p w (@vzero RN)). intros u0 u1 u2 u3.
      generalize (vlen (vsub u0 u1)). intros l. destruct u0 as [a1 a2 a3], u1 as [b1 b2 b3], u2 as [c1 c2 c3], u3 as [d1 d2 d3]. unfold along, vdivr, vscale, vmulr, vdot, vsub. cbn [vx vy vz]. to_R. unfold Rdiv. rring.
  Qed.
End Power.

(** ** rate of the length of a bond *)
Section Length.
  Local Open Scope R_scope.
  Local Notation vec := (V3 RN).
  Lemma len_pos : forall a b : vec, a <> b -> 0 < vdot (vsub a b) (vsub a b).
  Proof.
    intros [a1 a2 a3] [b1 b2 b3] H. unfold vdot, vsub. cbn [vx vy vz]. to_R. change (T RN) with R in *.
    pose proof (Rle_0_sqr (a1 - b1)) as S1. pose proof (Rle_0_sqr (a2 - b2)) as S2. pose proof (Rle_0_sqr (a3 - b3)) as S3. unfold Rsqr in *.
    destruct (Req_dec a1 b1) as [E1|E1]; [destruct (Req_dec a2 b2) as [E2|E2]; [destruct (Req_dec a3 b3) as [E3|E3]|]|].
    - subst. now elim H.
    - assert (0 < (a3 - b3) * (a3 - b3)) by (apply Rsqr_pos_lt; apply Rminus_eq_contra; auto). lra.
    - assert (0 < (a2 - b2) * (a2 - b2)) by (apply Rsqr_pos_lt; apply Rminus_eq_contra; auto). lra.
    - assert (0 < (a1 - b1) * (a1 - b1)) by (apply Rsqr_pos_lt; apply Rminus_eq_contra; auto). lra.
  Qed.
  Lemma lim_eq' : forall f t a b, derivable_pt_lim f t a -> a = b -> derivable_pt_lim f t b.
  Proof. intros f t a b H <-. exact H. Qed.
  Lemma length_rate : forall y t w n p j, moves y t w -> length w = n -> (p < n)%nat -> (j < n)%nat ->
    nth p (y t) vzero <> nth j (y t) vzero ->
    derivable_pt_lim (fun s => vlen (vsub (nth j (y s) vzero) (nth p (y s) (@vzero RN)))) t (lrate (y t) w p j).
  Proof.
    intros y t w n p j [HL HM] L Hp Hj HN.
    destruct (nth_error w p) as [wp|] eqn:Ep; [|apply nth_error_None in Ep; lia].
    destruct (nth_error w j) as [wj|] eqn:Ej; [|apply nth_error_None in Ej; lia].
    destruct (HM _ _ Ep) as (P1 & P2 & P3). destruct (HM _ _ Ej) as (J1 & J2 & J3).
    pose proof (len_pos (nth j (y t) vzero) (nth p (y t) vzero) (fun e => HN (eq_sym e))) as HP.
    unfold lrate. rewrite (nth_error_nth w p vzero Ep), (nth_error_nth w j vzero Ej).
    assert (DD : derivable_pt_lim (fun s => vdot (vsub (nth j (y s) vzero) (nth p (y s) (@vzero RN))) (vsub (nth j (y s) vzero) (nth p (y s) (@vzero RN)))) t
       (2 * vdot (vsub (nth j (y t) vzero) (nth p (y t) vzero)) (vsub wj wp))).
    { pose proof (derivable_pt_lim_minus _ _ _ _ _ J1 P1) as D1. pose proof (derivable_pt_lim_minus _ _ _ _ _ J2 P2) as D2.
      pose proof (derivable_pt_lim_minus _ _ _ _ _ J3 P3) as D3.
      eapply lim_eq'; [exact (derivable_pt_lim_plus _ _ _ _ _ (derivable_pt_lim_plus _ _ _ _ _ (derivable_pt_lim_mult _ _ _ _ _ D1 D1) (derivable_pt_lim_mult _ _ _ _ _ D2 D2)) (derivable_pt_lim_mult _ _ _ _ _ D3 D3))|].
      unfold minus_fct. cbn. rring. }
    pose proof (derivable_pt_lim_sqrt _ HP) as DS.
    eapply lim_eq'; [exact (derivable_pt_lim_comp _ _ _ _ _ DD DS)|].
    unfold vlen. cbn [sqr_root RN]. set (q := vdot _ _) in *. set (r := vdot _ (vsub wj wp)). change (T RN) with R in *. field.
    apply Rgt_not_eq. apply sqrt_lt_R0. exact HP.
  Qed.
End Length.
