From Coq Require Import Reals Lra Lia.
From Verif Require Import Base Num ModelForce ModelTangent SpecDamage SpecForce SpecCorr SpecTangent ProofData ProofForce ProofCorr ProofTangent ProofTangent2 ProofTangent3 ProofTangent4 ProofTangent5 ProofTangent6 ProofTangent7.

Lemma F2_at : forall A B (Q : A -> B -> Prop) l l' i a, Forall2 Q l l' -> at_ub l i = Ok a -> exists a', at_ub l' i = Ok a' /\ Q a a'.
Proof.
  intros A B Q l l' i a H. revert i. induction H as [|x y l l' Hx HF IH]; intros i E; [destruct i; discriminate|].
  destruct i as [|i]; [injection E as <-; exists y; auto|]. apply IH. exact E.
Qed.
Lemma F2_len : forall A B (Q : A -> B -> Prop) l l', Forall2 Q l l' -> length l = length l'.
Proof. intros A B Q l l' H. induction H; cbn; auto. Qed.
Lemma F2_upd : forall A B (Q : A -> B -> Prop) l l' i a a' r, Forall2 Q l l' -> Q a a' -> upd_ub l i a = Ok r -> exists r', upd_ub l' i a' = Ok r' /\ Forall2 Q r r'.
Proof.
  intros A B Q l l' i a a' r H Ha. unfold upd_ub. revert i r. induction H as [|x y l l' Hx HF IH]; intros i r E; [destruct i; discriminate|].
  destruct i as [|i]; cbn [upd] in *; [injection E as <-; eauto|]. destruct (upd l i a) as [s|] eqn:Es; [|discriminate]. injection E as <-.
  specialize (IH i). rewrite Es in IH. destruct (IH s eq_refl) as (r' & Er & Fr). destruct (upd l' i a') as [s'|]; [|discriminate]. injection Er as ->. eauto.
Qed.
Lemma F2_map : forall A B C D (f : A -> C) (g : B -> D) (Q : C -> D -> Prop) l l', Forall2 (fun a b => Q (f a) (g b)) l l' -> Forall2 Q (map f l) (map g l').
Proof. intros A B C D f g Q l l' H. induction H; cbn [map]; constructor; auto. Qed.

(** ** the same computation over two kinds of numbers *)
Section Relate.
  Context {N1 N2 : Num} (RS : N1 -> N2 -> Prop) (nz pos : N1 -> Prop).
  Local Open Scope num_scope.
  Context (Hadd : forall a a' b b', RS a a' -> RS b b' -> RS (a + b) (a' + b')) (Hsub : forall a a' b b', RS a a' -> RS b b' -> RS (a - b) (a' - b'))
    (Hmul : forall a a' b b', RS a a' -> RS b b' -> RS (a * b) (a' * b')) (Hdiv : forall a a' b b', RS a a' -> RS b b' -> nz b -> RS (a / b) (a' / b'))
    (Hsqrt : forall a a', RS a a' -> pos a -> RS (sqr_root a) (sqr_root a')) (HZ : forall z, RS (ofZ z) (ofZ z)) (nz3 : nz (ofZ 3)).
  Definition RV (a : V3 N1) (a' : V3 N2) : Prop := RS (vx a) (vx a') /\ RS (vy a) (vy a') /\ RS (vz a) (vz a').
  Context (omega1 : N1 -> N1 -> N1) (omega2 : N2 -> N2 -> N2) (K1 MU1 h1 al1 : N1) (K2 MU2 h2 al2 : N2) (HK : RS K1 K2) (HM : RS MU1 MU2) (CV : V3 N1 -> V3 N2 -> Prop)
    (Href : forall X X' XP XP', CV X X' -> CV XP XP' -> RS (vlen (vsub XP X)) (vlen (vsub XP' X')) /\ RS (omega1 (vlen (vsub XP X)) h1) (omega2 (vlen (vsub XP' X')) h2)).

  Lemma RV_sub : forall a a' b b', RV a a' -> RV b b' -> RV (vsub a b) (vsub a' b').
  Proof. intros a a' b b' (A1 & A2 & A3) (B1 & B2 & B3). split; [|split]; cbn [vsub vx vy vz]; auto. Qed.
  Lemma RV_add : forall a a' b b', RV a a' -> RV b b' -> RV (vadd a b) (vadd a' b').
  Proof. intros a a' b b' (A1 & A2 & A3) (B1 & B2 & B3). split; [|split]; cbn [vadd vx vy vz]; auto. Qed.
  Lemma RS_dot : forall a a' b b', RV a a' -> RV b b' -> RS (vdot a b) (vdot a' b').
  Proof. intros a a' b b' (A1 & A2 & A3) (B1 & B2 & B3). unfold vdot. auto. Qed.
  Lemma RS_len : forall a a', RV a a' -> pos (vdot a a) -> RS (vlen a) (vlen a').
  Proof. intros a a' H P. apply Hsqrt; auto. now apply RS_dot. Qed.

  Lemma RV_zeros : forall n, Forall2 RV (repeat vzero n) (repeat vzero n).
  Proof. induction n as [|n IH]; cbn [repeat]; constructor; [|exact IH]. split; [|split]; apply HZ. Qed.
  Lemma dilatation_bond_rel : forall X X' XP XP' Y Y' YP YP' b b' v v' m m', CV X X' -> CV XP XP' -> RV Y Y' -> RV YP YP' -> RS b b' -> RS v v' -> RS m m' -> nz m ->
    pos (vdot (vsub YP Y) (vsub YP Y)) ->
    RS (dilatation_bond omega1 h1 al1 None X XP Y YP b v m) (dilatation_bond omega2 h2 al2 None X' XP' Y' YP' b' v' m').
  Proof.
    intros X X' XP XP' Y Y' YP YP' b b' v v' m m' HX HXP HY HYP Hb Hv Hm Nm Pd. unfold dilatation_bond, thermal. cbv zeta. destruct (Href _ _ _ _ HX HXP) as [HL HW].
    apply Hdiv; auto. repeat (apply Hmul; auto). apply Hsub; auto. apply RS_len; auto. now apply RV_sub.
  Qed.
  Lemma lps_bond_rel : forall X X' XP XP' Y Y' YP YP' b b' m m' th th', CV X X' -> CV XP XP' -> RV Y Y' -> RV YP YP' -> RS b b' -> RS m m' -> RS th th' -> nz m ->
    pos (vdot (vsub YP Y) (vsub YP Y)) -> nz (vlen (vsub YP Y)) ->
    RV (along (lps_t omega1 K1 MU1 h1 al1 None m th b (vlen (vsub XP X)) (vlen (vsub YP Y))) (vsub YP Y) (vlen (vsub YP Y)))
       (along (lps_t omega2 K2 MU2 h2 al2 None m' th' b' (vlen (vsub XP' X')) (vlen (vsub YP' Y'))) (vsub YP' Y') (vlen (vsub YP' Y'))).
  Proof.
    intros X X' XP XP' Y Y' YP YP' b b' m m' th th' HX HXP HY HYP Hb Hm Ht Nm Pd Nl. destruct (Href _ _ _ _ HX HXP) as [HL HW].
    assert (HD : RV (vsub YP Y) (vsub YP' Y')) by now apply RV_sub. pose proof (RS_len _ _ HD Pd) as HLY.
    assert (HT : RS (lps_t omega1 K1 MU1 h1 al1 None m th b (vlen (vsub XP X)) (vlen (vsub YP Y))) (lps_t omega2 K2 MU2 h2 al2 None m' th' b' (vlen (vsub XP' X')) (vlen (vsub YP' Y')))).
    { unfold lps_t, thermal. cbv zeta. repeat first [apply Hadd | apply Hsub | apply Hmul | apply Hdiv]; auto. }
    destruct HD as (D1 & D2 & D3). unfold along, vdivr, vscale. split; [|split]; cbn [vx vy vz]; apply Hdiv; auto.
  Qed.
  Lemma add_at_rel : forall f f' i u u' r, Forall2 RV f f' -> RV u u' -> add_at f i u = Ok r -> exists r', add_at f' i u' = Ok r' /\ Forall2 RV r r'.
  Proof. intros f f' i u u' r HF Hu H. unfold add_at in *. apply bind_Ok in H as (a & E & H). destruct (F2_at _ _ _ _ _ _ _ HF E) as (a' & E' & Ha). rewrite E'. cbn [bind]. eapply F2_upd; eauto. now apply RV_add. Qed.
  Lemma sub_at_rel : forall f f' i u u' r, Forall2 RV f f' -> RV u u' -> sub_at f i u = Ok r -> exists r', sub_at f' i u' = Ok r' /\ Forall2 RV r r'.
  Proof. intros f f' i u u' r HF Hu H. unfold sub_at in *. apply bind_Ok in H as (a & E & H). destruct (F2_at _ _ _ _ _ _ _ HF E) as (a' & E' & Ha). rewrite E'. cbn [bind]. eapply F2_upd; eauto. now apply RV_sub. Qed.

  Context (x1 y1 : list (V3 N1)) (v1 m1 d1 : list N1) (x2 y2 : list (V3 N2)) (v2 m2 d2 : list N2)
    (Fx : Forall2 CV x1 x2) (Fy : Forall2 RV y1 y2) (Fv : Forall2 RS v1 v2) (Fm : Forall2 RS m1 m2) (Fd : Forall2 RS d1 d2).
  (** denominators and square roots of the bonds of a point *)
  Definition good (Y : V3 N1) (js : list nat) : Prop := forall j YP, In j js -> at_ub y1 j = Ok YP -> pos (vdot (vsub YP Y) (vsub YP Y)) /\ nz (vlen (vsub YP Y)).
  Ltac peel H := let a := fresh "a" in let E := fresh "E" in apply bind_Ok in H as (a & E & H).
  Lemma dilatation_sum_rel : forall X X' Y Y' m m' js k acc acc' t, CV X X' -> RV Y Y' -> RS m m' -> nz m -> RS acc acc' -> good Y js ->
    dilatation_sum omega1 h1 al1 None x1 y1 v1 d1 None X Y m k js acc = Ok t ->
    exists t', dilatation_sum omega2 h2 al2 None x2 y2 v2 d2 None X' Y' m' k js acc' = Ok t' /\ RS t t'.
  Proof.
    intros X X' Y Y' m m' js. induction js as [|j js IH]; intros k acc acc' t HX HY Hm Nm Ha G H; cbn [dilatation_sum] in *.
    - injection H as <-. eauto.
    - apply bind_Ok in H as (vj & Ev & H). apply bind_Ok in H as (XP & Ex & H). apply bind_Ok in H as (YP & Ey & H). apply bind_Ok in H as (b & Eb & H).
      destruct (F2_at _ _ _ _ _ _ _ Fv Ev) as (vj' & -> & Hv). destruct (F2_at _ _ _ _ _ _ _ Fx Ex) as (XP' & -> & HXP). destruct (F2_at _ _ _ _ _ _ _ Fy Ey) as (YP' & -> & HYP). destruct (F2_at _ _ _ _ _ _ _ Fd Eb) as (b' & -> & Hb). cbn [bind].
      eapply IH; eauto; [|intros q Q Hq; apply G; now right]. apply Hadd; auto. apply dilatation_bond_rel; auto. apply (G j); auto. now left.
  Qed.
  Lemma bond_loop_rel : forall th1 th2 X X' Y Y' m m' t t' p js k f f' r s, CV X X' -> RV Y Y' -> RS m m' -> nz m -> RS t t' -> good Y js -> Forall2 RV f f' ->
    bond_loop (lps omega1 K1 MU1 h1 al1 None x1 y1 v1 m1 th1 d1 None) (X, Y, m, t, None) p k js f = Ok (r, s) ->
    exists r' s', bond_loop (lps omega2 K2 MU2 h2 al2 None x2 y2 v2 m2 th2 d2 None) (X', Y', m', t', None) p k js f' = Ok (r', s') /\ Forall2 RV r r'.
  Proof.
    intros th1 th2 X X' Y Y' m m' t t' p js. induction js as [|j js IH]; intros k f f' r s HX HY Hm Nm Ht G HF H; cbn [bond_loop] in *.
    - injection H as <- <-. eauto.
    - cbn [bond vols lps] in *. apply bind_Ok in H as ([fb s0] & Eb & H). apply bind_Ok in H as ([vn vs] & Evv & H).
      apply bind_Ok in Eb as (XP & Ex & Eb). apply bind_Ok in Eb as (YP & Ey & Eb). apply bind_Ok in Eb as (b & Ed & Eb). cbv zeta in Eb. injection Eb as <- <-.
      unfold bond_volumes, cell_volumes in *. apply bind_Ok in Evv as (v & Ev & Evv). apply bind_Ok in Evv as (vp & Evp & Evv). injection Evv as <- <-.
      destruct (F2_at _ _ _ _ _ _ _ Fv Ev) as (v' & -> & Hv). destruct (F2_at _ _ _ _ _ _ _ Fv Evp) as (vp' & -> & Hvp). destruct (F2_at _ _ _ _ _ _ _ Fx Ex) as (XP' & -> & HXP). destruct (F2_at _ _ _ _ _ _ _ Fy Ey) as (YP' & -> & HYP). destruct (F2_at _ _ _ _ _ _ _ Fd Ed) as (b' & -> & Hb). cbn [bind]. cbv zeta.
      apply bind_Ok in H as (f1 & A1 & H). apply bind_Ok in H as (f2 & A2 & H). apply bind_Ok in H as ([f3 s3] & A3 & H). injection H as <- <-.
      destruct (G j YP (or_introl eq_refl) Ey) as [Pd Nl].
      pose proof (lps_bond_rel X X' XP XP' Y Y' YP YP' b b' m m' t t' HX HXP HY HYP Hb Hm Ht Nm Pd Nl) as HB. cbn [bind].
      assert (HM1 : forall u u' c c', RV u u' -> RS c c' -> RV (vmulr u c) (vmulr u' c')) by (intros u u' c c' (U1 & U2 & U3) Hc; split; [|split]; cbn [vmulr vx vy vz]; auto).
      destruct (add_at_rel _ _ _ _ _ _ HF (HM1 _ _ _ _ HB Hv) A1) as (f1' & -> & HF1). cbn [bind].
      destruct (sub_at_rel _ _ _ _ _ _ HF1 (HM1 _ _ _ _ HB Hvp) A2) as (f2' & -> & HF2). cbn [bind].
      destruct (IH (1 + k)%nat f2 f2' f3 s3 HX HY Hm Nm Ht) as (r' & s' & -> & HR); auto; [intros q Q Hq; apply G; now right|]. cbn [bind]. eauto.
  Qed.
  Lemma elastic_rel : forall js r, (forall Y m, at_ub y1 0 = Ok Y -> at_ub m1 0 = Ok m -> good Y js /\ nz m) ->
    elastic_force omega1 K1 MU1 h1 al1 x1 y1 v1 m1 d1 [js] = Ok r ->
    exists r', elastic_force omega2 K2 MU2 h2 al2 x2 y2 v2 m2 d2 [js] = Ok r' /\ Forall2 RV r r'.
  Proof.
    intros js r HG H. unfold elastic_force in *. cbn [dilatations] in *. unfold run_kernel in *. cbn [point_loop] in *.
    apply bind_Ok in H as (th & Et & H). apply bind_Ok in Et as (t & Et & E0). cbn [bind] in E0. injection E0 as <-.
    unfold dilatation in *. apply bind_Ok in Et as (X & EX & Et). apply bind_Ok in Et as (Y & EY & Et). apply bind_Ok in Et as (mp & Em & Et). cbn [opt_at bind] in *.
    destruct (HG Y mp EY Em) as [G Nm].
    destruct (F2_at _ _ _ _ _ _ _ Fx EX) as (X' & EX' & HX). destruct (F2_at _ _ _ _ _ _ _ Fy EY) as (Y' & EY' & HY). destruct (F2_at _ _ _ _ _ _ _ Fm Em) as (mp' & Em' & Hm).
    destruct (dilatation_sum_rel X X' Y Y' mp mp' js 0 (ofZ 0) (ofZ 0) t HX HY Hm Nm (HZ 0) G Et) as (t' & Et' & Ht).
    rewrite EX'. cbn [bind]. rewrite EY'. cbn [bind]. rewrite Em'. cbn [bind]. rewrite Et'. cbn [bind].
    apply bind_Ok in H as ([f o] & H & E1). injection E1 as ->. apply bind_Ok in H as (d & Hd & H). cbn [pre lps] in *. rewrite EX in Hd. rewrite EX'. cbn [bind] in *. rewrite EY in Hd. rewrite EY'. cbn [bind] in *. rewrite Em in Hd. rewrite Em'. cbn [bind] in *.
    unfold at_ub in Hd at 1. unfold at_ub at 1. cbn [nth_error bind opt_at] in *. injection Hd as <-.
    apply bind_Ok in H as ([f1 s1] & H & E2). cbn [bind] in E2. injection E2 as -> <-.
    assert (HF0 : Forall2 RV (repeat vzero (length x1)) (repeat vzero (length x2))).
    { rewrite <- (F2_len _ _ _ _ _ Fx). apply RV_zeros. }
    destruct (bond_loop_rel [t] [t'] X X' Y Y' mp mp' t t' 0 js 0 _ _ _ _ HX HY Hm Nm Ht G HF0 H) as (r' & s' & -> & HR). cbn [bind]. eauto.
  Qed.
End Relate.

(** ** numbers that depend on a parameter *)
Definition FunN : Num := {|
  T := R -> R; add := fun a b t => (a t + b t)%R; sub := fun a b t => (a t - b t)%R; mul := fun a b t => (a t * b t)%R; div := fun a b t => (a t / b t)%R;
  opp := fun a t => (- a t)%R; sqr_root := fun a t => sqrt (a t); ltb := fun _ _ => false; leb := fun _ _ => false; eqb := fun _ _ => false;
  ofZ := fun z _ => IZR z; lit := fun n d _ => (IZR n / IZR (Zpos d))%R; pi := fun _ => PI |}.
Definition follows (d : dual RN) (f : FunN) : Prop := f 0%R = fst d /\ derivable_pt_lim f 0 (snd d).
Definition at_time (t : R) (f : FunN) (a : RN) : Prop := f t = a.
Definition fixed (X : V3 (dual RN)) (X' : V3 FunN) : Prop :=
  snd (vx X) = 0%R /\ snd (vy X) = 0%R /\ snd (vz X) = 0%R /\ forall t, vx X' t = fst (vx X) /\ vy X' t = fst (vy X) /\ vz X' t = fst (vz X).

Local Open Scope R_scope.
Lemma lim_ext : forall f g x l, (forall t, f t = g t) -> derivable_pt_lim f x l -> derivable_pt_lim g x l.
Proof. intros f g x l E H eps He. destruct (H eps He) as [del Hd]. exists del. intros u Hu Hl. rewrite <- !E. auto. Qed.
Lemma lim_eq : forall f x l l', l = l' -> derivable_pt_lim f x l -> derivable_pt_lim f x l'. Proof. intros f x l l' ->; auto. Qed.
Lemma follows_const : forall (a : R), follows (a, 0) (fun _ => a).
Proof. intros a. split; [reflexivity|]. apply (derivable_pt_lim_const a 0). Qed.
Lemma follows_add : forall a a' b b', follows a a' -> follows b b' -> follows (add a b) (add a' b').
Proof. intros [a da] a' [b db] b' [A1 A2] [B1 B2]. split; cbn in *; [congruence|]. exact (derivable_pt_lim_plus a' b' 0 da db A2 B2). Qed.
Lemma follows_sub : forall a a' b b', follows a a' -> follows b b' -> follows (sub a b) (sub a' b').
Proof. intros [a da] a' [b db] b' [A1 A2] [B1 B2]. split; cbn in *; [congruence|]. exact (derivable_pt_lim_minus a' b' 0 da db A2 B2). Qed.
Lemma follows_mul : forall a a' b b', follows a a' -> follows b b' -> follows (mul a b) (mul a' b').
Proof.
  intros [a da] a' [b db] b' [A1 A2] [B1 B2]. split; cbn in *; [congruence|]. eapply lim_eq; [|exact (derivable_pt_lim_mult a' b' 0 da db A2 B2)].
  change (T RN) with R in *. rewrite A1, B1. ring.
Qed.
Lemma follows_div : forall a a' b b', follows a a' -> follows b b' -> fst b <> 0 -> follows (div a b) (div a' b').
Proof.
  intros [a da] a' [b db] b' [A1 A2] [B1 B2] Hb. cbn [fst snd] in *. split; cbn in *; [congruence|].
  eapply lim_eq; [|refine (derivable_pt_lim_div a' b' 0 da db A2 B2 _); rewrite B1; exact Hb].
  change (T RN) with R in *. rewrite A1, B1. unfold Rsqr. f_equal. ring.
Qed.
Lemma follows_sqrt : forall a a', follows a a' -> 0 < fst a -> follows (sqr_root a) (sqr_root a').
Proof.
  intros [a da] a' [A1 A2] Ha. cbn [fst snd] in *. split; cbn in *; [congruence|].
  eapply lim_eq; [|refine (derivable_pt_lim_comp a' sqrt 0 da _ A2 _); rewrite A1; exact (derivable_pt_lim_sqrt a Ha)].
  unfold Rdiv. change (T RN) with R in *. ring.
Qed.
Lemma follows_Z : forall z, follows (ofZ z) (ofZ z). Proof. intros z. apply (follows_const (IZR z)). Qed.
Lemma fixed_len : forall X X' XP XP', fixed X X' -> fixed XP XP' -> snd (vlen (vsub XP X)) = 0 /\ forall t, vlen (vsub XP' X') t = fst (vlen (vsub XP X)).
Proof.
  intros [[a1 e1] [a2 e2] [a3 e3]] X' [[b1 g1] [b2 g2] [b3 g3]] XP' (A1 & A2 & A3 & A) (B1 & B2 & B3 & B). cbn in A1, A2, A3, B1, B2, B3. subst. split.
  - cbn. unfold Rdiv. change (T RN) with R in *. ring.
  - intros t. cbn. destruct (A t) as (-> & -> & ->), (B t) as (-> & -> & ->). reflexivity.
Qed.
Lemma follows_fixed : forall (d : dual RN) (f : FunN), snd d = 0 -> (forall t, f t = fst d) -> follows d f.
Proof. intros [a da] f H E. cbn in *. subst da. split; [apply E|]. eapply lim_ext; [intros t; symmetry; apply E|]. apply (derivable_pt_lim_const a 0). Qed.
