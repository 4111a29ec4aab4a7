From Coq Require Import Reals Lra Lia.
From Verif Require Import Base Num ModelNeigh SpecDamage ModelForce SpecForce ProofData ProofDamage ProofForce.

(** ** every evaluation is defined *)
Ltac ub_steps := repeat match goal with
  | |- context [at_ub ?l ?i] => destruct (at_ub_lt l i) as [? ->]; [solve [auto; lia]|cbn [bind]]
  end.

Section Total.
  Context {N : Num}.
  Lemma cell_volumes_ok : forall n nbrs (x y : list (V3 N)) v p k j, cloud_ok n nbrs x y v -> bond_at nbrs p k j ->
    exists r, cell_volumes v p k j = Ok r.
  Proof.
    intros n nbrs x y v p k j (H1 & H2 & H3 & H4 & H5) Hb. pose proof (bond_at_bound _ _ _ _ Hb) as [Hp _].
    pose proof (bond_at_In _ _ _ _ (fun j => j < n) Hb H5) as Hj. cbv beta in Hj.
    unfold cell_volumes. ub_steps. eauto.
  Qed.
  Lemma bond_volumes_ok : forall n nbrs (x y : list (V3 N)) v part p k j, cloud_ok n nbrs x y v -> part_ok nbrs part -> bond_at nbrs p k j ->
    exists r, bond_volumes v part p k j = Ok r.
  Proof.
    intros n nbrs x y v [[sv nv]|] p k j H Hp Hb; [|simpl; eapply cell_volumes_ok; eauto].
    destruct Hp as [P1 P2]. unfold per_bond in *. simpl in P1, P2. pose proof (bond_at_bound _ _ _ _ Hb) as [_ Hk].
    unfold bond_volumes. ub_steps. eauto.
  Qed.

  Ltac start := intros; unfold lps_inputs, bb_inputs, visco_inputs, ep_inputs, cloud_ok, per_point, per_bond, opt_ok in *;
    repeat match goal with H : _ /\ _ |- _ => destruct H end;
    repeat match goal with
    | Hb : bond_at ?nb ?p ?k ?j, H5 : Forall (Forall (fun j => j < ?n)) ?nb |- _ =>
      lazymatch goal with HX : j < n |- _ => fail | _ =>
        let P := fresh in pose proof (bond_at_bound _ _ _ _ Hb) as P; destruct P;
        let Q := fresh in pose proof (bond_at_In _ _ _ _ (fun j => j < n) Hb H5) as Q; cbv beta in Q end
    end.

  Lemma lps_total : forall omega K MU h al dT n nbrs (x y : list (V3 N)) v m theta dmg part,
    lps_inputs n nbrs x y v m theta dmg dT part -> total_on (lps omega K MU h al dT x y v m theta dmg part) nbrs n.
  Proof.
    intros omega K MU h al dT n nbrs x y v m theta dmg part H. split.
    - intros p js Hp. assert (p < length nbrs) by (apply nth_error_Some; congruence). start. simpl.
      destruct dT as [l|]; simpl; ub_steps; eauto.
    - intros p js d k j Hp Hd Hb. pose proof H as (HC & _ & _ & _ & _ & HP).
      destruct (bond_volumes_ok n nbrs x y v part p k j HC HP Hb) as [r Er].
      split; [|split; [exists r; exact Er|start; lia]]. start. destruct d as [[[[X Y] mp] th] t]. simpl. ub_steps. eauto.
  Qed.
  Lemma bb_total : forall K h pl ht n nbrs (x y : list (V3 N)) v dmg,
    bb_inputs n nbrs x y v dmg -> total_on (bond_based K h pl ht x y v dmg) nbrs n.
  Proof.
    intros K h pl ht n nbrs x y v dmg H. split.
    - intros p js Hp. assert (p < length nbrs) by (apply nth_error_Some; congruence). start. simpl. ub_steps. eauto.
    - intros p js d k j Hp Hd Hb. pose proof H as (HC & _).
      destruct (cell_volumes_ok n nbrs x y v p k j HC Hb) as [r Er].
      split; [|split; [exists r; exact Er|start; lia]]. start. destruct d as [X Y]. simpl. ub_steps. eauto.
  Qed.
  Lemma visco_total : forall ex K MU lam tau dt n nbrs (x yN y : list (V3 N)) v m t0 t1 dmg edb,
    visco_inputs n nbrs x yN y v m t0 t1 dmg edb -> total_on (visco ex K MU lam tau dt x yN y v m t0 t1 dmg edb) nbrs n.
  Proof.
    intros ex K MU lam tau dt n nbrs x yN y v m t0 t1 dmg edb H. split.
    - intros p js Hp. assert (p < length nbrs) by (apply nth_error_Some; congruence). start. simpl. ub_steps. eauto.
    - intros p js d k j Hp Hd Hb. pose proof H as (HC & _).
      destruct (cell_volumes_ok n nbrs _ _ v p k j HC Hb) as [r Er].
      split; [|split; [exists r; exact Er|start; lia]]. start. destruct d as [[[[[X YN] Y] mp] u0] u1]. simpl. ub_steps. eauto.
  Qed.

  Lemma td_norm2_ok : forall n nbrs (x y : list (V3 N)) v m theta dmg edpN lam al th X Y,
    ep_inputs n nbrs x y v m theta dmg edpN lam -> forall p js, nth_error nbrs p = Some js ->
    forall post pre_js, js = pre_js ++ post -> forall acc,
    exists r, td_norm2 x y v dmg edpN al th X Y (offset nbrs p + length pre_js) post acc = Ok r.
  Proof.
    intros n nbrs x y v m theta dmg edpN lam al th X Y H p js Hp. induction post as [|j post IH]; intros pre_js E acc; simpl; eauto.
    assert (Hb : bond_at nbrs p (offset nbrs p + length pre_js) j).
    { exists js, (length pre_js). subst js. rewrite nth_app_here. auto. }
    pose proof H as H0. clear H. start. ub_steps.
    match goal with |- exists r, td_norm2 _ _ _ _ _ _ _ _ _ _ _ ?a = _ => destruct (IH (pre_js ++ [j])) with (acc := a) as [r R]; [subst; now rewrite <- app_assoc|] end.
    rewrite app_length in R. simpl in R. replace (offset nbrs p + (length pre_js + 1)) with (S (offset nbrs p + length pre_js)) in R by lia. eauto.
  Qed.

  Lemma plastic_bond_ok : forall rm K n nbrs (x y : list (V3 N)) v m theta dmg edpN lam d p k j,
    ep_inputs n nbrs x y v m theta dmg edpN lam -> bond_at nbrs p k j ->
    exists r, plastic_bond rm K x y dmg edpN d p k j = Ok r.
  Proof. start. unfold plastic_bond. ub_steps. eauto. Qed.

  Lemma ep_total : forall K MU sigma h pl n nbrs (x y : list (V3 N)) v m theta dmg edpN lam,
    ep_inputs n nbrs x y v m theta dmg edpN lam -> total_on (elastic_plastic K MU sigma h pl x y v m theta dmg edpN lam) nbrs n.
  Proof.
    intros K MU sigma h pl n nbrs x y v m theta dmg edpN lam H. split.
    - intros p js Hp. assert (p < length nbrs) by (apply nth_error_Some; congruence). pose proof (fun al th X Y => td_norm2_ok n nbrs x y v m theta dmg edpN lam al th X Y H p js Hp js [] eq_refl) as HT. start. simpl. unfold ep_pre. ub_steps.
      match goal with |- context [td_norm2 _ _ _ _ _ ?al ?th ?X ?Y _ _ ?a] =>
        destruct (HT al th X Y a) as [r R] end.
      simpl in R. rewrite Nat.add_0_r in R. rewrite R. cbn [bind]. destruct (ltb _ _); eauto.
    - intros p js d k j Hp Hd Hb. pose proof H as (HC & _).
      destruct (cell_volumes_ok n nbrs _ _ v p k j HC Hb) as [r Er].
      split; [|split; [exists r; exact Er|start; lia]]. simpl. eapply plastic_bond_ok; eauto.
  Qed.
  Lemma hard_total : forall up K MU H sigma h n nbrs (x y : list (V3 N)) v m theta dmg scf edpN lam,
    ep_inputs n nbrs x y v m theta dmg edpN lam -> per_point nbrs scf ->
    total_on (hardening up K MU H sigma h x y v m theta dmg scf edpN lam) nbrs n.
  Proof.
    intros up K MU Hm sigma h n nbrs x y v m theta dmg scf edpN lam H Hs. split.
    - intros p js Hp. assert (p < length nbrs) by (apply nth_error_Some; congruence). pose proof (fun al th X Y => td_norm2_ok n nbrs x y v m theta dmg edpN lam al th X Y H p js Hp js [] eq_refl) as HT. start. simpl. unfold hard_pre. ub_steps.
      match goal with |- context [td_norm2 _ _ _ _ _ ?al ?th ?X ?Y _ _ ?a] =>
        destruct (HT al th X Y a) as [r R] end.
      simpl in R. rewrite Nat.add_0_r in R. rewrite R. cbn [bind]. match goal with |- exists d, (if ?b then _ else _) = Ok d => destruct b end; eauto.
    - intros p js d k j Hp Hd Hb. pose proof H as (HC & _).
      destruct (cell_volumes_ok n nbrs _ _ v p k j HC Hb) as [r Er].
      split; [|split; [exists r; exact Er|start; lia]]. simpl. eapply plastic_bond_ok; eauto.
  Qed.
  Lemma linear_total : forall omega K MU h n nbrs (x y : list (V3 N)) v m theta dmg part stored,
    lps_inputs n nbrs x y v m theta dmg None part -> opt_ok (per_bond nbrs) stored ->
    total_on (linear_lps omega K MU h x y v m theta dmg part stored) nbrs n.
  Proof.
    intros omega K MU h n nbrs x y v m theta dmg part stored H Hs. split.
    - intros p js Hp. assert (p < length nbrs) by (apply nth_error_Some; congruence). start. simpl. ub_steps; eauto.
    - intros p js d k j Hp Hd Hb. pose proof H as (HC & _ & _ & _ & _ & HP).
      destruct (bond_volumes_ok n nbrs x y v part p k j HC HP Hb) as [r Er].
      split; [|split; [exists r; exact Er|start; lia]]. destruct d as [[[X Y] mp] th].
      destruct stored as [l|]; start; simpl; ub_steps; eauto.
  Qed.
End Total.

Section Real.
  Local Open Scope R_scope.
  Local Notation vec := (V3 RN).

  Lemma along_parallel : forall t (d : vec) len, vcross d (along (N:=RN) t d len) = vzero.
  Proof. intros t [a b c] len. apply v3_ext; cbn; to_R; unfold Rdiv; ring. Qed.
  Lemma along_0 : forall t (d : vec) len, t = 0 -> along (N:=RN) t d len = vzero.
  Proof. intros t [a b c] len ->. apply v3_ext; cbn; to_R; unfold Rdiv; ring. Qed.
  Lemma along_mulr : forall t (d : vec) len, along (N:=RN) t d len = vmulr (N:=RN) d (t / len).
  Proof. intros t [a b c] len. apply v3_ext; cbn; to_R; unfold Rdiv; ring. Qed.

  Lemma nth_at_ub : forall A (l : list A) i a d, at_ub l i = Ok a -> nth i l d = a.
  Proof. intros A l i a d H. apply at_ub_Ok in H. now apply nth_error_nth. Qed.

  (** the forces act along the deformed bond *)
  Ltac split_bind H := repeat match type of H with
    | bind (at_ub ?l ?i) _ = Ok _ => let a := fresh "a" in let E := fresh "E" in apply bind_Ok in H as [a [E H]]; try cbn beta in H
    | bind (opt_at ?l ?i) _ = Ok _ => let a := fresh "a" in let E := fresh "E" in apply bind_Ok in H as [a [E H]]; try cbn beta in H
    | bind (td_norm2 _ _ _ _ _ _ _ _ _ _ _ _) _ = Ok _ => let a := fresh "a" in let E := fresh "E" in apply bind_Ok in H as [a [E H]]; try cbn beta in H
    end.

  Lemma lps_parallel : forall omega K MU h al dT nbrs x y v m theta dmg part,
    parallel_on (lps (N:=RN) omega K MU h al dT x y v m theta dmg part) nbrs y.
  Proof.
    intros omega K MU h al dT nbrs x y v m theta dmg part p k j js d fb s Hp Hd Hb H. simpl in Hd, H.
    split_bind Hd. injection Hd as <-. split_bind H. injection H as <- <-.
    rewrite (nth_at_ub _ _ _ _ vzero E5), (nth_at_ub _ _ _ _ vzero E0). apply along_parallel.
  Qed.
  Lemma bb_parallel : forall K h pl ht nbrs x y v dmg,
    parallel_on (bond_based (N:=RN) K h pl ht x y v dmg) nbrs y.
  Proof.
    intros K h pl ht nbrs x y v dmg p k j js d fb s Hp Hd Hb H. simpl in Hd, H.
    split_bind Hd. injection Hd as <-. split_bind H. injection H as <- <-.
    rewrite (nth_at_ub _ _ _ _ vzero E2), (nth_at_ub _ _ _ _ vzero E0). apply along_parallel.
  Qed.
  Lemma visco_parallel : forall ex K MU lam tau dt nbrs x yN y v m t0 t1 dmg edb,
    parallel_on (visco (N:=RN) ex K MU lam tau dt x yN y v m t0 t1 dmg edb) nbrs y.
  Proof.
    intros ex K MU lam tau dt nbrs x yN y v m t0 t1 dmg edb p k j js d fb s Hp Hd Hb H. simpl in Hd, H.
    split_bind Hd. injection Hd as <-. split_bind H. injection H as <- <-.
    rewrite (nth_at_ub _ _ _ _ vzero E7), (nth_at_ub _ _ _ _ vzero E1). apply along_parallel.
  Qed.
  Lemma plastic_parallel : forall rm K x y dmg edpN d p k j fb s Y,
    plastic_bond (N:=RN) rm K x y dmg edpN d p k j = Ok (fb, s) -> pp_Y d = Y -> nth p y vzero = Y ->
    vcross (vsub (nth j y vzero) (nth p y vzero)) fb = vzero.
  Proof.
    intros rm K x y dmg edpN d p k j fb s Y H HY Hp. unfold plastic_bond in H. split_bind H. injection H as <- <-.
    rewrite (nth_at_ub _ _ _ _ vzero E0), Hp, HY. apply along_parallel.
  Qed.
  Lemma ep_pre_Y : forall K MU yv x y v m theta dmg edpN lam p k js d,
    ep_pre (N:=RN) K MU yv x y v m theta dmg edpN lam p k js = Ok d -> nth p y vzero = pp_Y d.
  Proof.
    intros K MU yv x y v m theta dmg edpN lam p k js d H. unfold ep_pre in H. split_bind H.
    rewrite (nth_at_ub _ _ _ _ vzero E0). destruct (ltb _ _); injection H as <-; reflexivity.
  Qed.
  Lemma hard_pre_Y : forall up K MU Hm yv x y v m theta dmg scf edpN lam p k js d,
    hard_pre (N:=RN) up K MU Hm yv x y v m theta dmg scf edpN lam p k js = Ok d -> nth p y vzero = pp_Y d.
  Proof.
    intros up K MU Hm yv x y v m theta dmg scf edpN lam p k js d H. unfold hard_pre in H. split_bind H.
    rewrite (nth_at_ub _ _ _ _ vzero E0). cbv zeta in H. match type of H with (if ?b then _ else _) = _ => destruct b end; injection H as <-; reflexivity.
  Qed.
  Lemma ep_parallel : forall K MU sigma h pl nbrs x y v m theta dmg edpN lam,
    parallel_on (elastic_plastic (N:=RN) K MU sigma h pl x y v m theta dmg edpN lam) nbrs y.
  Proof.
    intros K MU sigma h pl nbrs x y v m theta dmg edpN lam p k j js d fb s Hp Hd Hb H. simpl in Hd, H.
    eapply plastic_parallel; eauto. eapply ep_pre_Y; eauto.
  Qed.
  Lemma hard_parallel : forall up K MU Hm sigma h nbrs x y v m theta dmg scf edpN lam,
    parallel_on (hardening (N:=RN) up K MU Hm sigma h x y v m theta dmg scf edpN lam) nbrs y.
  Proof.
    intros up K MU Hm sigma h nbrs x y v m theta dmg scf edpN lam p k j js d fb s Hp Hd Hb H. simpl in Hd, H.
    eapply plastic_parallel; eauto. eapply hard_pre_Y; eauto.
  Qed.
  Lemma linear_parallel : forall omega K MU h nbrs x y v m theta dmg part st,
    parallel_on (linear_lps (N:=RN) omega K MU h x y v m theta dmg part st) nbrs x.
  Proof.
    intros omega K MU h nbrs x y v m theta dmg part st p k j js d fb s Hp Hd Hb H. simpl in Hd, H.
    split_bind Hd. injection Hd as <-. split_bind H. apply bind_Ok in H as [w [Ew H]]. injection H as <- <-.
    rewrite (nth_at_ub _ _ _ _ vzero E3), (nth_at_ub _ _ _ _ vzero E).
    destruct a3, a, a0, a4. apply v3_ext; cbn; to_R; unfold Rdiv; ring.
  Qed.

  (** partial volumes that balance *)
  Lemma bond_volumes_balanced : forall D S (K : kernel RN D S) nbrs v part,
    vols _ _ K = bond_volumes v part ->
    opt_ok (fun sn => forall p k j, bond_at nbrs p k j ->
              nth p v 0 * nth k (snd sn) 0 = nth j v 0 * nth k (fst sn) 0) part ->
    balanced K nbrs v.
  Proof.
    intros D S K nbrs v [[sv nv]|] E H; [|apply cell_volumes_balanced; exact E].
    intros p k j vn vs Hb Hv. rewrite E in Hv. simpl in Hv. split_bind Hv. injection Hv as <- <-.
    specialize (H p k j Hb). simpl in H. apply at_ub_Ok in E0, E1.
    pose proof (nth_error_nth _ _ 0 E0) as X0. pose proof (nth_error_nth _ _ 0 E1) as X1.
    etransitivity; [exact (f_equal (fun r => nth p v 0 * r) (eq_sym X1))|].
    etransitivity; [exact H|]. exact (f_equal (fun r => nth j v 0 * r) X0).
  Qed.
End Real.
