(** * The force of the solid coupled with the fluid, and of the vector Poisson material *)
From Coq Require Import Reals Lra Lia.
From Verif Require Import Base Num ModelNeigh SpecDamage ModelForce SpecForce ModelDiffusion SpecDiffusion ProofData ProofDamage ProofForce ProofKernels ProofFrame ProofMaterial.
Local Open Scope nat_scope.

Section Total.
  Context {N : Num}.
  Ltac start := intros; unfold coupled_inputs, cloud_ok, per_point, per_bond, opt_ok in *;
    repeat match goal with H : _ /\ _ |- _ => destruct H end;
    repeat match goal with
    | Hb : bond_at ?nb ?p ?k ?j, H5 : Forall (Forall (fun j => j < ?n)) ?nb |- _ =>
      lazymatch goal with HX : j < n |- _ => fail | _ =>
        let P := fresh in pose proof (bond_at_bound _ _ _ _ Hb) as P; destruct P;
        let Q := fresh in pose proof (bond_at_In _ _ _ _ (fun j => j < n) Hb H5) as Q; cbv beta in Q end
    end.
  Lemma coupled_total : forall omega K MU h al dT n nbrs (x y : list (V3 N)) pr v m theta dsf dmg,
    coupled_inputs n nbrs x y pr v m theta dsf dmg dT -> total_on (coupled omega K MU h al dT x y pr v m theta dsf dmg) nbrs n.
  Proof.
    intros omega K MU h al dT n nbrs x y pr v m theta dsf dmg H. split.
    - intros p js Hp. assert (p < length nbrs) by (apply nth_error_Some; congruence). start. simpl.
      destruct dT as [l|]; simpl; ub_steps; eauto.
    - intros p js d k j Hp Hd Hb. pose proof H as (HC & _).
      destruct (cell_volumes_ok n nbrs x y v p k j HC Hb) as [r Er].
      split; [|split; [exists r; exact Er|start; lia]]. start. destruct d as [[[X Y] [[[mp th] s] P]] t]. simpl. ub_steps. eauto.
  Qed.
  Lemma poisson_total : forall h n nbrs (x y : list (V3 N)) v, cloud_ok n nbrs x y v -> total_on (poisson h x y v) nbrs n.
  Proof.
    intros h n nbrs x y v H. split.
    - intros p js Hp. assert (p < length nbrs) by (apply nth_error_Some; congruence). start. simpl. ub_steps; eauto.
    - intros p js d k j Hp Hd Hb.
      destruct (cell_volumes_ok n nbrs x y v p k j H Hb) as [r Er].
      split; [|split; [exists r; exact Er|start; lia]]. start. destruct d as [X Y]. simpl. ub_steps. eauto.
  Qed.
End Total.

Local Open Scope R_scope.
Local Notation vec := (V3 RN).
Lemma coupled_parallel : forall omega K MU h al dT nbrs x y pr v m theta dsf dmg,
  parallel_on (coupled (N:=RN) omega K MU h al dT x y pr v m theta dsf dmg) nbrs y.
Proof.
  intros omega K MU h al dT nbrs x y pr v m theta dsf dmg p k j js d fb s Hp Hd Hb H. simpl in Hd, H.
  split_bind Hd. injection Hd as <-. split_bind H. injection H as <- <-.
  rewrite (nth_at_ub _ _ _ _ vzero E7), (nth_at_ub _ _ _ _ vzero E0). apply along_parallel.
Qed.
Lemma coupled_broken : forall omega K MU h al dT x y pr v m theta dsf dmg d p k j fb s,
  nth_error dmg k = Some 1 -> bond _ _ (coupled (N:=RN) omega K MU h al dT x y pr v m theta dsf dmg) d p k j = Ok (fb, s) -> fb = vzero.
Proof.
  intros omega K MU h al dT x y pr v m theta dsf dmg [[[X Y] [[[mp th] s0] P]] t] p k j fb s Hk H. cbn [bond coupled] in H. split_bind H. apply Ok_pair in H as [-> ->].
  rewrite (broken_value _ _ _ E1 Hk). apply along_0. unfold coupled_t; to_R; ring.
Qed.
Lemma coupled_cut_off : forall omega K MU h al dT n nbrs x y pr v m theta dsf dmg f i,
  coupled_inputs (N:=RN) n nbrs x y pr v m theta dsf dmg dT -> length f = n -> cut_off nbrs dmg i ->
  exists f' out, run_kernel (coupled (N:=RN) omega K MU h al dT x y pr v m theta dsf dmg) nbrs f = Ok (f', out) /\ nth_error f' i = nth_error f i.
Proof.
  intros omega K MU h al dT n nbrs x y pr v m theta dsf dmg f i HI Hf Hc. eapply cut_off_untouched; eauto; [intros; eapply coupled_broken; eauto|]. now apply coupled_total.
Qed.
Lemma coupled_both : forall omega K MU h al dT n nbrs x y pr v m theta dsf dmg f,
  coupled_inputs (N:=RN) n nbrs x y pr v m theta dsf dmg dT -> length f = n ->
  exists f' out, run_kernel (coupled (N:=RN) omega K MU h al dT x y pr v m theta dsf dmg) nbrs f = Ok (f', out) /\ length f' = n /\
    (momentum v f' = momentum v f /\ (f = repeat vzero n -> momentum v f' = vzero)) /\
    (moment v y f' = moment v y f /\ (f = repeat vzero n -> moment v y f' = vzero)).
Proof.
  intros omega K MU h al dT n nbrs x y pr v m theta dsf dmg f HI Hf. pose proof (proj1 HI) as (C1 & C2 & C3 & _).
  destruct (conserve _ _ (coupled (N:=RN) omega K MU h al dT x y pr v m theta dsf dmg) n nbrs v y f C3 C2 Hf (coupled_total omega K MU h al dT n nbrs x y pr v m theta dsf dmg HI) (cell_volumes_balanced _ _ (coupled (N:=RN) omega K MU h al dT x y pr v m theta dsf dmg) nbrs v eq_refl) (coupled_parallel _ _ _ _ _ _ _ _ _ _ _ _ _ _ _)) as (f' & out & E & El & E1 & E2).
  exists f', out. repeat split; auto; intros ->; [rewrite E1; apply momentum_zero|rewrite E2; apply moment_zero].
Qed.
Lemma poisson_linear : forall h n nbrs x y v f, cloud_ok (N:=RN) n nbrs x y v -> length f = n ->
  exists f' out, run_kernel (poisson (N:=RN) h x y v) nbrs f = Ok (f', out) /\ length f' = n /\
    momentum v f' = momentum v f /\ (f = repeat vzero n -> momentum v f' = vzero).
Proof.
  intros h n nbrs x y v f HC Hf. pose proof HC as (C1 & C2 & C3 & _).
  pose proof (poisson_total h n nbrs x y v HC) as HT. rewrite <- Hf in HT.
  destruct (run_total _ nbrs f HT) as (f' & out & E & El & _). exists f', out. split; [exact E|]. split; [congruence|].
  assert (M : momentum v f' = momentum v f) by (eapply run_momentum; [exact (cell_volumes_balanced _ _ (poisson (N:=RN) h x y v) nbrs v eq_refl)|etransitivity; [exact C3|now symmetry]|exact E]).
  split; [exact M|]. intros ->. rewrite M. apply momentum_zero.
Qed.

Section Matching.
  Variables (L : vec -> vec) (nbrs : list (list nat)) (y y' : list vec).
  Hypothesis HL : iso L.
  Hypothesis HR : related (fun _ => True) L nbrs y y'.
  Definition coupledRD (p : nat) (d1 d2 : vec * vec * (R * R * R * R) * option R) : Prop :=
    let '(X, Y, r, dT) := d1 in
    exists Y', d2 = (X, Y', r, dT) /\ at_ub y p = Ok Y /\ at_ub y' p = Ok Y'.
  Lemma coupled_matching : forall omega K MU h al dT x pr v m theta dsf dmg,
    matching (coupled (N:=RN) omega K MU h al dT x y pr v m theta dsf dmg) (coupled (N:=RN) omega K MU h al dT x y' pr v m theta dsf dmg)
      L coupledRD (fun _ _ _ => True) nbrs.
  Proof.
    intros omega K MU h al dT x pr v m theta dsf dmg. split; [|split].
    - intros p js d1 Hp H. cbn [pre bond vols coupled] in H. split_bind H. injection H as <-.
      destruct (at_ub_same_len _ _ y y' _ _ (proj1 HR) E0) as [Y' EY'].
      exists (a, Y', (a1, a2, a3, a4), a5). split; [|exists Y'; auto]. cbn [pre bond vols coupled]. rewrite E. cbn [bind]. rewrite EY'. cbn [bind]. rewrite E1. cbn [bind]. rewrite E2. cbn [bind]. rewrite E3. cbn [bind]. rewrite E4. cbn [bind]. rewrite E5. reflexivity.
    - intros p k j [[[X Y] [[[mp th] s0] P]] t] d2 fb s Hb (Y' & -> & EY & EY') H. cbn [pre bond vols coupled] in H. split_bind H. injection H as <- <-.
      destruct (at_ub_same_len _ _ y y' _ _ (proj1 HR) E0) as [YP' EYP']. exists tt. split; auto.
      cbn [pre bond vols coupled]. rewrite E. cbn [bind]. rewrite EYP'. cbn [bind]. rewrite E1. cbn [bind]. f_equal. f_equal.
      destruct (rel (fun _ => True) L nbrs y y' HL HR _ _ _ _ _ _ _ Hb I EY E0 EY' EYP') as [R1 R2].
      rewrite L_along by apply HL. rewrite R2, R1. reflexivity.
    - auto.
  Qed.
End Matching.
Lemma coupled_frame : forall omega K MU h al dT n nbrs x y pr v m theta dsf dmg Q c f, orthogonal Q ->
  coupled_inputs (N:=RN) n nbrs x y pr v m theta dsf dmg dT -> length f = n ->
  exists f' out out', run_kernel (coupled (N:=RN) omega K MU h al dT x y pr v m theta dsf dmg) nbrs f = Ok (f', out) /\
    run_kernel (coupled (N:=RN) omega K MU h al dT x (map (move Q c) y) pr v m theta dsf dmg) nbrs (map (rotate Q) f) = Ok (map (rotate Q) f', out').
Proof.
  intros omega K MU h al dT n nbrs x y pr v m theta dsf dmg Q c f HQ HI Hf.
  pose proof (coupled_matching (rotate Q) nbrs y (map (move Q c) y) (iso_rotate Q HQ) (move_related Q c nbrs y) omega K MU h al dT x pr v m theta dsf dmg) as HM.
  destruct (sim_ok _ _ _ _ _ _ _ _ _ nbrs n (rotate_linear Q) (coupled_total omega K MU h al dT n nbrs x y pr v m theta dsf dmg HI) HM f Hf) as (f' & out & out2 & E1 & E2 & HS).
  exists f', out, out2. auto.
Qed.
