(** * The point loops of the correspondence materials *)
From Coq Require Import Reals Lra Lia.
From Verif Require Import Base Num ModelNeigh SpecDamage ModelForce SpecForce ModelCorr SpecCorr ProofData ProofDamage ProofForce ProofKernels ProofCorr ProofCorr2.
Local Open Scope R_scope.
Local Notation vec := (V3 RN).
Local Notation ten := (M3 RN).

Lemma looks_up_ok : forall (x : list vec) (v : list R) js n, length x = n -> length v = n -> Forall (fun j => (j < n)%nat) js -> exists nbs, looks_up x v js nbs.
Proof.
  intros x v js n Hx Hv H. induction H as [|j js Hj H [nbs IH]]; [exists []; constructor|].
  destruct (nth_error x j) as [X|] eqn:EX; [|exfalso; apply nth_error_None in EX; lia].
  destruct (nth_error v j) as [V|] eqn:EV; [|exfalso; apply nth_error_None in EV; lia].
  exists ((X, V) :: nbs). constructor; auto.
Qed.
Lemma looks_up_fun : forall (x : list vec) (v : list R) js a b, looks_up x v js a -> looks_up x v js b -> a = b.
Proof.
  intros x v js a b H. revert b. induction H as [|j [X V] js a [E1 E2] H IH]; intros b Hb; inversion Hb as [|? [X' V'] ? b' [F1 F2] Hb']; [auto|].
  cbn [fst snd] in *. rewrite E1 in F1. rewrite E2 in F2. injection F1 as <-. injection F2 as <-. f_equal. auto.
Qed.
Lemma neighbourhood_ok : forall n nbrs (x y : list vec) (v hs : list R) p js, corr_inputs n nbrs x y v hs -> nth_error nbrs p = Some js ->
  exists X h nbs, neighbourhood x v hs nbrs p X h nbs.
Proof.
  intros n nbrs x y v hs p js ((Hx & Hy & Hv & Hn & HF) & Hh) Hp. unfold per_point in Hh.
  assert (p < length nbrs)%nat by (apply nth_error_Some; congruence).
  destruct (nth_error x p) as [X|] eqn:EX; [|exfalso; apply nth_error_None in EX; lia].
  destruct (nth_error hs p) as [h|] eqn:EH; [|exfalso; apply nth_error_None in EH; change (T RN) with R in *; lia].
  destruct (looks_up_ok x v js n Hx Hv) as [nbs HL]. { rewrite Forall_forall in HF. apply HF. eapply nth_error_In; eauto. }
  exists X, h, nbs, js. auto.
Qed.

Lemma at_of : forall A (l : list A) i a, nth_error l i = Some a -> at_ub l i = Ok a.
Proof. intros A l i a H. unfold at_ub. now rewrite H. Qed.
(** one point *)
Lemma shape_point_ok : forall omega n nbrs (x y : list vec) (v hs : list R) p js X h nbs, corr_inputs n nbrs x y v hs ->
  nth_error nbrs p = Some js -> neighbourhood x v hs nbrs p X h nbs ->
  exists Y K F1 rc Kinv, nth_error y p = Some Y /\ shape_sums (N:=RN) omega x y v h X Y js = Ok (K, F1) /\
    shape_point (N:=RN) omega x y v hs p js = Ok (rc, Kinv, mul_nn F1 Kinv) /\
    eq3 (ent K) (shape omega h X nbs) /\ rc = (if Reqb (det3 (shape omega h X nbs)) 0 then 1%Z else 0%Z) /\
    (rc = 0%Z -> mul_nn K Kinv = mone /\ mul_nn Kinv K = mone) /\
    (forall A : ten, (forall j XP YP, In j js -> nth_error x j = Some XP -> nth_error y j = Some YP -> vsub YP Y = mapply A (vsub XP X)) ->
       F1 = mul_nn A K).
Proof.
  intros omega n nbrs x y v hs p js X h nbs ((Hx & Hy & Hv & Hn & HF) & Hh) Hp (js' & E1 & EX & EH & HL).
  rewrite Hp in E1. injection E1 as <-. unfold per_point in Hh.
  assert (p < length nbrs)%nat by (apply nth_error_Some; congruence).
  destruct (nth_error y p) as [Y|] eqn:EY; [|exfalso; apply nth_error_None in EY; lia].
  destruct (shape_sums_ok omega x y v h X Y js nbs) as (K & F1 & ES & P1 & P2); [congruence|auto|].
  assert (HD : det3 (ent K) = det3 (shape omega h X nbs)) by (unfold det3; rewrite !P1 by lia; reflexivity).
  pose proof (invert_code K) as HC. rewrite HD in HC.
  exists Y, K, F1. destruct (invert K) as [[rc d] Kinv] eqn:EI. cbn [fst] in HC. exists rc, Kinv.
  split; [reflexivity|]. split; [exact ES|]. split.
  - unfold shape_point. rewrite (at_of _ hs p h EH : at_ub (A:=T RN) hs p = Ok h), (at_of _ _ _ _ EX), (at_of _ _ _ _ EY). cbn [bind]. rewrite ES. cbn [bind]. rewrite EI. rewrite matmul_nn. reflexivity.
  - split; [exact P1|]. split; [exact HC|]. split; [|exact P2].
    intros E0. destruct (Reqb (det3 (shape omega h X nbs)) 0) eqn:ER; [subst; discriminate|].
    apply Reqb_false in ER. rewrite <- HD in ER. destruct (invert_regular K ER) as (b & Eb & B1 & B2). rewrite Eb in EI. injection EI as _ _ ->. auto.
Qed.

(** the loop *)
Lemma shape_points_go : forall omega (x y : list vec) (v hs : list R) nbrs p,
  (forall m js, nth_error nbrs m = Some js -> exists rc g, shape_point (N:=RN) omega x y v hs (p + m) js = Ok (rc, fst g, snd g) /\ (rc = 0%Z \/ rc = 1%Z)) ->
  forall code, exists c geo, shape_points (N:=RN) omega x y v hs p nbrs code = Ok (c, geo) /\ length geo = length nbrs /\
    (forall m js, nth_error nbrs m = Some js -> exists rc g, nth_error geo m = Some g /\ shape_point (N:=RN) omega x y v hs (p + m) js = Ok (rc, fst g, snd g)) /\
    (c = 0%Z <-> code = 0%Z /\ forall m js rc g, nth_error nbrs m = Some js -> shape_point (N:=RN) omega x y v hs (p + m) js = Ok (rc, fst g, snd g) -> rc = 0%Z).
Proof.
  intros omega x y v hs. induction nbrs as [|js nbrs IH]; intros p H code.
  - exists code, []. cbn. split; [reflexivity|]. split; [reflexivity|]. split; [intros [|m]; discriminate|]. split; [|tauto]. intros ->. split; auto. intros [|m]; discriminate.
  - destruct (H 0%nat js eq_refl) as (rc & [Ki F] & E & Hrc). rewrite Nat.add_0_r in E. cbn [fst snd] in E.
    destruct (IH (1 + p)%nat) with (code := if (0 <? rc)%Z then rc else code) as (c & geo & E1 & L & G & C).
    { intros m js' Hm. destruct (H (S m) js' Hm) as (rc' & g & Eg & Hg). exists rc', g. replace (1 + p + m)%nat with (p + S m)%nat by lia. auto. }
    exists c, ((Ki, F) :: geo). cbn [shape_points]. rewrite E. cbn [bind]. change (S p) with (1 + p)%nat. rewrite E1. cbn [bind].
    split; [reflexivity|]. split; [simpl; lia|]. split.
    + intros [|m] js' Hm; cbn in Hm.
      * injection Hm as <-. exists rc, (Ki, F). rewrite Nat.add_0_r. auto.
      * destruct (G m js' Hm) as (rc' & g & G1 & G2). exists rc', g. replace (p + S m)%nat with (1 + p + m)%nat by lia. auto.
    + rewrite C. split.
      * intros [C1 C2]. assert (rc = 0%Z) as ->. { destruct Hrc as [->| ->]; [reflexivity|discriminate]. } split; [exact C1|].
        intros [|m] js' rc' g Hm Eg; cbn in Hm.
        -- injection Hm as <-. rewrite Nat.add_0_r, E in Eg. injection Eg as <- _ _. reflexivity.
        -- apply (C2 m js' rc' g Hm). replace (1 + p + m)%nat with (p + S m)%nat by lia. exact Eg.
      * intros [-> C2]. assert (rc = 0%Z) as ->. { apply (C2 0%nat js rc (Ki, F)); auto. now rewrite Nat.add_0_r. } split; [reflexivity|].
        intros m js' rc' g Hm Eg. apply (C2 (S m) js' rc' g Hm). now replace (p + S m)%nat with (1 + p + m)%nat by lia.
Qed.

(** the geometry the loop leaves behind *)
Definition geo_of (omega : R -> R -> R) (x y : list vec) (v hs : list R) (nbrs : list (list nat)) (geo : list (ten * ten)) : Prop :=
  forall p js X h nbs, nth_error nbrs p = Some js -> neighbourhood x v hs nbrs p X h nbs ->
  exists Y K F1 g, nth_error geo p = Some g /\ nth_error y p = Some Y /\ shape_sums (N:=RN) omega x y v h X Y js = Ok (K, F1) /\
    eq3 (ent K) (shape omega h X nbs) /\ snd g = mul_nn F1 (fst g) /\
    (det3 (shape omega h X nbs) <> 0 -> mul_nn K (fst g) = mone /\ mul_nn (fst g) K = mone) /\
    (forall A : ten, (forall j XP YP, In j js -> nth_error x j = Some XP -> nth_error y j = Some YP -> vsub YP Y = mapply A (vsub XP X)) ->
       F1 = mul_nn A K).
Lemma deformation_ok : forall omega n nbrs (x y : list vec) (v hs : list R), corr_inputs n nbrs x y v hs ->
  exists code geo, deformation (N:=RN) omega x y v hs nbrs = Ok (code, geo) /\ length geo = length nbrs /\ geo_of omega x y v hs nbrs geo /\
  (code = 0%Z <-> forall p X h nbs, neighbourhood x v hs nbrs p X h nbs -> det3 (shape omega h X nbs) <> 0).
Proof.
  intros omega n nbrs x y v hs HI.
  destruct (shape_points_go omega x y v hs nbrs 0) with (code := 0%Z) as (c & geo & E & L & G & C).
  { intros m js Hm. destruct (neighbourhood_ok _ _ _ _ _ _ _ _ HI Hm) as (X & h & nbs & HN).
    destruct (shape_point_ok omega n nbrs x y v hs m js X h nbs HI Hm HN) as (Y & K & F1 & rc & Ki & _ & _ & ES & _ & Hrc & _).
    exists rc, (Ki, mul_nn F1 Ki). split; [exact ES|]. rewrite Hrc. destruct (Reqb _ _); auto. }
  exists c, geo. split; [exact E|]. split; [exact L|]. split.
  - intros p js X h nbs Hp HN. destruct (shape_point_ok omega n nbrs x y v hs p js X h nbs HI Hp HN) as (Y & K & F1 & rc & Ki & EY & ES & EP & HK & Hrc & Hi & HA).
    destruct (G p js Hp) as (rc' & [g1 g2] & Eg & EP'). cbn [Nat.add] in EP'. rewrite EP in EP'. cbn [fst snd] in EP'. injection EP' as <- <- <-.
    exists Y, K, F1, (Ki, mul_nn F1 Ki). cbn [fst snd]. repeat split; auto; try (apply Hi; rewrite Hrc; destruct (Reqb (det3 (shape omega h X nbs)) 0) eqn:ER; auto; apply Reqb_true in ER; contradiction).
  - rewrite C. split.
    + intros [_ C2] p X h nbs HN. pose proof HN as (js & Hp & _).
      destruct (shape_point_ok omega n nbrs x y v hs p js X h nbs HI Hp HN) as (Y & K & F1 & rc & Ki & EY & ES & EP & HK & Hrc & _).
      pose proof (C2 p js rc (Ki, mul_nn F1 Ki) Hp EP) as R0. rewrite R0 in Hrc. destruct (Reqb (det3 (shape omega h X nbs)) 0) eqn:ER; [discriminate|]. now apply Reqb_false.
    + intros H. split; auto. intros m js rc g Hm EP'. cbn [Nat.add] in EP'.
      destruct (neighbourhood_ok _ _ _ _ _ _ _ _ HI Hm) as (X & h & nbs & HN).
      destruct (shape_point_ok omega n nbrs x y v hs m js X h nbs HI Hm HN) as (Y & K & F1 & rc' & Ki & _ & _ & ES & _ & Hrc & _).
      rewrite ES in EP'. injection EP' as <- _ _. rewrite Hrc. pose proof (H m X h nbs HN) as ND. apply Reqb_false in ND. now rewrite ND.
Qed.

(** affine neighbourhoods *)
Lemma geo_affine : forall omega n nbrs (x y : list vec) (v hs : list R) geo p js X h nbs A b, corr_inputs n nbrs x y v hs ->
  geo_of omega x y v hs nbrs geo -> nth_error nbrs p = Some js -> neighbourhood x v hs nbrs p X h nbs ->
  det3 (shape omega h X nbs) <> 0 -> affine_at A b x y (p :: js) ->
  exists g, nth_error geo p = Some g /\ snd g = of_mat A /\ inverse_of (shape omega h X nbs) (ent (fst g)).
Proof.
  intros omega n nbrs x y v hs geo p js X h nbs A b HI HG Hp HN HD HA.
  destruct (HG p js X h nbs Hp HN) as (Y & K & F1 & g & Eg & EY & ES & HK & EF & Hinv & HL). pose proof HN as (js' & _ & EX & _).
  destruct (Hinv HD) as [I1 I2]. exists g. split; [exact Eg|]. split.
  - rewrite EF, (HL (of_mat A)); [|intros j XP YP Hj E1 E2; eapply affine_bond; eauto; [now left|now right]].
    rewrite nn_assoc, I1. apply nn_one_r.
  - pose proof (inverse_of_nn _ _ I1 I2) as [J1 J2]. split; intros i j Hi Hj; [rewrite <- J1 by auto|rewrite <- J2 by auto]; unfold prod, sum3; rewrite !HK by (auto; lia); reflexivity.
Qed.

(** ** hourglass force *)
Lemma hourglass_total : forall (N : Num) bulk coef n nbrs (x y : list (V3 N)) v hs geo, corr_inputs n nbrs x y v hs -> length geo = length nbrs ->
  total_on (hourglass bulk coef x y v hs geo) nbrs n.
Proof.
  intros N bulk coef n nbrs x y v hs geo (HC & Hh) Hg. unfold per_point in Hh. pose proof HC as (C1 & C2 & C3 & C4 & C5). split.
  - intros p js Hp. assert (p < length nbrs)%nat by (apply nth_error_Some; congruence). cbn [pre hourglass]. ub_steps. eauto.
  - intros p js d k j Hp Hd Hb. destruct (cell_volumes_ok n nbrs x y v p k j HC Hb) as [r Er].
    pose proof (bond_at_bound _ _ _ _ Hb) as [B1 B2]. pose proof (bond_at_In _ _ _ _ (fun j => (j < n)%nat) Hb C5) as Q. cbv beta in Q.
    split; [|split; [exists r; exact Er|lia]]. destruct d as [[[X Y] F] c]. cbn [bond hourglass]. ub_steps. eauto.
Qed.
