From Coq Require Import Reals Lra Lia.
From Verif Require Import Base Num ModelForce ModelTangent SpecDamage SpecForce SpecCorr SpecTangent ProofData ProofForce ProofCorr ProofTangent ProofTangent2 ProofTangent3 ProofTangent4 ProofTangent5 ProofTangent6 ProofTangent7 ProofTangent8 ProofTangent9.
Local Open Scope nat_scope.

(** ** what an element matrix adds *)
Definition full_of (nd : nat) (gs : list nat) (A : nat -> nat -> R) (r c : nat) : R :=
  sum_over (fun ig => ind (Nat.eqb (snd ig) r) (sum_over (fun jg => ind (Nat.eqb (snd jg) c) (A (fst ig) (fst jg))) (numbered (indices nd gs)))) (numbered (indices nd gs)).
Definition diag_of (gs : list nat) (A : nat -> nat -> R) (r c : nat) : R :=
  sum_over (fun ig => ind (Nat.eqb (snd ig) r)
    (ind (Nat.eqb (3 * (snd ig / 3)) c) (A (fst ig) (3 * (fst ig / 3))%nat) + ind (Nat.eqb (3 * (snd ig / 3) + 1) c) (A (fst ig) (3 * (fst ig / 3) + 1)%nat)
     + ind (Nat.eqb (3 * (snd ig / 3) + 2) c) (A (fst ig) (3 * (fst ig / 3) + 2)%nat))%R) (numbered (indices 3 gs)).
Section Pick.
  Context (gs : list nat) (A : nat -> nat -> R) (ND : NoDup gs).
  Lemma full_away : forall nd i a j b, a < nd -> b < nd -> ~ (In i gs /\ In j gs) -> full_of nd gs A (nd * i + a) (nd * j + b) = 0%R.
  Proof.
    intros nd i a j b Ha Hb H. unfold full_of.
    etransitivity; [exact (pick nd gs (fun r _ => sum_over (fun jg => ind (Nat.eqb (snd jg) (nd * j + b)) (A r (fst jg))) (numbered (indices nd gs))) i a Ha)|].
    pose (F m := sum_over (fun mg' => ind (Nat.eqb (snd mg') j) (A (nd * m + a) (nd * fst mg' + b))) (numbered gs)).
    transitivity (sum_over (fun mg => ind (Nat.eqb (snd mg) i) (F (fst mg))) (numbered gs)).
    { apply so_ext. intros [m g] _. cbn [fst snd]. unfold ind. rewrite (pick nd gs (fun c _ => A (nd * m + a) c) j b Hb). reflexivity. }
    destruct (in_dec Nat.eq_dec i gs) as [Hi|Hi]; [|now rewrite (away_numbered gs F)].
    destruct (In_nth_error _ _ Hi) as [m Hm]. rewrite (nodup_numbered gs F m i ND Hm). unfold F.
    apply (away_numbered gs (fun m' => A (nd * m + a) (nd * m' + b))). tauto.
  Qed.
  Lemma full_at : forall nd i a j b m m', a < nd -> b < nd -> nth_error gs m = Some i -> nth_error gs m' = Some j -> full_of nd gs A (nd * i + a) (nd * j + b) = A (nd * m + a) (nd * m' + b).
  Proof.
    intros nd i a j b m m' Ha Hb Hm Hm'. unfold full_of.
    etransitivity; [exact (pick nd gs (fun r _ => sum_over (fun jg => ind (Nat.eqb (snd jg) (nd * j + b)) (A r (fst jg))) (numbered (indices nd gs))) i a Ha)|].
    pose (F m := sum_over (fun mg' => ind (Nat.eqb (snd mg') j) (A (nd * m + a) (nd * fst mg' + b))) (numbered gs)).
    transitivity (sum_over (fun mg => ind (Nat.eqb (snd mg) i) (F (fst mg))) (numbered gs)).
    { apply so_ext. intros [q g] _. cbn [fst snd]. unfold ind. rewrite (pick nd gs (fun c _ => A (nd * q + a) c) j b Hb). reflexivity. }
    rewrite (nodup_numbered gs F m i ND Hm). unfold F.
    exact (nodup_numbered gs (fun m' => A (nd * m + a) (nd * m' + b)) m' j ND Hm').
  Qed.
  Lemma diag_full : forall i a j b, a < 3 -> b < 3 -> diag_of gs A (3 * i + a) (3 * j + b) = if Nat.eqb i j then full_of 3 gs A (3 * i + a) (3 * j + b) else 0%R.
  Proof.
    intros i a j b Ha Hb. unfold diag_of.
    etransitivity; [exact (pick 3 gs (fun r s => (ind (Nat.eqb (3 * (s / 3)) (3 * j + b)) (A r (3 * (r / 3))%nat) + ind (Nat.eqb (3 * (s / 3) + 1) (3 * j + b)) (A r (3 * (r / 3) + 1)%nat)
      + ind (Nat.eqb (3 * (s / 3) + 2) (3 * j + b)) (A r (3 * (r / 3) + 2)%nat))%R) i a Ha)|].
    pose (F m := (ind (Nat.eqb (3 * i) (3 * j + b)) (A (3 * m + a)%nat (3 * m)%nat) + ind (Nat.eqb (3 * i + 1) (3 * j + b)) (A (3 * m + a)%nat (3 * m + 1)%nat)
      + ind (Nat.eqb (3 * i + 2) (3 * j + b)) (A (3 * m + a)%nat (3 * m + 2)%nat))%R).
    transitivity (sum_over (fun mg => ind (Nat.eqb (snd mg) i) (F (fst mg))) (numbered gs)).
    { apply so_ext. intros [m g] _. cbn [fst snd]. rewrite !index_div by auto. reflexivity. }
    destruct (in_dec Nat.eq_dec i gs) as [Hi|Hi].
    2:{ rewrite (away_numbered gs F) by auto. destruct (Nat.eqb i j); auto. symmetry. apply full_away; tauto. }
    destruct (In_nth_error _ _ Hi) as [m Hm].
    rewrite (nodup_numbered gs F m i ND Hm). unfold F.
    destruct (Nat.eqb_spec i j) as [<-|Ne].
    - rewrite (full_at 3 i a i b m m) by auto.
      destruct b as [|[|[|b]]]; [| | |lia]; repeat (match goal with |- context [Nat.eqb ?x ?y] => destruct (Nat.eqb_spec x y); try lia end); cbn [ind]; rewrite ?Nat.add_0_r; ring.
    - repeat (match goal with |- context [Nat.eqb ?x ?y] => destruct (Nat.eqb_spec x y); try lia end). cbn [ind]. ring.
  Qed.
End Pick.

(** ** one point, by automatic differentiation *)
Definition element (Dx : nat -> list R) (W : nat -> R) (gs : list nat) (r c : nat) : R := (nth r (Dx c) 0 * nth (r / 3) (map W gs) 0)%R.
Lemma at_nth : forall (l : list R) i, i < length l -> at_ub l i = Ok (nth i l 0%R).
Proof. intros l i H. unfold at_ub. rewrite (nth_error_nth' l 0%R H). reflexivity. Qed.
Lemma ad_point_adds : forall jt gs W dx Dx es g, 2 <= length gs -> (forall col, col < 3 * length gs -> dx col = Ok (Dx col) /\ length (Dx col) = 3 * length gs) ->
  (forall S : scratch RN, 3 * length gs <= s_dim S -> (forall r c, r < 3 * length gs -> c < 3 * length gs -> s_data S r c = Some (element Dx W gs r c)) -> adds es (fun M => load jt M (indices 3 gs) S) g) ->
  step_adds es (ad_point (N:=RN) (fun _ => true) jt gs (map W gs) dx) g.
Proof.
  intros jt gs W dx Dx es g L2 HD HL S M HM. unfold ad_point. cbv zeta. cbn [fst snd].
  destruct (Nat.eqb_spec (length gs - 1) 0); [lia|]. replace (length gs - 1 + 1) with (length gs) by lia. set (dim := 3 * length gs) in *.
  pose proof (make_room_dim S dim) as HR. set (S0 := make_room S dim) in *.
  assert (WR : writer (element Dx W gs) (s_dim S0) (fun r c => exists row, In row (seq 0 dim) /\ exists col, In col (seq 0 dim) /\ r = row /\ c = col)
    (fun S => foldM (fun S row => foldM (fun S col => let? ds := dx col in let? d := at_ub ds row in let? w := at_ub (map W gs) (row / 3)%nat in s_write (N:=RN) S row col (d * w)%R) S (seq 0 dim)) S (seq 0 dim))).
  { apply writer_fold. intros row Hr. apply in_seq in Hr. apply writer_fold. intros col Hc. apply in_seq in Hc. destruct (HD col) as [E L]; [lia|].
    eapply writer_bind; [exact E|]. eapply writer_bind; [apply at_nth; rewrite L; lia|].
    eapply writer_bind; [apply at_nth; rewrite map_length; apply Nat.div_lt_upper_bound; [lia|]; fold dim; lia|]. apply writer_one; [lia|lia|]. reflexivity. }
  destruct (WR S0 eq_refl) as (S1 & E1 & D1 & W1 & _).
  match goal with |- context [bind ?e _] => assert (Q : e = Ok S1) by exact E1; rewrite Q end. cbn [bind].
  destruct (HL S1) with (M := M) as (M' & EM & T & V); auto; [lia| |].
  { intros r c Hr Hc. apply W1. exists r. split; [apply in_seq; lia|]. exists c. split; [apply in_seq; lia|auto]. }
  rewrite EM. cbn [bind]. exists S1, M'. auto.
Qed.
Lemma ad_full : forall gs W dx Dx es, 2 <= length gs -> (forall col, col < 3 * length gs -> dx col = Ok (Dx col) /\ length (Dx col) = 3 * length gs) ->
  (forall i a j b, In i gs -> In j gs -> a < 3 -> b < 3 -> In (3 * i + a, 3 * j + b) es) ->
  step_adds es (ad_point (N:=RN) (fun _ => true) Full gs (map W gs) dx) (full_of 3 gs (element Dx W gs)).
Proof.
  intros gs W dx Dx es L2 HD HR. apply (ad_point_adds _ _ _ _ Dx); auto. intros S HS HA. cbn [load].
  apply (add_values_adds es (indices 3 gs) S (element Dx W gs)); rewrite ?indices_len; auto. now apply room_In.
Qed.
Lemma ad_diagonal : forall gs W dx Dx es, NoDup gs -> 2 <= length gs -> (forall col, col < 3 * length gs -> dx col = Ok (Dx col) /\ length (Dx col) = 3 * length gs) ->
  (forall g a b, In g gs -> a < 3 -> b < 3 -> In (3 * g + a, 3 * g + b) es) ->
  step_adds es (ad_point (N:=RN) (fun _ => true) Block_diagonal gs (map W gs) dx) (diag_of gs (element Dx W gs)).
Proof.
  intros gs W dx Dx es ND L2 HD HR. apply (ad_point_adds _ _ _ _ Dx); auto. intros S HS HA. cbn [load].
  apply (add_diagonal_adds es gs S (element Dx W gs)); auto.
Qed.

(** ** derivatives of sums *)
Lemma lim_sum : forall A (l : list A) (f : A -> R -> R) d t, (forall x, In x l -> derivable_pt_lim (f x) t (d x)) -> derivable_pt_lim (fun s => sum_over (fun x => f x s) l) t (sum_over d l).
Proof.
  intros A l f d t. induction l as [|x l IH]; intros H.
  - eapply lim_ext; [intros s; symmetry; apply so_nil|]. eapply lim_eq; [symmetry; apply so_nil|]. exact (derivable_pt_lim_const 0 t).
  - eapply lim_ext; [intros s; symmetry; apply so_cons|]. eapply lim_eq; [symmetry; apply so_cons|].
    apply derivable_pt_lim_plus; [apply H; now left|apply IH; intros; apply H; now right].
Qed.
Lemma lim_scale : forall (f : R -> R) w t d, derivable_pt_lim f t d -> derivable_pt_lim (fun s => (w * f s)%R) t (w * d)%R.
Proof. intros f w t d H. exact (derivable_pt_lim_scal f w t d H). Qed.

Section Parts.
  Context (omega : R -> R -> R) (K MU h alpha : R) (W : nat -> R).
  Notation to_nbhd := (to_nbhd omega K MU h alpha).
  Notation assembled := (assembled omega K MU h alpha).

  (** the derivatives of the forces of a temporary data manager, all columns *)
  Definition Dx (b : block RN) (col : nat) : list R := match elastic_dx (N:=RN) omega K MU h alpha b col with Ok ds => ds | _ => [] end.
  Definition ad_share (w : list nat * block RN) : nat -> nat -> R := full_of 3 (fst w) (element (Dx (snd w)) W (fst w)).

  Lemma Dx_ok : forall Y V P p k js gs b, elastic_ok P -> separated Y P -> part_block W Y V P p k js gs b ->
    forall col, col < 3 * length gs -> elastic_dx (N:=RN) omega K MU h alpha b col = Ok (Dx b col) /\ length (Dx b col) = 3 * length gs.
  Proof.
    intros Y V P p k js gs b HO HS HB col Hc. apply split_index in Hc as (m & c & Hm & Hc & ->). destruct (nth_error gs m) as [j|] eqn:Ej; [|apply nth_error_None in Ej; lia].
    destruct (elastic_dx_spec omega K MU h alpha W Y V P p k js gs b m j c HO HS HB Ej Hc) as (ds & E & L & _). unfold Dx. rewrite E. auto.
  Qed.
  Lemma ad_share_lim : forall Y V P p k js gs b i a j c, elastic_ok P -> separated Y P -> part_block W Y V P p k js gs b -> a < 3 -> c < 3 ->
    derivable_pt_lim (fun t => (W i * on_point 3 gs (n_force (to_nbhd (gs, b)) (at_points 3 (nudge Y j c t) gs) []) i a)%R) 0 (ad_share (gs, b) (3 * i + a) (3 * j + c)).
  Proof.
    intros Y V P p k js gs b i a j c HO HS HB Ha Hc. pose proof (part_block_facts W Y V P p k js gs b HO HB) as (ND & L2 & Lx & AO). unfold ad_share. cbn [fst snd].
    destruct (in_dec Nat.eq_dec i gs) as [Hi|Hi].
    2:{ rewrite full_away by tauto. eapply lim_ext; [|exact (derivable_pt_lim_const 0 0)]. intros t. cbn. rewrite on_point_away by auto. unfold fct_cte. ring. }
    destruct (in_dec Nat.eq_dec j gs) as [Hj|Hj].
    2:{ rewrite full_away by tauto. eapply lim_ext; [|exact (derivable_pt_lim_const (W i * on_point 3 gs (n_force (to_nbhd (gs, b)) (at_points 3 Y gs) []) i a) 0)].
        intros t. rewrite nudge_away by auto. reflexivity. }
    apply In_nth_error in Hi as [m Hm], Hj as [m' Hm']. rewrite (full_at gs _ ND 3 i a j c m m') by auto. unfold element. rewrite index_div by auto.
    rewrite (nth_error_nth (map W gs) m 0%R (x := W i)) by now apply map_nth_error.
    destruct (elastic_dx_spec omega K MU h alpha W Y V P p k js gs b m' j c HO HS HB Hm' Hc) as (ds & E & L & HD). unfold Dx. rewrite E.
    eapply lim_eq; [apply Rmult_comm|]. apply lim_scale. eapply lim_ext; [|apply HD]. intros t. symmetry. now apply on_point_one.
  Qed.

  Notation blocks_of := (blocks_of W).
  Lemma blocks_total : forall Y V Ps, Forall elastic_ok Ps -> forall scratches, length scratches = length Ps -> exists works, blocks_of Y V Ps works /\ map fst works = scratches.
  Proof.
    intros Y V Ps H. induction H as [|P Ps HP _ IH]; intros [|s ss] L; try discriminate; [exists []; split; [constructor|reflexivity]|].
    destruct (IH ss) as (works & B & E); [cbn in L; congruence|]. destruct (neighbourhoods_total W Y V P (e_nbrs P) 0 0 []) as [work HW]; auto; [destruct HP as (_ & _ & _ & -> & _); lia|].
    exists ((s, work) :: works). split; [constructor; auto|cbn; congruence].
  Qed.
  Lemma blocks_each : forall Y V Ps works, blocks_of Y V Ps works -> Forall (fun w => exists P p k js, In P Ps /\ part_block W Y V P p k js (fst w) (snd w)) (concat (map snd works)).
  Proof.
    intros Y V Ps works H. induction H as [|P [s work] Ps works HP _ IH]; cbn [map concat snd] in *; [constructor|]. apply Forall_app. split.
    - pose proof (work_In W Y V P (e_nbrs P) 0 0 work [] eq_refl eq_refl HP) as F. eapply Forall_impl; [|exact F]. intros w (p & k & js & B). exists P, p, k, js. cbn; auto.
    - eapply Forall_impl; [|exact IH]. intros w (Q & p & k & js & I & B). exists Q, p, k, js. cbn; auto.
  Qed.
  Lemma assembled_body : forall Y V Y' V' Ps works i a, Forall elastic_ok Ps -> blocks_of Y V Ps works -> a < 3 ->
    assembled Ps Y' W i a = body_force 3 (map to_nbhd (concat (map snd works))) Y' V' i a.
  Proof.
    intros Y V Y' V' Ps works i a HO HB Ha. unfold SpecTangent.assembled. induction HB as [|P [s work] Ps works HP _ IH]; cbn [map concat snd] in *.
    - unfold body_force. cbn [map]. now rewrite !so_nil.
    - inversion HO; subst. rewrite so_cons. unfold body_force. rewrite map_app, so_app. f_equal; [|now apply IH].
      destruct (neighbourhoods_total W Y' V' P (e_nbrs P) 0 0 []) as [work' HW]; auto; [destruct H1 as (_ & _ & _ & -> & _); lia|].
      destruct (part_body omega K MU h alpha W Y' V' P work' i a Ha H1 HW) as (f & Ef & _ & Eo). rewrite Ef, Eo.
      rewrite <- (nbhd_indep omega K MU h alpha W Y V Y' V' P _ _ _ _ _ HP HW). reflexivity.
  Qed.
  Lemma ad_lim : forall Y V Ps works i a j c, Forall elastic_ok Ps -> Forall (separated Y) Ps -> blocks_of Y V Ps works -> a < 3 -> c < 3 ->
    derivable_pt_lim (fun t => (W i * assembled Ps (nudge Y j c t) W i a)%R) 0 (sum_over (fun w => ad_share w (3 * i + a) (3 * j + c)) (concat (map snd works))).
  Proof.
    intros Y V Ps works i a j c HO HS HB Ha Hc.
    eapply lim_ext; [|apply (lim_sum _ (concat (map snd works)) (fun w t => (W i * on_point 3 (fst w) (n_force (to_nbhd w) (at_points 3 (nudge Y j c t) (fst w)) []) i a)%R))].
    - intros t. cbv beta. rewrite (assembled_body Y V (nudge Y j c t) V Ps works i a HO HB Ha). unfold body_force. symmetry. rewrite so_map. symmetry. rewrite <- so_mul. apply so_ext. intros [gs b] _. reflexivity.
    - intros [gs b] Hw. pose proof (blocks_each Y V Ps works HB) as F. rewrite Forall_forall in F, HO, HS. destruct (F _ Hw) as (P & p & k & js & I & B).
      exact (ad_share_lim Y V P p k js gs b i a j c (HO P I) (HS P I) B Ha Hc).
  Qed.

  (** the whole matrix *)
  Lemma allocate_room : forall Y V Ps works es, blocks_of Y V Ps works -> allocate 3 (map e_part Ps) = Ok es ->
    forall w i a j b, In w (concat (map snd works)) -> In i (fst w) -> In j (fst w) -> a < 3 -> b < 3 -> In (3 * i + a, 3 * j + b) es.
  Proof.
    intros Y V Ps works es HB HE w i a j b Hw Hi Hj Ha Hb. apply (allocate_iff 3 _ es HE i a j b Ha Hb).
    pose proof (blocks_each Y V Ps works HB) as F. rewrite Forall_forall in F. destruct (F _ Hw) as (P & p & k & js & I & (Hp & Hg & _)).
    exists (e_part P), p, js, (fst w). split; [now apply in_map|]. split; [exact Hp|]. split; [now apply gather_spec|]. auto.
  Qed.
  Lemma F2_right : forall A B (Q : A -> B -> Prop) (f : A -> B) l, (forall x, In x l -> Q x (f x)) -> Forall2 Q l (map f l).
  Proof. intros A B Q f l. induction l as [|x l IH]; intros H; constructor; [apply H; now left|apply IH; intros; apply H; now right]. Qed.
  Lemma ad_matrix : forall Y V Ps works es, Forall elastic_ok Ps -> Forall (separated Y) Ps -> blocks_of Y V Ps works ->
    (forall w i a j b, In w (concat (map snd works)) -> In i (fst w) -> In j (fst w) -> a < 3 -> b < 3 -> In (3 * i + a, 3 * j + b) es) ->
    exists M, elastic_tangent (N:=RN) (fun _ => true) omega K MU h alpha Full works (zeroed es) = Ok M /\
      forall r c, value M r c = sum_over (fun w => ad_share w r c) (concat (map snd works)).
  Proof.
    intros Y V Ps works es HO HS HB HR. unfold elastic_tangent.
    destruct (materials_adds _ _ es (fun gs b => ad_point (N:=RN) (fun _ => true) Full gs (b_vol b) (elastic_dx (N:=RN) omega K MU h alpha b)) ad_share works (concat (map snd works))) with (M := zeroed (N:=RN) es) as (M & E & _ & HV).
    - assert (Q : forall l, (forall w, In w l -> In w (concat (map snd works))) -> Forall2 (fun w n => step_adds es (ad_point (N:=RN) (fun _ => true) Full (fst w) (b_vol (snd w)) (elastic_dx (N:=RN) omega K MU h alpha (snd w))) (ad_share n)) l l).
      { induction l as [|[gs b] l IH]; intros HI; constructor; [|apply IH; intros; apply HI; now right].
        pose proof (blocks_each Y V Ps works HB) as F. rewrite Forall_forall in F, HO, HS. destruct (F _ (HI _ (or_introl eq_refl))) as (P & p & k & js & I & B).
        pose proof (part_block_facts W Y V P p k js gs b (HO P I) B) as (ND & L2 & _). cbn [fst snd]. pose proof B as (_ & _ & _ & _ & _ & EV & _). cbn [fst snd] in EV. rewrite EV.
        apply (ad_full gs W _ (Dx b)); auto; [exact (Dx_ok Y V P p k js gs b (HO P I) (HS P I) B)|]. intros i a j c Hi Hj. apply (HR (gs, b)); auto. apply HI. now left. }
      apply Q. auto.
    - reflexivity.
    - exists M. split; [exact E|]. intros r c. rewrite HV. cbn [value zeroed]. apply Rplus_0_l.
  Qed.
  Lemma ad_matrix_diagonal : forall Y V Ps works es, Forall elastic_ok Ps -> Forall (separated Y) Ps -> blocks_of Y V Ps works ->
    (forall w g a b, In w (concat (map snd works)) -> In g (fst w) -> a < 3 -> b < 3 -> In (3 * g + a, 3 * g + b) es) ->
    exists M, elastic_tangent (N:=RN) (fun _ => true) omega K MU h alpha Block_diagonal works (zeroed es) = Ok M /\
      forall i a j b, a < 3 -> b < 3 -> value M (3 * i + a) (3 * j + b) = if Nat.eqb i j then sum_over (fun w => ad_share w (3 * i + a) (3 * j + b)) (concat (map snd works)) else 0%R.
  Proof.
    intros Y V Ps works es HO HS HB HR. unfold elastic_tangent. pose (g := fun w : list nat * block RN => diag_of (fst w) (element (Dx (snd w)) W (fst w))).
    pose proof (blocks_each Y V Ps works HB) as F. rewrite Forall_forall in F, HO, HS.
    destruct (materials_adds _ _ es (fun gs b => ad_point (N:=RN) (fun _ => true) Block_diagonal gs (b_vol b) (elastic_dx (N:=RN) omega K MU h alpha b)) g works (concat (map snd works))) with (M := zeroed (N:=RN) es) as (M & E & _ & HV).
    - assert (Q : forall l, (forall w, In w l -> In w (concat (map snd works))) -> Forall2 (fun w n => step_adds es (ad_point (N:=RN) (fun _ => true) Block_diagonal (fst w) (b_vol (snd w)) (elastic_dx (N:=RN) omega K MU h alpha (snd w))) (g n)) l l).
      { induction l as [|[gs b] l IH]; intros HI; constructor; [|apply IH; intros; apply HI; now right].
        destruct (F _ (HI _ (or_introl eq_refl))) as (P & p & k & js & I & B).
        pose proof (part_block_facts W Y V P p k js gs b (HO P I) B) as (ND & L2 & _). cbn [fst snd]. pose proof B as (_ & _ & _ & _ & _ & EV & _). cbn [fst snd] in EV. rewrite EV. unfold g. cbn [fst snd].
        apply (ad_diagonal gs W _ (Dx b)); auto; [exact (Dx_ok Y V P p k js gs b (HO P I) (HS P I) B)|]. intros i a c Hi. apply (HR (gs, b)); auto. apply HI. now left. }
      apply Q. auto.
    - reflexivity.
    - exists M. split; [exact E|]. intros i a j b Ha Hb. rewrite HV. cbn [value zeroed].
      transitivity (sum_over (fun w => if Nat.eqb i j then ad_share w (3 * i + a) (3 * j + b) else 0%R) (concat (map snd works))).
      { etransitivity; [apply Rplus_0_l|]. apply so_ext. intros [gs bl] Hw. unfold g, ad_share. cbn [fst snd]. destruct (F _ Hw) as (P & p & k & js & I & B).
        pose proof (part_block_facts W Y V P p k js gs bl (HO P I) B) as (ND & _). now apply diag_full. }
      destruct (Nat.eqb i j); [reflexivity|]. now apply so_0.
  Qed.
End Parts.

(** ** what stops a run *)
Lemma foldM_In : forall A B (step : A -> B -> outcome A) l s r x, foldM step s l = Ok r -> In x l -> exists s' r', step s' x = Ok r'.
Proof.
  intros A B step. induction l as [|y l IH]; intros s r x H HI; [destruct HI|destruct HI as [->|Hx]]; cbn [foldM] in H; apply bind_Ok in H as (s1 & E & H); eauto.
Qed.
Lemma fd_too_wide : forall (N : Num) (finite : N -> bool) jt L eps dt gs U SM SM', l_disp L = 3 -> 3 < l_all L ->
  (forall y v f, force_of U y v = Ok f -> length f = 3 * length gs) -> fd_point finite jt L eps dt gs U SM <> Ok SM'.
Proof.
  intros N finite jt L eps dt gs U SM SM' HD HA HF H. unfold fd_point in H. cbv zeta in H. destruct (Nat.eqb_spec (length gs - 1) 0) as [|Hn]; [discriminate|].
  set (n := length gs - 1) in *. apply bind_Ok in H as (S1 & H & _). unfold fd_columns in H.
  destruct (foldM_In _ _ _ _ _ _ 1 H) as (S2 & S3 & H2); [apply order_iff; lia|]. cbv beta in H2. apply bind_Ok in H2 as (S4 & H2 & _).
  destruct (foldM_In _ _ _ _ _ _ 0 H2) as (S5 & S6 & H3); [apply in_seq; lia|]. cbv beta in H3. unfold fd_displacement in H3. cbv zeta in H3.
  apply bind_Ok in H3 as (oy & _ & H3). apply bind_Ok in H3 as (ov & _ & H3). apply bind_Ok in H3 as (ym & _ & H3). apply bind_Ok in H3 as (vm & _ & H3). apply bind_Ok in H3 as (fm & Em & H3).
  apply bind_Ok in H3 as (yp & _ & H3). apply bind_Ok in H3 as (vp & _ & H3). apply bind_Ok in H3 as (fp & Ep & H3).
  destruct (foldM_In _ _ _ _ _ _ n H3) as (S7 & S8 & H4); [apply order_iff; lia|]. cbv beta in H4.
  destruct (foldM_In _ _ _ _ _ _ 3 H4) as (S9 & S10 & H5); [apply in_seq; lia|]. cbv beta in H5. apply bind_Ok in H5 as (a & Ha & _).
  unfold slope in Ha. apply bind_Ok in Ha as (x & Hx & _). apply at_ub_Ok in Hx. assert (l_all L * n + 3 < length fp) by (apply nth_error_Some; rewrite Hx; discriminate).
  rewrite (HF _ _ _ Ep) in H0. nia.
Qed.
Lemma full_into_diagonal : forall (N : Num) (finite : N -> bool) owned gs vol dx (S : scratch N) (M : matrix N) r g g', entries M = allocate_diagonal owned -> In g gs -> In g' gs -> g <> g' ->
  ad_point finite Full gs vol dx (S, M) <> Ok r.
Proof.
  intros N finite owned gs vol dx S M r g g' HM Hg Hg' Ne H. unfold ad_point in H. cbv zeta in H. destruct (Nat.eqb (length gs - 1) 0); [discriminate|]. apply bind_Ok in H as (S1 & _ & H).
  apply bind_Ok in H as (M1 & H & _). cbn [load fst snd] in H. unfold add_values in H.
  assert (NI : forall r c : nat, In (3 * g, 3 * g') (allocate_diagonal owned) -> False).
  { intros _ _ HI. unfold allocate_diagonal in HI. apply in_flat_map in HI as (row & Hrow & HI). cbn [map] in HI.
    destruct HI as [E|[E|[E|[]]]]; pose proof (f_equal fst E) as E1; pose proof (f_equal snd E) as E2; cbn [fst snd] in E1, E2; subst row; rewrite (Nat.mul_comm 3 g), Nat.div_mul in E2; lia. }
  assert (I1 : In (3 * g) (indices 3 gs)) by (apply In_indices; exists g, 0; repeat split; auto; lia).
  assert (I2 : In (3 * g') (indices 3 gs)) by (apply In_indices; exists g', 0; repeat split; auto; lia).
  assert (Num : forall x, In x (indices 3 gs) -> exists i, In (i, x) (numbered (indices 3 gs))) by (intros x Hx; apply In_nth_error in Hx as [i Hi]; exists i; now apply numbered_In).
  destruct (Num _ I1) as [i Hi]. destruct (Num _ I2) as [j Hj].
  (* entries never change *)
  assert (Keep : forall B (step : matrix N -> B -> outcome (matrix N)) l M0 M0' x, (forall M x M', step M x = Ok M' -> entries M' = entries M) -> foldM step M0 l = Ok M0' -> In x l ->
    entries M0' = entries M0 /\ exists Ma Mb, entries Ma = entries M0 /\ step Ma x = Ok Mb).
  { intros B step l. induction l as [|y l IH]; intros M0 M0' x HK HF HI; [destruct HI|]. cbn [foldM] in HF. apply bind_Ok in HF as (Ma & Ea & HF). pose proof (HK _ _ _ Ea) as K1.
    assert (EN : forall l Mx My, foldM step Mx l = Ok My -> entries My = entries Mx).
    { clear - HK. induction l as [|z l IH]; intros Mx My HF; cbn [foldM] in HF; [congruence|]. apply bind_Ok in HF as (Mz & Ez & HF). rewrite (IH _ _ HF). eapply HK; eauto. }
    split; [rewrite (EN _ _ _ HF); auto|]. destruct HI as [->|HI]; [exists M0, Ma; auto|]. destruct (IH _ _ x HK HF HI) as (_ & Mb & Mc & E1 & E2). exists Mb, Mc. split; [congruence|auto]. }
  assert (SK : forall M r c a M', sum_into (N:=N) M r c a = Ok M' -> entries M' = entries M) by (intros M0 r0 c0 a0 M0' HS; unfold sum_into in HS; destruct (existsb _ _); [injection HS as <-; reflexivity|discriminate]).
  assert (IK : forall ig (M : matrix N) x M', (let? a := s_read S1 (fst ig) (fst x) in sum_into M (snd ig) (snd x) a) = Ok M' -> entries M' = entries M).
  { intros ig M0 x M0' HS. apply bind_Ok in HS as (a & _ & HS). eapply SK; eauto. }
  assert (JK : forall (M : matrix N) ig M', foldM (fun M jg => let? a := s_read S1 (fst ig) (fst jg) in sum_into M (snd ig) (snd jg) a) M (numbered (indices 3 gs)) = Ok M' -> entries M' = entries M).
  { intros M0 ig M0'. revert M0. generalize (numbered (indices 3 gs)) as l. induction l as [|z l IH]; intros M0 HF; cbn [foldM] in HF; [congruence|]. apply bind_Ok in HF as (Mz & Ez & HF).
    rewrite (IH _ HF). exact (IK _ _ _ _ Ez). }
  destruct (Keep _ _ _ _ _ (i, 3 * g) JK H Hi) as (_ & Ma & Mb & Ea & Hb).
  cbv beta in Hb. destruct (Keep _ _ _ _ _ (j, 3 * g') (IK (i, 3 * g)) Hb Hj) as (_ & Mc & Md & Ec & Hd). cbn [fst snd] in Hd. apply bind_Ok in Hd as (a & _ & Hd).
  unfold sum_into in Hd. destruct (existsb _ _) eqn:EX; [|discriminate]. apply existsb_exists in EX as ([x1 x2] & Hx & Q). unfold same_entry in Q. cbn [fst snd] in Q.
  apply andb_prop in Q as [Q1 Q2]. apply Nat.eqb_eq in Q1, Q2. subst x1 x2. apply (NI 0 0). rewrite <- HM. rewrite <- Ea, <- Ec. exact Hx.
Qed.

Lemma allocate_any : forall nd parts es r c, allocate nd parts = Ok es -> In (r, c) es -> exists i a j b, a < nd /\ b < nd /\ r = nd * i + a /\ c = nd * j + b.
Proof.
  intros nd. induction parts as [|P parts IH]; intros es r c H HI; cbn [allocate] in H; [injection H as <-; destruct HI|].
  apply bind_Ok in H as (e1 & E1 & H). apply bind_Ok in H as (e2 & E2 & H). injection H as <-. apply in_app_iff in HI as [HI|HI]; [|eauto].
  apply (allocate_points_iff _ _ _ _ _ E1) in HI as (q & js & gs & _ & _ & H3 & H4). apply In_indices in H3 as (g & d & _ & G2 & G3), H4 as (g' & d' & _ & G5 & G6).
  exists g, d, g', d'. auto.
Qed.
Lemma diagonal_iff : forall owned i a j b, a < 3 -> b < 3 -> (In (3 * i + a, 3 * j + b) (allocate_diagonal owned) <-> In i owned /\ i = j).
Proof.
  intros owned i a j b Ha Hb. unfold allocate_diagonal. rewrite in_flat_map. split.
  - intros (row & Hr & HI). apply In_indices in Hr as (g & d & Hg & Hd & ->). rewrite index_div in HI by auto. cbn [map] in HI.
    assert (Q : exists e, e < 3 /\ 3 * g + d = 3 * i + a /\ 3 * g + e = 3 * j + b).
    { destruct HI as [E|[E|[E|[]]]]; pose proof (f_equal fst E) as F1; pose proof (f_equal snd E) as F2; cbn [fst snd] in F1, F2; [exists 0|exists 1|exists 2]; lia. }
    destruct Q as (e & He & Q1 & Q2). apply index_inj in Q1 as [-> _]; auto. apply index_inj in Q2 as [-> _]; auto.
  - intros [Hi <-]. exists (3 * i + a). split; [apply In_indices; eauto|]. rewrite index_div by auto. cbn [map]. destruct b as [|[|[|b]]]; [| | |lia]; [left|right; left|right; right; left]; f_equal; lia.
Qed.
Section PartsFD.
  Context (omega : R -> R -> R) (K MU h alpha : R) (W : nat -> R).
  Lemma fd_matrix : forall Y V Ps works es eps dt, Forall elastic_ok Ps -> blocks_of W Y V Ps works ->
    (forall w i a j b, In w (concat (map snd works)) -> In i (fst w) -> In j (fst w) -> a < 3 -> b < 3 -> In (3 * i + a, 3 * j + b) es) ->
    exists M, elastic_tangent_fd (N:=RN) (fun _ => true) omega K MU h alpha Full eps dt works (zeroed es) = Ok M /\
      forall i a j b, a < 3 -> b < 3 -> value M (3 * i + a) (3 * j + b) =
        (W i * ((assembled omega K MU h alpha Ps (nudge Y j b eps) W i a - assembled omega K MU h alpha Ps (nudge Y j b (- eps)) W i a) / (2 * eps)))%R.
  Proof.
    intros Y V Ps works es eps dt HO HB HR. unfold elastic_tangent_fd. set (ns := map (to_nbhd omega K MU h alpha) (concat (map snd works))).
    pose proof (blocks_each W Y V Ps works HB) as F. pose proof HO as HO'. rewrite Forall_forall in F, HO'.
    destruct (materials_adds _ _ es (fun gs b => fd_point (N:=RN) (fun _ => true) Full (Layout 3 3 0 None) eps dt gs (block_local (N:=RN) omega K MU h alpha b)) (fun n => gfull 3 eps n Y V W dt) works ns) with (M := zeroed (N:=RN) es) as (M & E & _ & HV).
    - apply F2_right. intros [gs b] Hw. destruct (F _ Hw) as (P & p & k & js & I & B). cbn [fst snd] in *.
      apply (displacement_point_full Y V W eps dt (gs, block_local (N:=RN) omega K MU h alpha b) (to_nbhd omega K MU h alpha (gs, b)) es); [exact (part_holds omega K MU h alpha W Y V P p k js gs b (HO' P I) B)|].
      intros n i a j c [<-|[]] Hi Hj. apply (HR (gs, b)); auto.
    - reflexivity.
    - exists M. split; [exact E|]. intros i a j b Ha Hb. rewrite HV. cbn [value zeroed]. etransitivity; [apply Rplus_0_l|].
      rewrite (assembled_body omega K MU h alpha W Y V (nudge Y j b eps) (nudge V j b (eps / dt)) Ps works i a HO HB Ha).
      rewrite (assembled_body omega K MU h alpha W Y V (nudge Y j b (- eps)) (nudge V j b (- (eps / dt))) Ps works i a HO HB Ha).
      change ((body_force 3 (map (to_nbhd omega K MU h alpha) (concat (map snd works))) (nudge Y j b eps) (nudge V j b (eps / dt)) i a -
        body_force 3 (map (to_nbhd omega K MU h alpha) (concat (map snd works))) (nudge Y j b (- eps)) (nudge V j b (- (eps / dt))) i a) / (2 * eps))%R with (central 3 ns Y V eps dt i a j b).
      rewrite <- share_sum. apply so_ext. intros n Hn. apply full_share; auto. unfold ns in Hn. apply in_map_iff in Hn as ([gs bl] & <- & Hw). destruct (F _ Hw) as (P & p & k & js & I & B).
      exact (proj1 (part_block_facts W Y V P p k js gs bl (HO' P I) B)).
  Qed.
End PartsFD.
