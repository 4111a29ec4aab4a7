(** * C37: the tangent matrix *)
From Coq Require Import Reals Lra Lia.
From Verif Require Import Base Num ModelForce ModelTangent SpecDamage SpecForce SpecCorr SpecTangent ProofData ProofTangent ProofTangent2 ProofTangent3 ProofTangent4 ProofTangent5 ProofTangent6 ProofTangent7 ProofTangent8 ProofTangent9 ProofTangent10.
Local Open Scope nat_scope.

(** ** Two processors, four points on a line; point 1 is bonded to 0 and 2, point 2 to 1 and 3 *)
Definition part_a : part := Part [0; 1; 2] [[1]; [0; 2]].
Definition part_b : part := Part [2; 3; 1] [[2; 1]; [0]].
Example ids_ok_line : Forall ids_ok [part_a; part_b].
Proof. repeat constructor; cbn; lia. Qed.
Example together_line : together [part_a; part_b] 0 2 /\ ~ together [part_a; part_b] 0 3.
Proof.
  split.
  - exists part_a, 1, [0; 2], [1; 0; 2]. cbn. repeat split; auto.
  - intros (P & p & js & gs & HP & Hp & HG & H0 & H3). cbn in HP. destruct HP as [<-|[<-|[]]].
    + destruct p as [|[|p]]; cbn in Hp; [| |destruct p; discriminate]; injection Hp as <-; repeat match goal with H : Forall2 _ (_ :: _) _ |- _ => inversion H; subst; clear H end; match goal with H : Forall2 _ [] _ |- _ => inversion H; subst end; cbn in *;
        repeat match goal with H : Some _ = Some _ |- _ => injection H as <- end; lia.
    + destruct p as [|[|p]]; cbn in Hp; [| |destruct p; discriminate]; injection Hp as <-; repeat match goal with H : Forall2 _ (_ :: _) _ |- _ => inversion H; subst; clear H end; match goal with H : Forall2 _ [] _ |- _ => inversion H; subst end; cbn in *;
        repeat match goal with H : Some _ = Some _ |- _ => injection H as <- end; lia.
Qed.

(** ** Sparsity *)
(** allocation succeeds whenever all local ids are those of overlap points *)
Theorem C37_allocation_succeeds : forall nd parts, Forall ids_ok parts -> exists es, allocate nd parts = Ok es.
Proof. exact allocate_total. Qed.
(** the entries are exactly those of two degrees of freedom of points that are together in a neighbourhood *)
Theorem C37_pattern : forall nd parts es, allocate nd parts = Ok es -> forall i a j b, a < nd -> b < nd ->
  (In (nd * i + a, nd * j + b) es <-> together parts i j).
Proof. exact allocate_iff. Qed.
Theorem C37_pattern_symmetric : forall nd parts es, allocate nd parts = Ok es -> forall r c, In (r, c) es -> In (c, r) es.
Proof.
  intros nd parts es H r c HI. destruct (allocate_any nd parts es r c H HI) as (i & a & j & b & Ha & Hb & -> & ->).
  apply (allocate_iff nd parts es H) in HI; auto. apply (allocate_iff nd parts es H); auto.
  destruct HI as (P & p & js & gs & H1 & H2 & H3 & H4 & H5). exists P, p, js, gs. auto.
Qed.
(** every owned point has its full diagonal block *)
Theorem C37_pattern_diagonal : forall nd parts es P p g, allocate nd parts = Ok es -> Forall ids_ok parts -> In P parts -> p < length (p_nbrs P) -> nth_error (p_gids P) p = Some g ->
  forall a b, a < nd -> b < nd -> In (nd * g + a, nd * g + b) es.
Proof.
  intros nd parts es P p g H HO HP Hp Hg a b Ha Hb. apply (allocate_iff nd parts es H); auto.
  destruct (nth_error (p_nbrs P) p) as [js|] eqn:E; [|apply nth_error_None in E; lia]. rewrite Forall_forall in HO. destruct (HO P HP) as [HL HF].
  destruct (gather_total _ (p_gids P) (p :: js)) as [gs HG]; [constructor; [apply nth_error_Some; congruence|]; rewrite Forall_forall in HF; apply HF; eapply nth_error_In; eauto|].
  pose proof HG as HG'. apply gather_spec in HG'. exists P, p, js, gs. split; [auto|]. split; [auto|]. split; [auto|]. inversion HG'; subst. assert (y = g) by congruence. subst y. split; left; auto.
Qed.
Example pattern_line : exists es, allocate 3 [part_a; part_b] = Ok es /\ In (3 * 0 + 1, 3 * 2 + 0) es /\ In (3 * 2 + 0, 3 * 0 + 1) es /\ In (3 * 3 + 2, 3 * 3 + 0) es /\ ~ In (3 * 0 + 0, 3 * 3 + 0) es.
Proof.
  destruct (C37_allocation_succeeds 3 _ ids_ok_line) as [es E]. exists es. split; auto.
  assert (I : In (3 * 0 + 1, 3 * 2 + 0) es) by (apply (C37_pattern 3 _ es E); [lia..|apply together_line]). split; [auto|]. split; [now apply (C37_pattern_symmetric 3 _ es E)|]. split.
  - apply (C37_pattern_diagonal 3 _ es part_b 1 3 E ids_ok_line); cbn; auto.
  - intros H. apply (C37_pattern 3 _ es E 0 0 3 0) in H; [|lia..]. now apply together_line in H.
Qed.
Print Assumptions C37_allocation_succeeds.
Print Assumptions C37_pattern.
Print Assumptions C37_pattern_symmetric.
Print Assumptions C37_pattern_diagonal.

(** ** Finite differences *)
(** Displacements: for any points, whatever their forces and whatever the scratch matrices hold at the start, every entry
    of the assembled matrix is the volume of the row's point times the central difference of the total force on it *)
Theorem C37_central_difference : forall Y V W eps dt works ns es, Forall2 (holds Y V W) (concat (map snd works)) ns -> room 3 es ns ->
  exists M, materials (fd_point (N:=RN) (fun _ => true) Full (Layout 3 3 0 None) eps dt) works (zeroed es) = Ok M /\
    forall i a j b, a < 3 -> b < 3 -> value M (3 * i + a) (3 * j + b) = (W i * central 3 ns Y V eps dt i a j b)%R.
Proof.
  intros Y V W eps dt works ns es HH HR.
  destruct (materials_adds _ _ es (fd_point (N:=RN) (fun _ => true) Full (Layout 3 3 0 None) eps dt) (fun n => gfull 3 eps n Y V W dt) works ns) with (M := zeroed (N:=RN) es) as (M & E & _ & HV).
  - clear - HH HR. induction HH as [|w n ws ns Hw HF IH]; constructor; [apply displacement_point_full; auto|apply IH]; intros m i a j b Hm; apply HR; cbn in *; tauto.
  - reflexivity.
  - exists M. split; [exact E|]. intros i a j b Ha Hb. rewrite HV. cbn [value zeroed]. etransitivity; [apply Rplus_0_l|]. rewrite <- share_sum.
    apply so_ext. intros n Hn. apply full_share; auto. clear - HH Hn. induction HH as [|w n0 ws ns Hw HF IH]; [destruct Hn|]. destruct Hn as [<-|Hn]; [apply Hw|auto].
Qed.
(** the same for temperatures and heat flow *)
Theorem C37_central_difference_temperature : forall Y V W eps dt works ns es, Forall2 (holds_temperature Y W) (concat (map snd works)) ns -> room 1 es ns ->
  exists M, materials (fd_point (N:=RN) (fun _ => true) Full (Layout 1 0 0 (Some 0)) eps dt) works (zeroed es) = Ok M /\
    forall i j, value M i j = (W i * central 1 ns Y V eps dt i 0 j 0)%R.
Proof.
  intros Y V W eps dt works ns es HH HR.
  destruct (materials_adds _ _ es (fd_point (N:=RN) (fun _ => true) Full (Layout 1 0 0 (Some 0)) eps dt) (fun n => gfull 1 eps n Y V W dt) works ns) with (M := zeroed (N:=RN) es) as (M & E & _ & HV).
  - clear - HH HR. induction HH as [|w n ws ns Hw HF IH]; constructor; [apply temperature_point_full; auto|apply IH]; intros m i a j b Hm; apply HR; cbn in *; tauto.
  - reflexivity.
  - exists M. split; [exact E|]. intros i j. rewrite HV. cbn [value zeroed]. etransitivity; [apply Rplus_0_l|]. rewrite <- share_sum.
    apply so_ext. intros n Hn. replace (gfull 1 eps n Y V W dt i j) with (gfull 1 eps n Y V W dt (1 * i + 0) (1 * j + 0)) by (f_equal; lia). apply full_share; auto.
    clear - HH Hn. induction HH as [|w n0 ws ns Hw HF IH]; [destruct Hn|]. destruct Hn as [<-|Hn]; [apply Hw|auto].
Qed.
(** the block diagonal matrix has the same 3x3 blocks on the diagonal and nothing else *)
Theorem C37_block_diagonal : forall Y V W eps dt works ns owned, Forall2 (holds Y V W) (concat (map snd works)) ns -> (forall n g, In n ns -> In g (n_gids n) -> In g owned) ->
  exists M, materials (fd_point (N:=RN) (fun _ => true) Block_diagonal (Layout 3 3 0 None) eps dt) works (zeroed (allocate_diagonal owned)) = Ok M /\
    forall i a j b, a < 3 -> b < 3 -> value M (3 * i + a) (3 * j + b) = if Nat.eqb i j then (W i * central 3 ns Y V eps dt i a j b)%R else 0%R.
Proof.
  intros Y V W eps dt works ns owned HH HR. set (es := allocate_diagonal owned).
  destruct (materials_adds _ _ es (fd_point (N:=RN) (fun _ => true) Block_diagonal (Layout 3 3 0 None) eps dt) (fun n => gdiag eps n Y V W dt) works ns) with (M := zeroed (N:=RN) es) as (M & E & _ & HV).
  - assert (G : forall ws ns', Forall2 (holds Y V W) ws ns' -> (forall n, In n ns' -> In n ns) -> Forall2 (fun w n => step_adds es (fd_point (N:=RN) (fun _ => true) Block_diagonal (Layout 3 3 0 None) eps dt (fst w) (snd w)) (gdiag eps n Y V W dt)) ws ns').
    { intros ws ns' H. induction H as [|w n ws ns' Hw HF IH]; intros HI; constructor; [|apply IH; intros; apply HI; now right].
      apply displacement_point_diagonal; auto. intros g a b Hg Ha Hb. apply diagonal_iff; auto. split; auto. apply (HR n); auto. apply HI. now left. }
    now apply G.
  - reflexivity.
  - exists M. split; [exact E|]. intros i a j b Ha Hb. rewrite HV. cbn [value zeroed]. etransitivity; [apply Rplus_0_l|].
    transitivity (sum_over (fun n => if Nat.eqb i j then share 3 eps n Y V W dt i a j b else 0%R) ns).
    { apply so_ext. intros n Hn. apply diagonal_share; auto. clear - HH Hn. induction HH as [|w n0 ws ns Hw HF IH]; [destruct Hn|]. destruct Hn as [<-|Hn]; [apply Hw|auto]. }
    destruct (Nat.eqb i j); [apply share_sum|now apply so_0].
Qed.
(** the central difference is the exact derivative where the force is at most quadratic in the coordinate *)
Theorem C37_quadratic_exact : forall nd ns Y V eps dt i a j b c0 c1 c2, eps <> 0%R ->
  (forall t, body_force nd ns (nudge Y j b t) (nudge V j b (t / dt)) i a = (c0 + c1 * t + c2 * (t * t))%R) ->
  derivable_pt_lim (fun t => body_force nd ns (nudge Y j b t) (nudge V j b (t / dt)) i a) 0 (central nd ns Y V eps dt i a j b).
Proof.
  intros nd ns Y V eps dt i a j b c0 c1 c2 He H.
  assert (C : central nd ns Y V eps dt i a j b = c1).
  { unfold central. replace (- (eps / dt))%R with (- eps / dt)%R by (unfold Rdiv; ring). rewrite !H. field. auto. }
  rewrite C. eapply lim_ext; [intros t; symmetry; apply H|].
  eapply lim_eq; [|apply (derivable_pt_lim_plus (fun t => c0 + c1 * t) (fun t => c2 * (t * t)))%R; [apply (derivable_pt_lim_plus (fun _ => c0) (fun t => c1 * t)%R); [apply derivable_pt_lim_const|apply (derivable_pt_lim_scal id); apply derivable_pt_lim_id]|
    apply (derivable_pt_lim_scal (fun t => t * t)%R); apply (derivable_pt_lim_mult id id); apply derivable_pt_lim_id]]. unfold id. ring.
Qed.

(** two points joined by a spring, one neighbourhood for each; the force is affine *)
Definition spring (k : R) (y v : list R) : list R :=
  let f := fun a => (k * (nth (3 + a) y 0 - nth a y 0))%R in [f 0; f 1; f 2; Ropp (f 0); Ropp (f 1); Ropp (f 2)].
Definition spring_local (k : R) (y v vol : list R) : local RN := Local (N:=RN) y v [] vol (fun y v => Ok (spring k y v)) (fun _ => Err).
Definition Yline : field := fun g a => if Nat.eqb a 0 then INR g else 0%R.
Definition spring_works (S : scratch RN) : list (scratch RN * list (list nat * local RN)) :=
  [(S, [([0; 1], spring_local 5 (at_points 3 Yline [0; 1]) (at_points 3 Yline [0; 1]) [2; 3]%R); ([1; 0], spring_local 5 (at_points 3 Yline [1; 0]) (at_points 3 Yline [1; 0]) [3; 2]%R)])].
Definition Wline (g : nat) : R := (INR g + 2)%R.
Example spring_case : forall S, Forall2 (holds Yline Yline Wline) (concat (map snd (spring_works S))) [Nbhd [0; 1] (spring 5); Nbhd [1; 0] (spring 5)] /\
  (exists es, allocate 3 [Part [0; 1] [[1]; [0]]] = Ok es /\ room 3 es [Nbhd [0; 1] (spring 5); Nbhd [1; 0] (spring 5)]) /\
  (forall n g, In n [Nbhd [0; 1] (spring 5); Nbhd [1; 0] (spring 5)] -> In g (n_gids n) -> In g [0; 1]) /\
  (forall dt t, body_force 3 [Nbhd [0; 1] (spring 5); Nbhd [1; 0] (spring 5)] (nudge Yline 1 0 t) (nudge Yline 1 0 (t / dt)) 0 0 = (10 + 10 * t + 0 * (t * t))%R).
Proof.
  intros S. assert (V2 : [2; 3]%R = map Wline [0; 1]) by (unfold Wline; cbn [map INR]; repeat f_equal; ring).
  assert (V3 : [3; 2]%R = map Wline [1; 0]) by (unfold Wline; cbn [map INR]; repeat f_equal; ring).
  split; [|split; [|split]].
  - cbn [spring_works map snd concat app]. constructor; [|constructor; [|constructor]].
    + split; [reflexivity|]. split; [repeat constructor; cbn; lia|]. split; [cbn; lia|]. split; [reflexivity|]. split; [reflexivity|]. split; [exact V2|]. intros y v _ _. split; reflexivity.
    + split; [reflexivity|]. split; [repeat constructor; cbn; lia|]. split; [cbn; lia|]. split; [reflexivity|]. split; [reflexivity|]. split; [exact V3|]. intros y v _ _. split; reflexivity.
  - destruct (C37_allocation_succeeds 3 [Part [0; 1] [[1]; [0]]]) as [es E]; [repeat constructor; cbn; lia|]. exists es. split; auto. intros n i a j b Hn Hi Hj Ha Hb. apply (C37_pattern 3 _ es E); auto.
    destruct Hn as [<-|[<-|[]]]; cbn in Hi, Hj; (exists (Part [0; 1] [[1]; [0]]), 0, [1], [0; 1]; cbn; repeat split; auto; tauto).
  - intros n g [<-|[<-|[]]]; cbn; tauto.
  - intros dt t. unfold body_force, on_point, sum_over, numbered, at_points, nudge, Yline, spring. cbn. ring.
Qed.
Print Assumptions C37_central_difference.
Print Assumptions C37_central_difference_temperature.
Print Assumptions C37_block_diagonal.
Print Assumptions C37_quadratic_exact.

(** ** The elastic material, spread over processors *)
(** by finite differences: the central difference of the assembled internal force *)
Theorem C37_elastic_central : forall omega K MU h alpha W Y V Ps works es eps dt, Forall elastic_ok Ps -> blocks_of W Y V Ps works -> allocate 3 (map e_part Ps) = Ok es ->
  exists M, elastic_tangent_fd (N:=RN) (fun _ => true) omega K MU h alpha Full eps dt works (zeroed es) = Ok M /\
    forall i a j b, a < 3 -> b < 3 -> value M (3 * i + a) (3 * j + b) =
      (W i * ((assembled omega K MU h alpha Ps (nudge Y j b eps) W i a - assembled omega K MU h alpha Ps (nudge Y j b (- eps)) W i a) / (2 * eps)))%R.
Proof. intros. eapply fd_matrix; eauto. eapply allocate_room; eauto. Qed.
(** by automatic differentiation: every entry is the derivative of the assembled internal force *)
Theorem C37_elastic_derivative : forall omega K MU h alpha W Y V Ps works es, Forall elastic_ok Ps -> Forall (separated Y) Ps -> blocks_of W Y V Ps works -> allocate 3 (map e_part Ps) = Ok es ->
  exists M, elastic_tangent (N:=RN) (fun _ => true) omega K MU h alpha Full works (zeroed es) = Ok M /\
    forall i a j b, a < 3 -> b < 3 ->
      derivable_pt_lim (fun t => (W i * assembled omega K MU h alpha Ps (nudge Y j b t) W i a)%R) 0 (value M (3 * i + a) (3 * j + b)).
Proof.
  intros omega K MU h alpha W Y V Ps works es HO HS HB HE.
  destruct (ad_matrix omega K MU h alpha W Y V Ps works es HO HS HB (allocate_room W Y V Ps works es HB HE)) as (M & E & HV). exists M. split; auto.
  intros i a j b Ha Hb. rewrite HV. now apply ad_lim with (V := V).
Qed.
Theorem C37_elastic_derivative_diagonal : forall omega K MU h alpha W Y V Ps works owned, Forall elastic_ok Ps -> Forall (separated Y) Ps -> blocks_of W Y V Ps works ->
  (forall P g, In P Ps -> In g (e_gids P) -> In g owned) ->
  exists M, elastic_tangent (N:=RN) (fun _ => true) omega K MU h alpha Block_diagonal works (zeroed (allocate_diagonal owned)) = Ok M /\
    forall i a j b, a < 3 -> b < 3 -> if Nat.eqb i j
      then derivable_pt_lim (fun t => (W i * assembled omega K MU h alpha Ps (nudge Y j b t) W i a)%R) 0 (value M (3 * i + a) (3 * j + b))
      else value M (3 * i + a) (3 * j + b) = 0%R.
Proof.
  intros omega K MU h alpha W Y V Ps works owned HO HS HB HE.
  destruct (ad_matrix_diagonal omega K MU h alpha W Y V Ps works (allocate_diagonal owned) HO HS HB) as (M & E & HV).
  { intros w g a b Hw Hg Ha Hb. apply diagonal_iff; auto. split; auto. pose proof (blocks_each W Y V Ps works HB) as F. rewrite Forall_forall in F. destruct (F _ Hw) as (P & p & k & js & I & (_ & HG & _)).
    apply (HE P); auto. apply gather_spec in HG. clear - HG Hg. induction HG as [|l x ls xs Hx HF IH]; [destruct Hg|]. destruct Hg as [<-|Hg]; [eapply nth_error_In; eauto|auto]. }
  exists M. split; auto. intros i a j b Ha Hb. rewrite HV by auto. destruct (Nat.eqb i j); [|reflexivity]. now apply ad_lim with (V := V).
Qed.
(** the four points again *)
Definition line_x (g : nat) : V3 RN := @v3 RN (INR g) 0%R 0%R.
Definition line_a : elastic_part := Elastic_part [0; 1; 2] [[1]; [0; 2]] (map line_x [0; 1; 2]) [1; 2; 2]%R [0; 0; 0]%R.
Definition line_b : elastic_part := Elastic_part [2; 3; 1] [[2; 1]; [0]] (map line_x [2; 3; 1]) [2; 1; 2]%R [0; 0; 0]%R.
Example line_ok : Forall elastic_ok [line_a; line_b] /\ Forall (separated Yline) [line_a; line_b] /\
  (exists works, blocks_of Wline Yline Yline [line_a; line_b] works /\ map fst works = [resize (N:=RN) 0; resize (N:=RN) 30]) /\
  (exists es, allocate 3 (map e_part [line_a; line_b]) = Ok es) /\ (forall P g, In P [line_a; line_b] -> In g (e_gids P) -> In g [0; 1; 2; 3]).
Proof.
  assert (O : Forall elastic_ok [line_a; line_b]).
  { apply Forall_cons; [|apply Forall_cons; [|apply Forall_nil]]; (split; [repeat (apply NoDup_cons; [cbn; lia|]); apply NoDup_nil|]; repeat (split; [cbn; lia|])); intros p js Hp; destruct p as [|[|p]]; cbn in Hp; try (destruct p; discriminate);
      injection Hp as <-; (split; [discriminate|]); (split; [repeat (apply NoDup_cons; [cbn; lia|]); apply NoDup_nil|repeat (apply Forall_cons; [cbn; lia|]); apply Forall_nil]). }
  split; [exact O|]. split; [|split; [|split]].
  - assert (D : forall g g', g <> g' -> spot Yline g <> spot Yline g').
    { intros g g' Ne E. apply (f_equal (@vx RN)) in E. cbn in E. now apply INR_eq in E. }
    apply Forall_cons; [|apply Forall_cons; [|apply Forall_nil]]; intros p js Hp; destruct p as [|[|p]]; cbn in Hp; try (destruct p; discriminate); injection Hp as <-;
      (split; [cbn; intros Q; injection Q; lra|]); intros j g g' Hj Hg Hg'; cbn in Hj, Hg; injection Hg as <-; apply D; repeat (destruct Hj as [<-|Hj]; [cbn in Hg'; injection Hg' as <-; lia|]); destruct Hj.
  - apply blocks_total; auto.
  - apply C37_allocation_succeeds. repeat constructor; cbn; lia.
  - intros P g [<-|[<-|[]]]; cbn; lia.
Qed.
Print Assumptions C37_elastic_central.
Print Assumptions C37_elastic_derivative.
Print Assumptions C37_elastic_derivative_diagonal.

(** ** Where it fails *)
(** With more than three degrees of freedom at a point (displacements and a temperature, say) finite differences read
    past the end of the force array, whatever the material: there is no tangent *)
Theorem C37_four_dofs_refuted : forall (N : Num) (finite : N -> bool) jt L eps dt gs (U : local N) SM SM', l_disp L = 3 -> 3 < l_all L ->
  (forall y v f, force_of U y v = Ok f -> length f = 3 * length gs) -> fd_point finite jt L eps dt gs U SM <> Ok SM'.
Proof. exact fd_too_wide. Qed.
(** A point whose neighbours have all been left out ends the computation, by either method *)
Theorem C37_lone_point_refuted : forall (N : Num) (finite : N -> bool) jt L eps dt g (U : local N) vol dx SM,
  fd_point finite jt L eps dt [g] U SM = Err /\ ad_point finite jt [g] vol dx SM = Err.
Proof. split; reflexivity. Qed.
(** The elastic-plastic materials, asked for a block diagonal matrix, add into entries such a matrix does not have *)
Theorem C37_plastic_block_diagonal_refuted : forall (N : Num) (finite : N -> bool) owned gs vol dx (S : scratch N) r g g', In g gs -> In g' gs -> g <> g' ->
  plastic_point finite Block_diagonal gs vol dx (S, zeroed (allocate_diagonal owned)) <> Ok r.
Proof. intros. unfold plastic_point. exact (full_into_diagonal N finite owned gs vol dx S (zeroed (allocate_diagonal owned)) r g g' eq_refl H H0 H1). Qed.
Example four_dofs_case : l_disp (Layout 4 3 0 (Some 3)) = 3 /\ 3 < l_all (Layout 4 3 0 (Some 3)) /\
  forall y v f, force_of (spring_local 5 (at_points 3 Yline [0; 1]) (at_points 3 Yline [0; 1]) [2; 3]%R) y v = Ok f -> length f = 3 * length [0; 1].
Proof. split; [reflexivity|]. split; [cbn; lia|]. intros y v f H. injection H as <-. reflexivity. Qed.
Print Assumptions C37_four_dofs_refuted.
Print Assumptions C37_lone_point_refuted.
Print Assumptions C37_plastic_block_diagonal_refuted.
