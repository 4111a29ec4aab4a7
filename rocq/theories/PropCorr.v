(** * C17: the correspondence deformation gradient; C08, C09, C10 for the correspondence materials *)
From Coq Require Import Reals Lra Lia SpecFloat.
From Verif Require Import Base Num ModelNeigh ModelForce ModelCorr SpecDamage SpecForce SpecCorr ProofData ProofDamage ProofForce ProofKernels ProofCorr ProofCorr2 ProofCorr3 ProofCorr4 ProofCorr5 ProofRot ProofRot2 ProofCorr6.
Local Open Scope R_scope.
Local Notation vec := (V3 RN).
Local Notation ten := (M3 RN).

(** ** 3x3 matrices *)

(** The product with any transposition flags and factor *)
Theorem C17_multiply : forall ta tb alpha (a b : ten),
  eq3 (ent (matmul (N:=RN) ta tb alpha a b))
      (fun i j => alpha * prod (if ta then transp (ent a) else ent a) (if tb then transp (ent b) else ent b) i j).
Proof. intros ta tb alpha a b i j Hi Hj. rewrite matmul_ent by auto. destruct ta, tb; reflexivity. Qed.
Print Assumptions C17_multiply.

(** Return code 0 comes with the determinant and a two-sided inverse *)
Theorem C17_inverse_two_sided : forall (a b : ten) d, invert a = (0%Z, d, b) -> d = det3 (ent a) /\ inverse_of (ent a) (ent b).
Proof.
  intros a b d H. assert (HD : det3 (ent a) <> 0).
  { intros E. rewrite (invert_singular a E) in H. discriminate. }
  destruct (invert_regular a HD) as (c & E & H1 & H2). rewrite H in E. injection E as -> ->. split; [reflexivity|]. now apply inverse_of_nn.
Qed.
Print Assumptions C17_inverse_two_sided.

(** ... and a matrix without an inverse is reported, by code 1 *)
Theorem C17_inverse_code : forall a : ten, exists d b,
  (det3 (ent a) <> 0 /\ invert a = (0%Z, d, b)) \/
  (det3 (ent a) = 0 /\ invert a = (1%Z, d, b) /\ ~ exists c, inverse_of (ent a) (ent c)).
Proof.
  intros a. destruct (Req_dec (det3 (ent a)) 0) as [E|E].
  - rewrite (invert_singular a E). do 2 eexists. right. split; [exact E|]. split; [reflexivity|].
    intros (c & [H _]). assert (X : mul_nn a c = mone). { apply M3_ext. intros i j Hi Hj. rewrite nn_ent, kron_one by auto. now apply H. }
    apply (f_equal (fun m => det3 (ent m))) in X. rewrite det_nn, det_one, E in X. lra.
  - destruct (invert_regular a E) as (c & E1 & _). do 2 eexists. left. eauto.
Qed.
Print Assumptions C17_inverse_code.

Example C17_inverse_met : exists (b : ten) d, invert (m3 (N:=RN) 2 1 0 0 1 0 0 3 4) = (0%Z, d, b) /\ d = 8.
Proof.
  set (a := m3 (N:=RN) 2 1 0 0 1 0 0 3 4). assert (HD : det3 (ent a) = 8) by (unfold det3; cbn; lra).
  destruct (invert_regular a) as (b & E & _); [rewrite HD; lra|]. exists b, 8. rewrite E, HD. auto.
Qed.

(** ** Shape tensor and deformation gradient *)

(** The loop ends with a code for every cloud, and the code is 0 exactly when no point has a singular shape tensor *)
Theorem C17_singular_reported : forall omega n nbrs (x y : list vec) (v hs : list R), corr_inputs n nbrs x y v hs ->
  exists code geo, deformation (N:=RN) omega x y v hs nbrs = Ok (code, geo) /\ length geo = length nbrs /\
  (code = 0%Z <-> forall p X h nbs, neighbourhood x v hs nbrs p X h nbs -> det3 (shape omega h X nbs) <> 0).
Proof.
  intros omega n nbrs x y v hs HI. destruct (deformation_ok omega n nbrs x y v hs HI) as (c & geo & E & L & _ & H). eauto.
Qed.
Print Assumptions C17_singular_reported.

(** With positive weights that means: exactly when every point has bonds in three independent directions *)
Theorem C17_flat_reported : forall omega n nbrs (x y : list vec) (v hs : list R) code geo, corr_inputs n nbrs x y v hs ->
  (forall p X h nbs nb, neighbourhood x v hs nbrs p X h nbs -> In nb nbs -> 0 < weight omega h X nb) ->
  deformation (N:=RN) omega x y v hs nbrs = Ok (code, geo) ->
  (code = 0%Z <-> forall p X h nbs, neighbourhood x v hs nbrs p X h nbs -> ~ coplanar X nbs).
Proof.
  intros omega n nbrs x y v hs code geo HI HW E. destruct (deformation_ok omega n nbrs x y v hs HI) as (c & g & E' & _ & _ & H). rewrite E in E'. injection E' as <- <-.
  rewrite H. split; intros K p X h nbs HN.
  - intros HC. exact (K _ _ _ _ HN (coplanar_singular omega h X nbs HC)).
  - intros HD. apply (K _ _ _ _ HN). apply (singular_coplanar omega h); auto. intros nb Hnb. eapply HW; eauto.
Qed.
Print Assumptions C17_flat_reported.

(** In particular a point with fewer than three neighbours is reported, whatever the weights *)
Theorem C17_few_neighbours_reported : forall omega n nbrs (x y : list vec) (v hs : list R) p js, corr_inputs n nbrs x y v hs ->
  nth_error nbrs p = Some js -> (length js < 3)%nat ->
  exists code geo, deformation (N:=RN) omega x y v hs nbrs = Ok (code, geo) /\ code <> 0%Z.
Proof.
  intros omega n nbrs x y v hs p js HI Hp Hl. destruct (deformation_ok omega n nbrs x y v hs HI) as (c & g & E & _ & _ & H). exists c, g. split; [exact E|].
  intros C. destruct (neighbourhood_ok _ _ _ _ _ _ _ _ HI Hp) as (X & h & nbs & HN).
  apply (proj1 H C _ _ _ _ HN). apply coplanar_singular. apply two_coplanar.
  destruct HN as (js' & E1 & _ & _ & HL). rewrite Hp in E1. injection E1 as <-. clear -HL Hl. replace (length nbs) with (length js); [exact Hl|]. clear Hl. induction HL; simpl; auto.
Qed.
Print Assumptions C17_few_neighbours_reported.

(** A singular shape tensor ends the force evaluation with an error *)
Theorem C17_singular_stops : forall omega sinf cosf cauchy bulk coef dt n nbrs (x y vel : list vec) (v hs : list R) st sN dmg p X h nbs,
  corr_inputs n nbrs x y v hs -> neighbourhood x v hs nbrs p X h nbs -> det3 (shape omega h X nbs) = 0 ->
  correspondence (N:=RN) omega sinf cosf cauchy bulk coef dt x y vel v hs nbrs st sN dmg = Err.
Proof.
  intros omega sinf cosf cauchy bulk coef dt n nbrs x y vel v hs st sN dmg p X h nbs HI HN HD. unfold correspondence.
  destruct (deformation_ok omega n nbrs x y v hs HI) as (c & g & E & _ & _ & H). rewrite E. cbn [bind].
  destruct (Z.eqb_spec c 0) as [->|]; [|reflexivity]. exfalso. exact (proj1 H eq_refl _ _ _ _ HN HD).
Qed.
Print Assumptions C17_singular_stops.

(** A point whose neighbourhood moves by an affine map gets exactly the matrix of the map, and the exact inverse of its shape tensor.  Only this neighbourhood need be affine. *)
Theorem C17_affine_exact : forall omega n nbrs (x y : list vec) (v hs : list R) geo p js X h nbs A b, corr_inputs n nbrs x y v hs ->
  deformation (N:=RN) omega x y v hs nbrs = Ok (0%Z, geo) -> nth_error nbrs p = Some js -> neighbourhood x v hs nbrs p X h nbs ->
  affine_at A b x y (p :: js) ->
  exists Kinv F, nth_error geo p = Some (Kinv, F) /\ eq3 (ent F) A /\ inverse_of (shape omega h X nbs) (ent Kinv).
Proof.
  intros omega n nbrs x y v hs geo p js X h nbs A b HI E Hp HN HA.
  destruct (deformation_ok omega n nbrs x y v hs HI) as (c & g & E' & _ & HG & H). rewrite E in E'. injection E' as <- <-.
  destruct (geo_affine omega n nbrs x y v hs geo p js X h nbs A b HI HG Hp HN (proj1 H eq_refl _ _ _ _ HN) HA) as ([Ki F] & Eg & EF & EI).
  cbn [fst snd] in *. subst F. exists Ki, (of_mat A). split; [exact Eg|]. split; [apply of_mat_ent|exact EI].
Qed.
Print Assumptions C17_affine_exact.

(** If every neighbourhood is affine (each with a map of its own) the hourglass force is exactly zero *)
Theorem C17_hourglass_zero : forall omega bulk coef n nbrs (x y : list vec) (v hs : list R) geo, corr_inputs n nbrs x y v hs ->
  deformation (N:=RN) omega x y v hs nbrs = Ok (0%Z, geo) ->
  (forall p js, nth_error nbrs p = Some js -> exists A b, affine_at A b x y (p :: js)) ->
  exists out, run_kernel (hourglass (N:=RN) bulk coef x y v hs geo) nbrs (repeat vzero n) = Ok (repeat vzero n, out).
Proof.
  intros omega bulk coef n nbrs x y v hs geo HI E HA. destruct (deformation_ok omega n nbrs x y v hs HI) as (c & g & E' & L & HG & H). rewrite E in E'. injection E' as <- <-.
  apply hourglass_idle; auto. intros p js Hp. destruct (HA p js Hp) as (A & b & HAb).
  destruct (neighbourhood_ok _ _ _ _ _ _ _ _ HI Hp) as (X & h & nbs & HN).
  destruct (geo_affine omega n nbrs x y v hs geo p js X h nbs A b HI HG Hp HN (proj1 H eq_refl _ _ _ _ HN) HAb) as (g & Eg & EF & _). exists A, b, g. auto.
Qed.
Print Assumptions C17_hourglass_zero.

(** The partial stress written out is the first Piola-Kirchhoff stress of the rotated Cauchy stress *)
Theorem C17_partial_stress : forall omega sinf cosf cauchy bulk coef dt n nbrs (x y vel : list vec) (v hs : list R) st sN dmg f st' s' ps,
  corr_inputs n nbrs x y v hs ->
  correspondence (N:=RN) omega sinf cosf cauchy bulk coef dt x y vel v hs nbrs st sN dmg = Ok (f, st', s', ps) ->
  exists geo, deformation (N:=RN) omega x y v hs nbrs = Ok (0%Z, geo) /\ length ps = length nbrs /\
  forall p Kinv F V Q s P, nth_error geo p = Some (Kinv, F) -> nth_error st' p = Some (V, Q) -> nth_error s' p = Some s -> nth_error ps p = Some P ->
    piola_of (ent F) (prod (ent Q) (prod (ent s) (transp (ent Q)))) (ent P).
Proof.
  intros omega sinf cosf cauchy bulk coef dt n nbrs x y vel v hs st sN dmg f st' s' ps HI H.
  destruct (correspondence_parts _ _ _ _ _ _ _ _ _ _ _ _ _ _ _ _ _ _ _ _ _ HI H) as (geo & rs & f1 & out & f2 & out2 & ED & Lg & HG & HS & ER & EC & -> & E1 & E2 & _ & ->).
  exists geo. split; [exact ED|]. destruct (partial_is_piola _ _ _ _ _ _ _ _ _ _ _ _ _ HI HG HS E1) as [L1 L2]. split; [now rewrite map_length|].
  intros p Ki F V Q s P Eg EV Es EP.
  rewrite nth_error_map in EV. destruct (nth_error rs p) as [r|] eqn:Er; [|discriminate]. cbn in EV. injection EV as EV.
  rewrite nth_error_map in EP. destruct (nth_error out p) as [o|] eqn:Eo; [|discriminate]. cbn in EP. injection EP as <-.
  assert (EX : nth_error (map (fun rs => rotate_stress (snd (fst (fst rs))) (snd rs)) (combine rs s')) p = Some (rotate_stress Q s)).
  { rewrite nth_error_map. assert (EB : nth_error (combine rs s') p = Some (r, s)).
    { clear -Er Es. revert s' p Er Es. induction rs as [|a rs IH]; intros [|b s'] [|p] Er Es; try discriminate; cbn in *; [injection Er as ->; injection Es as ->; reflexivity|auto]. }
    rewrite EB. cbn. rewrite EV. reflexivity. }
  pose proof (L2 p o (Ki, F) _ Eo Eg EX) as HP. cbn [snd] in HP. intros i j Hi Hj. etransitivity; [exact (HP i j Hi Hj)|]. f_equal.
  rewrite rotate_stress_eq. rewrite nn_ent by auto. unfold prod, sum3, transp. rewrite !nn_ent by (auto; lia). unfold prod, sum3. rewrite !ent_trans by (auto; lia). unfold transp. reflexivity.
Qed.
Print Assumptions C17_partial_stress.

(** ** An example: four points, each bonded to the other three *)
Definition tetra : list vec := [v3 (N:=RN) 0 0 0; v3 (N:=RN) 1 0 0; v3 (N:=RN) 0 1 0; v3 (N:=RN) 0 0 1].
Definition tetra_bonds : list (list nat) := [[1; 2; 3]%nat; [0; 2; 3]%nat; [0; 1; 3]%nat; [0; 1; 2]%nat].
(** x stretched and sheared *)
Definition tetra_now : list vec := [v3 (N:=RN) 5 0 0; v3 (N:=RN) 7 0 0; v3 (N:=RN) 6 1 0; v3 (N:=RN) 5 0 3].
Definition unit4 : list R := [1; 1; 1; 1].
Definition flat_omega (_ _ : R) : R := 1.

Example C17_inputs_met : corr_inputs (N:=RN) 4 tetra_bonds tetra tetra_now unit4 unit4.
Proof. repeat split; repeat (constructor; try lia). Qed.
Lemma tetra_shapes : forall p X h nbs, neighbourhood tetra unit4 unit4 tetra_bonds p X h nbs -> det3 (shape flat_omega h X nbs) <> 0.
Proof.
  intros p X h nbs (js & E1 & E2 & E3 & HL).
  destruct p as [|[|[|[|p]]]]; cbn in E1, E2, E3; try discriminate; try (destruct p; discriminate);
  injection E1 as <-; injection E2 as <-; injection E3 as <-;
  repeat match goal with H : looks_up _ _ _ _ |- _ => unfold looks_up in H | H : Forall2 _ (_ :: _) ?n |- _ => inversion H; subst; clear H | H : Forall2 _ [] _ |- _ => inversion H; subst; clear H end;
  repeat match goal with H : _ = Some (fst ?a) /\ _ |- _ => destruct a; destruct H as [? ?]; cbn in * end;
  repeat match goal with H : Some _ = Some _ |- _ => injection H as <- end;
  unfold det3, shape, sum_over, weight, flat_omega; cbn; intros HZ; change (T RN) with R in *; lra.
Qed.
Example C17_code_zero_met : exists geo, deformation (N:=RN) flat_omega tetra tetra_now unit4 unit4 tetra_bonds = Ok (0%Z, geo) /\ length geo = 4%nat.
Proof.
  destruct (C17_singular_reported flat_omega 4 tetra_bonds tetra tetra_now unit4 unit4 C17_inputs_met) as (c & geo & E & L & H).
  exists geo. rewrite (proj2 H tetra_shapes) in E. auto.
Qed.
Definition tetra_map : mat := fun i j => match i, j with 0%nat, 0%nat => 2 | 0%nat, 1%nat => 1 | 1%nat, 1%nat => 1 | 2%nat, 2%nat => 3 | _, _ => 0 end.
Lemma tetra_affine : forall pts, affine_at tetra_map (v3 (N:=RN) 5 0 0) tetra tetra_now pts.
Proof.
  intros pts p X Y _ EX EY i Hi. destruct p as [|[|[|[|p]]]]; cbn in EX, EY; try (destruct p; discriminate); injection EX as <-; injection EY as <-;
  destruct i as [|[|[|i]]]; try lia; unfold image, sum3, tetra_map; cbn; lra.
Qed.
Example C17_affine_met : forall p js, nth_error tetra_bonds p = Some js -> exists A b, affine_at A b tetra tetra_now (p :: js).
Proof. intros p js _. exists tetra_map, (v3 (N:=RN) 5 0 0). apply tetra_affine. Qed.
(** and it runs, with any symmetric stress *)
Example C17_run_met : forall (s : ten) bulk coef dt dmg,
  exists f st' s' ps, correspondence (N:=RN) flat_omega sin cos (fun d _ => Ok (map (fun _ => s) d)) bulk coef dt tetra tetra_now tetra_now unit4 unit4 tetra_bonds
    (unrotated tetra_bonds) [] dmg = Ok (f, st', s', ps).
Proof.
  intros s bulk coef dt dmg. destruct C17_code_zero_met as (geo & E & L).
  apply (correspondence_total flat_omega _ bulk coef dt 4 tetra_bonds tetra tetra_now tetra_now unit4 unit4 _ [] dmg geo); auto.
  - apply C17_inputs_met.
  - intros p g Hg. assert (p < 4)%nat by (rewrite <- L; apply nth_error_Some; congruence).
    destruct (nth_error tetra_bonds p) as [js|] eqn:Ejs; [|exfalso; apply nth_error_None in Ejs; cbn in Ejs; lia].
    destruct (neighbourhood_ok _ _ _ _ _ _ _ _ C17_inputs_met Ejs) as (X & h & nbs & HN).
    destruct (C17_affine_exact flat_omega 4 _ _ _ _ _ geo p js X h nbs _ _ C17_inputs_met E Ejs HN (tetra_affine _)) as (Ki & F & Eg & EF & _).
    rewrite Hg in Eg. injection Eg as ->. cbn [snd]. rewrite (det_eq3 _ _ EF). unfold det3, tetra_map. lra.
  - intros d Hd. eexists. split; [reflexivity|]. now rewrite map_length.
Qed.

(** ** Binary64 *)

(** In binary64 the claim that a singular shape tensor is reported is false: these three bonds lie exactly in the plane
    z = x + y, all coordinates are integers, and the return code is 0. *)
Definition zp (a b c : Z) : V3 FN := v3 (N:=FN) (fofZ a) (fofZ b) (fofZ c).
Definition plane_points : list (Z * Z) := [(0, 0); (123456789, 987654321); (314159265, 271828182); (577215664, 141421356)]%Z.
Definition plane64 : list (V3 FN) := map (fun ab => zp (fst ab) (snd ab) (fst ab + snd ab)) plane_points.
Definition code_of {A} (r : outcome (Z * A)) : Z := match r with Ok (c, _) => c | _ => (-1)%Z end.
Theorem C17_planar_binary64_refuted :
  (forall ab, In ab plane_points -> (Z.abs (fst ab) < 2 ^ 53 /\ Z.abs (snd ab) < 2 ^ 53 /\ Z.abs (fst ab + snd ab) < 2 ^ 53)%Z) /\
  coplanar (v3 (N:=RN) 0 0 0) (map (fun ab => (v3 (N:=RN) (IZR (fst ab)) (IZR (snd ab)) (IZR (fst ab + snd ab)), 1)) plane_points) /\
  code_of (deformation (N:=FN) (fun _ _ => fofZ 1) plane64 plane64 [fofZ 1; fofZ 1; fofZ 1; fofZ 1] [fofZ 1] [[1; 2; 3]%nat]) = 0%Z.
Proof.
  split; [|split].
  - intros ab H. repeat (destruct H as [<-|H]; [cbn; lia|]). destruct H.
  - exists (v3 (N:=RN) 1 1 (-1)). split; [intros E; injection E; lra|]. intros nb H. apply in_map_iff in H as ([a b] & <- & _). cbn [fst snd]. rewrite plus_IZR. unfold vdot, vsub. cbn. lra.
  - vm_compute. reflexivity.
Qed.
Print Assumptions C17_planar_binary64_refuted.

(** ** Momentum *)

(** C09: the forces of a correspondence material, hourglass forces included, sum to zero, whatever the stress *)
Theorem C09_correspondence_momentum : forall omega sinf cosf cauchy bulk coef dt n nbrs (x y vel : list vec) (v hs : list R) st sN dmg f st' s' ps,
  corr_inputs n nbrs x y v hs ->
  correspondence (N:=RN) omega sinf cosf cauchy bulk coef dt x y vel v hs nbrs st sN dmg = Ok (f, st', s', ps) ->
  length f = n /\ momentum v f = vzero.
Proof. exact correspondence_momentum. Qed.
Print Assumptions C09_correspondence_momentum.

(** C10: their moment about the origin is zero if the stresses are symmetric, whatever the rotation tensors are *)
Theorem C10_correspondence_moment : forall omega sinf cosf cauchy bulk coef dt n nbrs (x y vel : list vec) (v hs : list R) st sN dmg f st' s' ps,
  corr_inputs n nbrs x y v hs ->
  correspondence (N:=RN) omega sinf cosf cauchy bulk coef dt x y vel v hs nbrs st sN dmg = Ok (f, st', s', ps) ->
  (forall s, In s s' -> symmetric (ent s)) -> moment v y f = vzero.
Proof. exact correspondence_moment. Qed.
Print Assumptions C10_correspondence_moment.

(** ** Broken bonds *)

(** C08 is false of the correspondence materials: the bond damage makes no difference to anything they compute *)
Theorem C08_correspondence_refuted : forall (N : Num) omega sinf cosf cauchy bulk coef dt x y vel v hs nbrs st sN dmg dmg',
  correspondence (N:=N) omega sinf cosf cauchy bulk coef dt x y vel v hs nbrs st sN dmg =
  correspondence (N:=N) omega sinf cosf cauchy bulk coef dt x y vel v hs nbrs st sN dmg'.
Proof. reflexivity. Qed.
Print Assumptions C08_correspondence_refuted.

(** ... and with all twelve bonds of the four points broken the force under a uniaxial stress is not zero *)
Definition one64 := fofZ 1.
Definition tetra64 : list (V3 FN) := [zp 0 0 0; zp 1 0 0; zp 0 1 0; zp 0 0 1].
Definition force64 (dmg : list FN) : outcome (list (spec_float * spec_float * spec_float)) :=
  match correspondence (N:=FN) (fun _ _ => one64) (fun a => a) (fun _ => one64) (fun d _ => Ok (map (fun _ => m3 (N:=FN) one64 (fofZ 0) (fofZ 0) (fofZ 0) (fofZ 0) (fofZ 0) (fofZ 0) (fofZ 0) (fofZ 0)) d))
    one64 (fofZ 0) one64 tetra64 tetra64 (repeat (zp 0 0 0) 4) (repeat one64 4) (repeat one64 4) tetra_bonds (unrotated tetra_bonds) [] dmg with
  | Ok (f, _, _, _) => Ok (map (fun a => (vx a, vy a, vz a)) f) | Err => Err | UB => UB
  end.
Theorem C08_correspondence_force_refuted : exists fx fy fz r,
  force64 (repeat one64 12) = Ok ((fx, fy, fz) :: r) /\ SFltb (fofZ 0) fx = true.
Proof. do 4 eexists. split; vm_compute; reflexivity. Qed.
Print Assumptions C08_correspondence_force_refuted.
