(** * C75: the mesh converter over the reals: scale and boundary layers *)
From Coq Require Import String Permutation Reals Lra.
From Verif Require Import Base Num ModelScalar ModelInput ModelGeom ModelMesh SpecMesh ProofMesh PropMesh ModelConvert ProofConvert SpecConvert PropConvert.
Local Open Scope string_scope.
Local Open Scope list_scope.
Local Open Scope R_scope.

(** ** Scale Factor moves the points but leaves the volumes: a mesh in other units has wrong masses,
    for every scale other than one and every point with a volume. *)
Theorem C75_scale_refuted cbrt (dbl_max scale : R) layer (m m' : mesh RN) r r' : mesh_wf m -> load_mesh m = Ok r -> in_range r ->
  convert (N:=RN) cbrt dbl_max scale layer r = Ok m' -> load_mesh m' = Ok r' -> 0 < scale -> scale <> 1 ->
  forall g p, point_at r g p -> mp_volume p <> 0 -> exists p', point_at r' g p' /\ mp_x p' = vscale (N:=RN) scale (mp_x p) /\ mp_volume p' <> scale * scale * scale * mp_volume p.
Proof.
  intros W L Rg E L' Ps Ns g p Hp Hv. destruct (C75_points RN cbrt dbl_max scale layer m m' r r' W L Rg E L') as (_ & P). destruct (P g p Hp) as (name & id & _ & _ & Q).
  eexists. split; [exact Q|]. cbn [mp_x mp_volume]. split; [reflexivity|]. change (T RN) with R in *. intros H. apply Ns. assert (K : scale * scale * scale = 1) by (apply Rmult_eq_reg_r with (mp_volume p); [rewrite Rmult_1_l; symmetry; exact H|exact Hv]).
  assert ((scale - 1) * (scale * scale + scale + 1) = 0) by lra. apply Rmult_integral in H0 as [H0|H0]; [lra|]. assert (0 < scale * scale) by (apply Rmult_lt_0_compat; lra). lra.
Qed.
Print Assumptions C75_scale_refuted.

(** ** A mesh converted with layers cannot be converted with layers again: whatever it is, the second
    file is refused. *)
Lemma set_names' {N : Num} cbrt dbl_max scale layer (m' : mesh N) r r' : sound r -> mesh_wf m' -> convert cbrt dbl_max scale layer r = Ok m' -> load_mesh m' = Ok r' ->
  map fst (lo_sets r') = map fst (by_name (lo_sets r) ++ extra dbl_max layer r).
Proof.
  intros S W' E L'. pose proof S as (_ & _ & _ & _ & _ & _ & S7 & _). pose proof (load_spec m' W') as Sp. rewrite L' in Sp. destruct Sp as (Rd & _ & _ & _ & _ & F & _). pose proof (convert_inv _ _ _ _ _ _ E) as (_ & _ & _ & _ & G & _).
  transitivity (map set_name (me_sets m')); [eapply F2_fst; [|exact F]; intros a e (H & _); exact H|].
  assert (Q : ~ In "" (map fst (by_name (lo_sets r) ++ extra dbl_max layer r))).
  { rewrite map_app, in_app_iff. intros [X|X]; [apply S7; eapply Permutation_in; [apply Permutation_map, by_name_perm|exact X]|]. apply in_map_iff in X as ((n & l) & X & Y). cbn in X. subst n. apply extra_other in Y.
    cbn in Y. repeat (destruct Y as [Y|Y]; [discriminate|]). destruct Y. }
  clear - G Q. revert Q. induction G as [|e b l bs M F IH]; intros Q; [reflexivity|]. cbn [map In] in *. f_equal; [|apply IH; tauto]. destruct M as (M & _). unfold set_name, name_or. rewrite M.
  destruct (String.eqb_spec (fst e) ""); [tauto|reflexivity].
Qed.
Theorem C75_again_refuted (N : Num) cbrt dbl_max scale th scale' th' (m m' m'' : mesh N) r r' : mesh_wf m -> load_mesh m = Ok r -> in_range r ->
  convert cbrt dbl_max scale (Some th) r = Ok m' -> load_mesh m' = Ok r' -> convert cbrt dbl_max scale' (Some th') r' = Ok m'' -> load_mesh m'' = Err.
Proof.
  intros W L Rg E L' E'. pose proof (loaded_sound m r W L) as S. assert (W' : mesh_wf m') by (eapply converted_wf; [exact S|exact E|now apply range_sets]).
  destruct (C75_points N cbrt dbl_max scale (Some th) m m' r r' W L Rg E L') as (P & _).
  apply (C75_twice_refuted N cbrt dbl_max scale' th' m' m'' r' "max_x_face" W' L'); [|exact E'|cbn; tauto|].
  - intros g Hg. rewrite <- (Permutation_length P). apply Rg. eapply Permutation_in; [symmetry; exact P|exact Hg].
  - unfold has_set. rewrite (set_names' cbrt dbl_max scale (Some th) m' r r' S W' E L'), map_app. apply in_app_iff. right. rewrite extra_names. cbn. tauto.
Qed.
Print Assumptions C75_again_refuted.

(** ** The boundary layers: the added sets hold exactly the points closer than the thickness to the
    outermost one. *)
Lemma least_spec (D : R) (f : V3 RN -> R) (pts : list (mpoint RN)) : forall a : R, let z := fold_left (fun a p => smaller (N:=RN) a (f (mp_x p))) pts a in
  z <= a /\ (forall p, In p pts -> z <= f (mp_x p)) /\ (z = a \/ exists p, In p pts /\ z = f (mp_x p)).
Proof.
  induction pts as [|q pts IH]; intros a; cbn [fold_left]; [split; [apply Rle_refl|split; [intros p []|now left]]|].
  destruct (IH (smaller (N:=RN) a (f (mp_x q)))) as (A & B & C). set (z := fold_left _ pts _) in *.
  assert (Q : smaller (N:=RN) a (f (mp_x q)) <= a /\ smaller (N:=RN) a (f (mp_x q)) <= f (mp_x q) /\ (smaller (N:=RN) a (f (mp_x q)) = a \/ smaller (N:=RN) a (f (mp_x q)) = f (mp_x q))).
  { unfold smaller. cbn [ltb RN]. unfold Rltb. destruct (Rlt_dec (f (mp_x q)) a); lra. }
  destruct Q as (Q1 & Q2 & Q3). split; [lra|]. split.
  - intros p [<-|H]; [lra|now apply B].
  - destruct C as [C|(p & Hp & C)]; [destruct Q3 as [Q3|Q3]; [left|right; exists q; split; [now left|]]; congruence|]. right. exists p. split; [now right|exact C].
Qed.
Lemma greatest_spec (f : V3 RN -> R) (pts : list (mpoint RN)) : forall a : R, let z := fold_left (fun a p => larger (N:=RN) a (f (mp_x p))) pts a in
  a <= z /\ (forall p, In p pts -> f (mp_x p) <= z) /\ (z = a \/ exists p, In p pts /\ z = f (mp_x p)).
Proof.
  induction pts as [|q pts IH]; intros a; cbn [fold_left]; [split; [apply Rle_refl|split; [intros p []|now left]]|].
  destruct (IH (larger (N:=RN) a (f (mp_x q)))) as (A & B & C). set (z := fold_left _ pts _) in *.
  assert (Q : a <= larger (N:=RN) a (f (mp_x q)) /\ f (mp_x q) <= larger (N:=RN) a (f (mp_x q)) /\ (larger (N:=RN) a (f (mp_x q)) = a \/ larger (N:=RN) a (f (mp_x q)) = f (mp_x q))).
  { unfold larger. cbn [ltb RN]. unfold Rltb. destruct (Rlt_dec a (f (mp_x q))); lra. }
  destruct Q as (Q1 & Q2 & Q3). split; [lra|]. split.
  - intros p [<-|H]; [lra|now apply B].
  - destruct C as [C|(p & Hp & C)]; [destruct Q3 as [Q3|Q3]; [left|right; exists q; split; [now left|]]; congruence|]. right. exists p. split; [now right|exact C].
Qed.

Lemma layer_general {N : Num} cbrt dbl_max scale th (m m' : mesh N) r r' : mesh_wf m -> load_mesh m = Ok r -> in_range r -> names_free (Some th) r ->
  convert cbrt dbl_max scale (Some th) r = Ok m' -> load_mesh m' = Ok r' ->
  forall n test, In n layer_names -> (forall l, In (n, l) (boundary_sets dbl_max th (lo_points r)) <-> l = where_ test (lo_points r)) ->
  forall g, in_set r' n g <-> exists p, point_at r g p /\ test p = true.
Proof.
  intros W L Rg Fr E L' n test Hn Ht g. pose proof (loaded_sound m r W L) as S. assert (W' : mesh_wf m') by (eapply converted_wf; [exact S|exact E|now apply range_sets]).
  rewrite (sets_general cbrt dbl_max scale (Some th) m' r r' S W' E L'). unfold point_at. split.
  - intros (l & k & I & G & P & H). apply in_app_iff in I as [I|I].
    + exfalso. apply (Fr ltac:(discriminate) n Hn). apply in_map_iff. exists (n, l). split; [reflexivity|now apply sets_by_name].
    + apply Ht in I. subst l. apply where_in in G as (j & p & -> & Hp & T). rewrite Nat2Z.id in H. eauto 6.
  - intros (p & (e & He & Hp) & T). exists (where_ test (lo_points r)), (Z.of_nat e). split; [apply in_app_iff; right; now apply Ht|]. split; [apply where_in; eauto|]. split; [lia|]. now rewrite Nat2Z.id.
Qed.

Theorem C75_layers cbrt (dbl_max scale th : R) (m m' : mesh RN) r r' : mesh_wf m -> load_mesh m = Ok r -> in_range r -> names_free (Some (th : T RN)) r ->
  convert (N:=RN) cbrt dbl_max scale (Some (th : T RN)) r = Ok m' -> load_mesh m' = Ok r' ->
  (forall g p, point_at r g p -> - dbl_max <= vx (mp_x p) <= dbl_max /\ - dbl_max <= vy (mp_x p) <= dbl_max /\ - dbl_max <= vz (mp_x p) <= dbl_max) ->
  (forall name f, In (name, (f, false)) (layer_faces (N:=RN)) -> forall g, in_set r' name g <-> exists p, point_at r g p /\ forall h q, point_at r h q -> f (mp_x p) < f (mp_x q) + th) /\
  (forall name f, In (name, (f, true)) (layer_faces (N:=RN)) -> forall g, in_set r' name g <-> exists p, point_at r g p /\ forall h q, point_at r h q -> f (mp_x q) - th < f (mp_x p)) /\
  (forall g, in_set r' "initial_velocity_node_set" g <-> In g (lo_ids r) /\ ~ in_set r' "max_x_face" g).
Proof.
  intros W L Rg Fr E L' Bd. pose proof (loaded_sound m r W L) as (S1 & S2 & _).
  assert (Pt : forall p, In p (lo_points r) <-> exists g, point_at r g p).
  { intros p. unfold point_at. split; [|intros (g & e & _ & H); exact (nth_error_In _ _ H)]. intros H. apply In_nth_error in H as (e & He).
    destruct (nth_error (lo_ids r) e) as [g|] eqn:G; [eauto|]. apply nth_error_None in G. assert (e < length (lo_points r))%nat by (apply nth_error_Some; congruence). lia. }
  assert (Lo : forall f : V3 RN -> R, (forall p, In p (lo_points r) -> f (mp_x p) <= dbl_max) -> forall p, In p (lo_points r) ->
    (f (mp_x p) < least (N:=RN) dbl_max f (lo_points r) + th <-> forall h q, point_at r h q -> f (mp_x p) < f (mp_x q) + th)).
  { intros f Hf p Hp. destruct (least_spec 0 f (lo_points r) dbl_max) as (A & B & C). change (fold_left _ _ _) with (least (N:=RN) dbl_max f (lo_points r)) in *. set (z := least (N:=RN) dbl_max f (lo_points r)) in *. change (T RN) with R in *.
    split; [intros H h q Q; specialize (B q (proj2 (Pt q) (ex_intro _ h Q))); lra|]. intros H. destruct C as [C|(q & Hq & C)].
    - specialize (B p Hp). specialize (Hf p Hp). apply Pt in Hp as (g & Hp). specialize (H g p Hp). lra.
    - apply Pt in Hq as (h & Hq). specialize (H h q Hq). lra. }
  assert (Hi : forall f : V3 RN -> R, (forall p, In p (lo_points r) -> - dbl_max <= f (mp_x p)) -> forall p, In p (lo_points r) ->
    (greatest (N:=RN) dbl_max f (lo_points r) - th < f (mp_x p) <-> forall h q, point_at r h q -> f (mp_x q) - th < f (mp_x p))).
  { intros f Hf p Hp. destruct (greatest_spec f (lo_points r) (- dbl_max)) as (A & B & C). change (fold_left _ _ _) with (greatest (N:=RN) dbl_max f (lo_points r)) in *. set (z := greatest (N:=RN) dbl_max f (lo_points r)) in *. change (T RN) with R in *.
    split; [intros H h q Q; specialize (B q (proj2 (Pt q) (ex_intro _ h Q))); lra|]. intros H. destruct C as [C|(q & Hq & C)].
    - specialize (B p Hp). specialize (Hf p Hp). apply Pt in Hp as (g & Hp). specialize (H g p Hp). lra.
    - apply Pt in Hq as (h & Hq). specialize (H h q Hq). lra. }
  assert (LG := fun n test => layer_general cbrt dbl_max scale th m m' r r' W L Rg Fr E L' n test).
  assert (PtIn : forall g p, point_at r g p -> In p (lo_points r)) by (intros g p H; apply Pt; eauto).
  assert (Max : forall g, in_set r' "max_x_face" g <-> exists p, point_at r g p /\ ltb (n:=RN) (greatest (N:=RN) dbl_max (vx (N:=RN)) (lo_points r) - th) (vx (mp_x p)) = true).
  { apply (LG "max_x_face" (fun p => ltb (n:=RN) (greatest (N:=RN) dbl_max (vx (N:=RN)) (lo_points r) - th) (vx (mp_x p)))); [cbn; tauto|]. intros l. cbn [boundary_sets In]. split; [|intros ->; right; now left].
    intros H. repeat (destruct H as [H|H]; [first [discriminate H|injection H as <-; reflexivity]|]). destruct H. }
  split; [|split].
  - intros name f Hf g. 
    assert (G : in_set r' name g <-> exists p, point_at r g p /\ ltb (n:=RN) (f (mp_x p)) (least (N:=RN) dbl_max f (lo_points r) + th) = true).
    { cbn [layer_faces In] in Hf. repeat (destruct Hf as [Hf|Hf]; [first [discriminate Hf|injection Hf as <- <-; apply LG; [cbn; tauto|]]|]); try contradiction;
      intros l; cbn [boundary_sets In]; (split; [intros H; repeat (destruct H as [H|H]; [first [discriminate H|injection H as <-; reflexivity]|]); destruct H|intros ->; tauto]). }
    rewrite G. assert (Hd : forall p, In p (lo_points r) -> f (mp_x p) <= dbl_max).
    { intros p Hp. apply Pt in Hp as (h & Hp). specialize (Bd h p Hp). cbn [layer_faces In] in Hf. repeat (destruct Hf as [Hf|Hf]; [first [discriminate Hf|injection Hf as _ <-; tauto]|]). destruct Hf. }
    split; intros (p & Hp & H); exists p; (split; [exact Hp|]).
    + apply (Lo f Hd p (PtIn g p Hp)). cbn [ltb RN] in H. unfold Rltb in H. destruct (Rlt_dec _ _); [assumption|discriminate].
    + apply (Lo f Hd p (PtIn g p Hp)) in H. cbn [ltb RN]. unfold Rltb. destruct (Rlt_dec _ _); [reflexivity|contradiction].
  - intros name f Hf g. 
    assert (G : in_set r' name g <-> exists p, point_at r g p /\ ltb (n:=RN) (greatest (N:=RN) dbl_max f (lo_points r) - th) (f (mp_x p)) = true).
    { cbn [layer_faces In] in Hf. repeat (destruct Hf as [Hf|Hf]; [first [discriminate Hf|injection Hf as <- <-; apply LG; [cbn; tauto|]]|]); try contradiction;
      intros l; cbn [boundary_sets In]; (split; [intros H; repeat (destruct H as [H|H]; [first [discriminate H|injection H as <-; reflexivity]|]); destruct H|intros ->; tauto]). }
    rewrite G. assert (Hd : forall p, In p (lo_points r) -> - dbl_max <= f (mp_x p)).
    { intros p Hp. apply Pt in Hp as (h & Hp). specialize (Bd h p Hp). cbn [layer_faces In] in Hf. repeat (destruct Hf as [Hf|Hf]; [first [discriminate Hf|injection Hf as _ <-; tauto]|]). destruct Hf. }
    split; intros (p & Hp & H); exists p; (split; [exact Hp|]).
    + apply (Hi f Hd p (PtIn g p Hp)). cbn [ltb RN] in H. unfold Rltb in H. destruct (Rlt_dec _ _); [assumption|discriminate].
    + apply (Hi f Hd p (PtIn g p Hp)) in H. cbn [ltb RN]. unfold Rltb. destruct (Rlt_dec _ _); [reflexivity|contradiction].
  - intros g. rewrite Max. rewrite (LG "initial_velocity_node_set" (fun p => negb (ltb (n:=RN) (greatest (N:=RN) dbl_max (vx (N:=RN)) (lo_points r) - th) (vx (mp_x p))))); [| |].
    2: cbn; tauto.
    2: { intros l. cbn [boundary_sets In]. split; [|intros ->; now left]. intros H. repeat (destruct H as [H|H]; [first [discriminate H|injection H as <-; reflexivity]|]). destruct H. }
    split.
    + intros (p & (e & He & Hp) & H). split; [exact (nth_error_In _ _ He)|]. intros (q & (e' & He' & Hq) & H'). assert (e' = e) by (apply (proj1 (NoDup_nth_error (lo_ids r)) S1); [apply nth_error_Some; congruence|congruence]). subst e'.
      assert (q = p) by congruence. subst q. rewrite H' in H. discriminate.
    + intros (Hg & H). apply In_nth_error in Hg as (e & He). destruct (nth_error (lo_points r) e) as [p|] eqn:Hp.
      * exists p. split; [exists e; auto|]. destruct (ltb (n:=RN) _ _) eqn:Q; [|reflexivity]. exfalso. apply H. exists p. split; [exists e; auto|exact Q].
      * apply nth_error_None in Hp. assert (e < length (lo_ids r))%nat by (apply nth_error_Some; congruence). lia.
Qed.
Print Assumptions C75_layers.

(** ** Two blocks of spheres out of order of their names, one node set; the spheres numbered by [map] *)
Definition balls {N : Num} (ids : list Z) : mesh N :=
  {| me_coord := [v3 (ofZ 5) (ofZ 0) (ofZ 0); v3 (ofZ 1) (ofZ 0) (ofZ 0); v3 (ofZ 0) (ofZ 2) (ofZ 0)];
     me_elem_map := ids; me_aux := [];
     me_blocks := [ {| mb_id := 2; mb_name := "block_2"; mb_type := "SPHERE"; mb_count := 2; mb_npe := 1; mb_nattr := 2;
                       mb_conn := [1; 3]%Z; mb_attr := [ofZ 1; ofZ 4; ofZ 1; ofZ 5] |};
                    {| mb_id := 1; mb_name := "block_1"; mb_type := "SPHERE"; mb_count := 1; mb_npe := 1; mb_nattr := 2;
                       mb_conn := [2]%Z; mb_attr := [ofZ 1; ofZ 6] |} ];
     me_sets := [ {| ms_id := 8; ms_name := "held"; ms_nodes := [3]%Z |} ] |}.
Lemma balls_wf {N : Num} ids : NoDup ids -> length ids = 3%nat -> mesh_wf (@balls N ids).
Proof.
  intros D L. split; [|split; [|split]].
  - unfold numbers. cbn [me_aux balls me_elem_map]. exact D.
  - unfold numbers. cbn [me_aux balls me_elem_map]. exact L.
  - repeat apply Forall_cons; try apply Forall_nil; (split; [reflexivity|split; [repeat constructor; cbn; lia|]]);
      intros t O; destruct t; cbn in O; repeat (destruct O as [O|O]); try discriminate; try contradiction; cbn; split; try lia; intros E; try discriminate; auto.
  - repeat constructor; cbn; lia.
Qed.
(** In order: C75_readable, C75_points, C75_blocks, C75_sets, C75_layers and C75_scale_refuted apply. *)
Example C75_met (N : Num) : let m := @balls N [1; 2; 3]%Z in mesh_wf m /\ me_blocks m <> [] /\
  exists r, load_mesh m = Ok r /\ in_order r /\ in_range r /\ (forall layer, names_free layer r) /\ short_names r /\ numbered_blocks r /\
  in_set r "held" 1 /\ point_at r 1 {| mp_block := 2; mp_volume := ofZ 5; mp_x := v3 (ofZ 0) (ofZ 2) (ofZ 0) |}.
Proof.
  split; [apply balls_wf; [repeat constructor; cbn; lia|reflexivity]|]. split; [discriminate|]. eexists. split; [reflexivity|]. unfold in_order, in_range, names_free, has_set, short_names, numbered_blocks, in_set, point_at. cbn [lo_ids lo_sets lo_blocks lo_points].
  split; [reflexivity|]. split; [cbn; lia|]. split; [intros layer _ n H; cbn in H |- *; intros [<-|[]]; intuition discriminate|]. split; [cbn; intuition (subst; cbn; lia)|].
  split; [exists (fun n => if String.eqb n "block_2" then 2 else 1)%Z; split; [cbn; intuition (subst; reflexivity)|repeat constructor; cbn; lia]|].
  split; [eexists; split; [now left|now left]|]. exists 1%nat. split; reflexivity.
Qed.
(** Out of order: the set "held" is the sphere number 2, whose number leads to another one
    (C75_sets_refuted); it is lost if the numbers have gaps (C75_missing_refuted). *)
Example C75_sets_case (N : Num) : let m := @balls N [1; 3; 2]%Z in mesh_wf m /\ exists r, load_mesh m = Ok r /\ in_range r /\ in_set r "held" 2 /\
  (forall h, in_set r "held" h -> h = 2%Z) /\ nth_error (lo_ids r) (Z.to_nat 2) = Some 1%Z.
Proof.
  split; [apply balls_wf; [repeat constructor; cbn; lia|reflexivity]|]. eexists. split; [reflexivity|]. unfold in_range, in_set. cbn [lo_ids lo_sets]. split; [cbn; lia|].
  split; [eexists; split; [now left|now left]|]. split; [|reflexivity]. intros h (l & [E|[]] & G). injection E as <-. now destruct G as [<-|[]].
Qed.
Example C75_missing_case (N : Num) : let m := @balls N [1; 9; 2]%Z in mesh_wf m /\ exists r, load_mesh m = Ok r /\ (forall layer, names_free layer r) /\ in_set r "held" 8.
Proof.
  split; [apply balls_wf; [repeat constructor; cbn; lia|reflexivity]|]. eexists. split; [reflexivity|]. unfold names_free, has_set, in_set. cbn [lo_sets].
  split; [intros layer _ n H; cbn in H |- *; intros [<-|[]]; intuition discriminate|]. eexists; split; [now left|now left].
Qed.
(** The finite coordinates asked for by C75_layers *)
Example C75_layers_met : exists r, load_mesh (@balls RN [1; 2; 3]%Z) = Ok r /\
  forall g p, point_at r g p -> - 10 <= vx (mp_x p) <= 10 /\ - 10 <= vy (mp_x p) <= 10 /\ - 10 <= vz (mp_x p) <= 10.
Proof.
  eexists. split; [reflexivity|]. intros g p (e & _ & H). cbn [lo_points] in H. apply nth_error_In in H. cbn [In] in H. repeat (destruct H as [<-|H]; [cbn; lra|]). destruct H.
Qed.
