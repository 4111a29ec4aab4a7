(** * C38 prescribed conditions, C39 constrained rows *)
From Coq Require Import String Reals Lra.
From Coq Require Import SpecFloat.
From Verif Require Import Base Num SpecGlobal ProofGlobal ModelScalar ModelInput ModelPrint ModelBC SpecBC ProofBC ProofBC2.
Local Open Scope string_scope.

(** ** C38 *)
(** Applying the boundary conditions changes only the component named, of the nodes in the
    node set, of the vectors the condition is about; the points and their positions stay. *)
Theorem C38_nothing_else_changes : forall (N : Num) show compiles run finite (ps : list (bc_params N)) cs sets tc tp s s',
  add_all show ps = Ok cs -> apply_conds compiles run finite sets tc tp s (cs_boundary cs) = Ok s' ->
  bs_gids s' = bs_gids s /\ bs_x s' = bs_x s /\
  forall tg g comp, comp < target_dim tg -> (forall p, In p ps -> ~ concerns boundary_writes sets p tg g comp) ->
    value_at s' tg g comp = value_at s tg g comp.
Proof.
  intros N show compiles run finite ps cs sets tc tp s s' A H. apply add_all_spec in A. destruct A as ((E & G) & _).
  unfold apply_conds in H. rewrite E in H. destruct (frame_of show compiles run finite _ _ bk_w _ _ _ _ _ _ G H) as ((A1 & A2 & _) & B). auto.
Qed.
Print Assumptions C38_nothing_else_changes.

(** Initial conditions: each entry takes the value, at time zero, of the last condition
    about it; everything else stays. *)
Theorem C38_initial_conditions : forall (N : Num) show compiles run finite (ps : list (bc_params N)) cs sets s s',
  add_all show ps = Ok cs -> apply_initial compiles run finite sets s (cs_initial cs) = Ok s' ->
  (forall tg g comp, comp < target_dim tg -> (forall p, In p ps -> ~ concerns initial_writes sets p tg g comp) ->
    value_at s' tg g comp = value_at s tg g comp) /\
  (forall p tg g comp x f, last_concerning initial_writes sets ps p tg g comp -> position s g = Some x ->
    defines run (text_of show p) x f -> value_at s' tg g comp = Some (f (ofZ 0))).
Proof.
  intros N show compiles run finite ps cs sets s s' A H. apply add_all_spec in A. destruct A as (_ & (E & G) & _).
  unfold apply_initial in H. rewrite E in H. destruct (frame_of show compiles run finite _ _ (pl_w initial_writes) _ _ _ _ _ _ G H) as (_ & B).
  split; [exact B|]. intros p tg g comp x f L X D. apply position_some in X. destruct X as (i & P & X).
  destruct (value_of_last show compiles run finite _ _ (pl_w initial_writes) in_nd (fun t => or_intror eq_refl) _ _ _ _ _ _ _ _ _ _ i G H L P) as (k & K & V).
  unfold plain in K. apply in_map_iff in K. destruct K as (tg' & K1 & K2). injection K1 as <- <-.
  destruct V as (v & V1 & V2); [easy|]. rewrite V2. f_equal.
  eapply dirichlet_value in V1; [exact V1| |reflexivity|exact X|exact D]. cbn [mk cd_type]. intros Z. now rewrite Z in K2.
Qed.
Print Assumptions C38_initial_conditions.

(** Body forces: the external force is the value of the last condition about the entry, and
    zero where there is none. *)
Theorem C38_body_forces : forall (N : Num) show compiles run finite (ps : list (bc_params N)) cs sets tc tp s s',
  add_all show ps = Ok cs -> apply_forces compiles run finite sets tc tp s (cs_force cs) = Ok s' -> sized s ->
  (forall g comp i, comp < 3 -> pos (bs_gids s) g = Some i -> (forall p, In p ps -> ~ concerns force_writes sets p TForce g comp) ->
    value_at s' TForce g comp = Some (ofZ 0)) /\
  (forall p g comp x f, last_concerning force_writes sets ps p TForce g comp -> position s g = Some x ->
    defines run (text_of show p) x f -> value_at s' TForce g comp = Some (f tc)).
Proof.
  intros N show compiles run finite ps cs sets tc tp s s' A H (S1 & S2). apply add_all_spec in A. destruct A as (_ & _ & (E & G)).
  unfold apply_forces in H. rewrite E in H. set (s0 := set_field s TForce _) in H.
  destruct (frame_of show compiles run finite _ _ (pl_w force_writes) _ _ _ _ _ _ G H) as (_ & B). split.
  - intros g comp i Hc P Hn. rewrite B; [|exact Hc|exact Hn]. unfold value_at, s0. cbn [set_field bs_gids bs_field target_eqb]. rewrite P.
    rewrite nth_error_map. destruct (nth_error (bs_field s TForce) (i * target_dim TForce + comp)) eqn:Q; [reflexivity|].
    apply nth_error_None in Q. rewrite S2 in Q. apply pos_lt in P. cbn [target_dim] in Q. lia.
  - intros p g comp x f L X D. apply position_some in X. destruct X as (i & P & X).
    destruct (value_of_last show compiles run finite _ _ (pl_w force_writes) fo_nd (fun t => or_intror eq_refl) _ _ _ _ _ s0 _ _ _ _ i G H L P) as (k & K & V).
    unfold plain in K. apply in_map_iff in K. destruct K as (tg' & K1 & K2). injection K1 as -> <-.
    destruct V as (v & V1 & V2); [easy|]. rewrite V2. f_equal.
    eapply dirichlet_value in V1; [exact V1| |reflexivity|exact X|exact D]. cbn [mk cd_type]. intros Z. now rewrite Z in K2.
Qed.
Print Assumptions C38_body_forces.

(** With an evaluator that never fails and node sets that exist, applying succeeds. *)
Theorem C38_application_succeeds : forall (N : Num) show compiles run finite (ps : list (bc_params N)) cs sets tc tp s,
  (forall t, compiles t = true) -> (forall t x tm v, run t x tm v <> None) -> (forall v, finite v = true) ->
  add_all show ps = Ok cs -> (forall p, In p ps -> sets (tidy (bp_set p)) <> None) -> sized s ->
  exists s', apply_conds compiles run finite sets tc tp s (cs_boundary cs) = Ok s' /\ sized s'.
Proof.
  intros N show compiles run finite ps cs sets tc tp s H1 H2 H3 A Hs S. apply add_all_spec in A. destruct A as ((E & G) & _).
  unfold apply_conds. rewrite E.
  destruct (made_ok show compiles run finite H1 H2 H3 boundary_kinds sets tc tp ps s G Hs S) as (s' & H).
  { intros t tk Ht ->. cbn in Ht. destruct Ht as [<-|[<-|[]]]; reflexivity. }
  exists s'. split; [exact H|]. now apply (frame_of show compiles run finite _ _ bk_w _ _ _ _ _ _ G H).
Qed.
Print Assumptions C38_application_succeeds.

(** A prescribed displacement sets the displacement increment and the velocity; the
    velocity is the increment over the time step.  The increment is the change of the
    prescribed value when that changes; when it does not, the increment makes up for the
    difference to the present displacement. *)
Theorem C38_displacement_increment : forall show compiles (run : string -> V3 RN -> RN -> RN -> option RN) finite (ps : list (bc_params RN)) cs sets (tc tp : R) s s' p g comp x (f : R -> R),
  add_all show ps = Ok cs -> apply_conds compiles run finite sets tc tp s (cs_boundary cs) = Ok s' -> tc <> tp ->
  bp_type p = PRESCRIBED_DISPLACEMENT -> last_concerning boundary_writes sets ps p TDeltaU g comp ->
  position s g = Some x -> defines run (text_of show p) x (f : RN -> RN) ->
  exists du : R, value_at s' TDeltaU g comp = Some (du : T RN) /\ value_at s' TV g comp = Some (du / (tc - tp) : T RN)%R /\
    (f tc <> f tp -> du = f tc - f tp)%R /\
    (f tc = f tp -> exists u : R, value_at s TU g comp = Some (u : T RN) /\ du = f tc - u)%R.
Proof. intros. now apply displacement_pair with (ps := ps) (cs := cs) (sets := sets) (p := p) (x := x) (show := show) (compiles := compiles) (run := run) (finite := finite). Qed.
Print Assumptions C38_displacement_increment.

(** Over any sequence of load steps, at any times, if the displacement agrees with the
    prescribed value at the start it agrees at the end, so the increments add up to the
    difference; and if the prescribed value changes in every step they add up to the
    difference from any start. *)
Theorem C38_increments_add_up : forall show compiles (run : string -> V3 RN -> RN -> RN -> option RN) finite (ps : list (bc_params RN)) cs sets p g comp x (f : R -> R) ts s s' (u : R),
  add_all show ps = Ok cs -> bp_type p = PRESCRIBED_DISPLACEMENT -> last_concerning boundary_writes sets ps p TDeltaU g comp ->
  defines run (text_of show p) x (f : RN -> RN) -> position s g = Some x -> value_at s TU g comp = Some (u : T RN) ->
  history (load_step compiles run finite sets ps (cs_boundary cs)) ts s s' ->
  exists u' : R, value_at s' TU g comp = Some (u' : T RN) /\
    (u = f (first_time ts) -> u' = f (final_time ts)) /\
    (changes_every_step f ts -> u' - u = f (final_time ts) - f (first_time ts))%R.
Proof.
  intros show compiles run finite ps cs sets p g comp x f ts s s' u A Ty L D X U H.
  destruct (telescope g comp x f _ _ _ _ (load_moves show compiles run finite ps cs sets p g comp x f A Ty L D) H u X U) as (u' & U' & I1 & I2 & _).
  exists u'. auto.
Qed.
Print Assumptions C38_increments_add_up.

(** The same for explicit steps, where the displacement grows by the time step times the
    velocity. *)
Theorem C38_velocities_add_up : forall show compiles (run : string -> V3 RN -> RN -> RN -> option RN) finite (ps : list (bc_params RN)) cs sets p g comp x (f : R -> R) ts s s' (u : R),
  add_all show ps = Ok cs -> bp_type p = PRESCRIBED_DISPLACEMENT -> last_concerning boundary_writes sets ps p TDeltaU g comp ->
  defines run (text_of show p) x (f : RN -> RN) -> position s g = Some x -> value_at s TU g comp = Some (u : T RN) ->
  history (explicit_step compiles run finite sets ps (cs_boundary cs)) ts s s' ->
  exists u' : R, value_at s' TU g comp = Some (u' : T RN) /\
    (u = f (first_time ts) -> u' = f (final_time ts)) /\
    (changes_every_step f ts -> u' - u = f (final_time ts) - f (first_time ts))%R.
Proof.
  intros show compiles run finite ps cs sets p g comp x f ts s s' u A Ty L D X U H.
  destruct (telescope g comp x f _ _ _ _ (explicit_moves show compiles run finite ps cs sets p g comp x f A Ty L D) H u X U) as (u' & U' & I1 & I2 & _).
  exists u'. auto.
Qed.
Print Assumptions C38_velocities_add_up.

(** The increments do not add up to the difference of the prescribed values when the
    displacement starts elsewhere and the prescribed value rests in one of the steps: then
    the displacement ends at the prescribed value. *)
Theorem C38_sum_from_another_start_refuted : forall show compiles (run : string -> V3 RN -> RN -> RN -> option RN) finite (ps : list (bc_params RN)) cs sets p g comp x (f : R -> R) ts s s' (u : R),
  add_all show ps = Ok cs -> bp_type p = PRESCRIBED_DISPLACEMENT -> last_concerning boundary_writes sets ps p TDeltaU g comp ->
  defines run (text_of show p) x (f : RN -> RN) -> position s g = Some x -> value_at s TU g comp = Some (u : T RN) ->
  history (load_step compiles run finite sets ps (cs_boundary cs)) ts s s' ->
  ~ changes_every_step f ts -> u <> f (first_time ts) ->
  exists u' : R, value_at s' TU g comp = Some (u' : T RN) /\ u' = f (final_time ts) /\ (u' - u <> f (final_time ts) - f (first_time ts))%R.
Proof.
  intros show compiles run finite ps cs sets p g comp x f ts s s' u A Ty L D X U H C Z.
  destruct (telescope g comp x f _ _ _ _ (load_moves show compiles run finite ps cs sets p g comp x f A Ty L D) H u X U) as (u' & U' & _ & _ & I3).
  exists u'. split; [exact U'|]. rewrite (I3 C). split; [reflexivity|]. intros Q. apply Z. lra.
Qed.
Print Assumptions C38_sum_from_another_start_refuted.

(** A prescribed temperature holds at every step, whatever the step; the temperature change
    is relative to time zero. *)
Theorem C38_prescribed_temperature : forall show compiles (run : string -> V3 RN -> RN -> RN -> option RN) finite (ps : list (bc_params RN)) cs sets (tc tp : R) s s' p g comp x (f : R -> R),
  add_all show ps = Ok cs -> apply_conds compiles run finite sets tc tp s (cs_boundary cs) = Ok s' -> tc <> tp ->
  bp_type p = PRESCRIBED_TEMPERATURE -> last_concerning boundary_writes sets ps p TDeltaTemp g comp ->
  position s g = Some x -> defines run (text_of show p) x (f : RN -> RN) ->
  value_at s' TDeltaTemp g comp = Some (f tc - f 0 : T RN)%R /\
  (last_concerning boundary_writes sets ps p TTemp g comp -> value_at s' TTemp g comp = Some (f tc : T RN)).
Proof. intros. now apply temperature_pair with (ps := ps) (cs := cs) (sets := sets) (tp := tp) (s := s) (p := p) (x := x) (show := show) (compiles := compiles) (run := run) (finite := finite). Qed.
Print Assumptions C38_prescribed_temperature.

(** A thermal flux condition sets the temperature of its nodes to zero, whatever its value. *)
Theorem C38_thermal_flux_refuted : forall show compiles (run : string -> V3 RN -> RN -> RN -> option RN) finite (ps : list (bc_params RN)) cs sets (tc tp : R) s s' p g comp i,
  add_all show ps = Ok cs -> apply_conds compiles run finite sets tc tp s (cs_boundary cs) = Ok s' ->
  bp_type p = THERMAL_FLUX -> last_concerning boundary_writes sets ps p TTemp g comp -> pos (bs_gids s) g = Some i ->
  value_at s' TTemp g comp = Some (0%R : T RN).
Proof. intros. now apply flux_zero with (ps := ps) (cs := cs) (sets := sets) (tc := tc) (tp := tp) (s := s) (p := p) (i := i) (show := show) (compiles := compiles) (run := run) (finite := finite). Qed.
Print Assumptions C38_thermal_flux_refuted.

(** A numeric value is turned into a text of six digits: two different numbers give the
    same conditions, so at least one of them is not the value applied, whatever the layout
    of the text and the evaluator. *)
Definition numeric (ty : bc_type) (v : spec_float) : bc_params FN :=
  {| bp_type := ty; bp_set := "S"; bp_coord := CX; bp_value := VNumber (N:=FN) v |}.
Theorem C38_numeric_value_is_not_exact_refuted : forall (render : text -> string) ty,
  exists v v' : spec_float, v <> v' /\
    add_all (fun x : FN => render (print 6 x)) [numeric ty v] = add_all (fun x : FN => render (print 6 x)) [numeric ty v'].
Proof.
  intros render ty. exists (S754_finite false 4503599627370496 (-52)), (S754_finite false 4503599627370497 (-52)). split; [discriminate|].
  assert (E : print 6 (S754_finite false 4503599627370496 (-52)) = print 6 (S754_finite false 4503599627370497 (-52))) by (vm_compute; reflexivity).
  unfold add_all, foldM, add_params, numeric, make_cond. cbn [bp_type bp_value bp_coord bp_set mapO fst snd]. rewrite E. reflexivity.
Qed.
Print Assumptions C38_numeric_value_is_not_exact_refuted.

(** *** A concrete case *)
Section Case38.
  Definition ex_ps : list (bc_params RN) :=
    [ {| bp_type := PRESCRIBED_DISPLACEMENT; bp_set := " left_side "; bp_coord := CY; bp_value := VText (N:=RN) "t" |};
      {| bp_type := BODY_FORCE; bp_set := "all"; bp_coord := CZ; bp_value := VText (N:=RN) "2*t" |};
      {| bp_type := PRESCRIBED_TEMPERATURE; bp_set := "all"; bp_coord := CX; bp_value := VText (N:=RN) "t" |} ].
  Definition ex_sets (n : string) : option (list nat) :=
    if String.eqb n "LEFT_SIDE" then Some [7; 2] else if String.eqb n "ALL" then Some [2; 5; 7] else None.
  Definition ex_run (_ : string) (_ : V3 RN) (t _ : RN) : option RN := Some t.
  Definition ex_state : bstate RN :=
    {| bs_gids := [2; 5; 7]; bs_x := [vzero; vzero; vzero];
       bs_field := fun tg => repeat (0%R : T RN) (3 * target_dim tg) |}.
  Definition yes {A} (_ : A) : bool := true.
  Definition ex_show (_ : RN) : string := "".

  Lemma tidy_left : tidy " left_side " = "LEFT_SIDE". Proof. vm_compute; reflexivity. Qed.
  Lemma tidy_all : tidy "all" = "ALL". Proof. vm_compute; reflexivity. Qed.
  Lemma ex_sized : sized ex_state. Proof. split; [reflexivity|]. intros []; reflexivity. Qed.
  Lemma ex_added : exists cs, add_all ex_show ex_ps = Ok cs.
  Proof. eexists. reflexivity. Qed.
  Lemma ex_sets_exist p : In p ex_ps -> ex_sets (tidy (bp_set p)) <> None.
  Proof. intros [<-|[<-|[<-|[]]]]; cbn [bp_set]; rewrite ?tidy_left, ?tidy_all; discriminate. Qed.
  Lemma ex_last : last_concerning boundary_writes ex_sets ex_ps
    {| bp_type := PRESCRIBED_DISPLACEMENT; bp_set := " left_side "; bp_coord := CY; bp_value := VText (N:=RN) "t" |} TDeltaU 7 1.
  Proof.
    exists [], (tl ex_ps). split; [reflexivity|]. split.
    - split; [now left|]. split; [reflexivity|]. exists [7; 2]. cbn [bp_set]. rewrite tidy_left. split; [reflexivity|now left].
    - intros p [<-|[<-|[]]] (H & _); cbn in H; intuition discriminate.
  Qed.
  (** One application at time 2 after time 0 *)
  Example C38_case : exists cs s', add_all ex_show ex_ps = Ok cs /\
    apply_conds yes ex_run yes ex_sets (2%R : RN) (0%R : RN) ex_state (cs_boundary cs) = Ok s' /\
    value_at s' TDeltaU 7 1 = Some (2%R : T RN) /\ value_at s' TV 7 1 = Some (2 / (2 - 0) : T RN)%R /\ value_at s' TDeltaU 7 0 = Some (0%R : T RN).
  Proof.
    destruct ex_added as (cs & A). exists cs.
    destruct (C38_application_succeeds RN ex_show yes ex_run yes ex_ps cs ex_sets (2%R : RN) (0%R : RN) ex_state) as (s' & H & _); auto.
    { discriminate. } { exact ex_sets_exist. } { exact ex_sized. }
    exists s'. split; [exact A|]. split; [exact H|].
    destruct (C38_displacement_increment ex_show yes ex_run yes ex_ps cs ex_sets 2%R 0%R ex_state s' (hd (Build_bc_params (N:=RN) NO_SUCH_BOUNDARY_CONDITION_TYPE "" CX (VText "")) ex_ps) 7 1 vzero (fun t => t) A H) as (du & D1 & D2 & D3 & _).
    { lra. } { reflexivity. } { exact ex_last. } { reflexivity. } { intros t v. reflexivity. }
    assert (E : du = 2%R) by (rewrite D3; lra). subst du. split; [exact D1|]. split; [exact D2|].
    destruct (C38_nothing_else_changes RN ex_show yes ex_run yes ex_ps cs ex_sets _ _ ex_state s' A H) as (_ & _ & F).
    rewrite F; [reflexivity|cbn; lia|]. intros p Hp (F1 & F2 & _). destruct Hp as [<-|[<-|[<-|[]]]]; cbn in F1, F2; intuition discriminate.
  Qed.

  (** A history of two load steps from zero: the node ends where the function of time says. *)
  Definition add_fields (a b : list RN) : list RN := map (fun ab => (fst ab + snd ab : T RN)%R) (combine a b).
  Lemma add_fields_nth a b k u v : nth_error a k = Some u -> nth_error b k = Some v -> nth_error (add_fields a b) k = Some (u + v : T RN)%R.
  Proof.
    revert b k; induction a as [|x a IH]; intros [|y b] [|k] H1 H2; try discriminate; cbn in *.
    - now injection H1 as <-; injection H2 as <-. - now apply IH.
  Qed.
  Lemma load_step_exists cs s tp tc : add_all ex_show ex_ps = Ok cs -> sized s ->
    exists s', load_step yes ex_run yes ex_sets ex_ps (cs_boundary cs) s tp tc s'.
  Proof.
    intros A S.
    destruct (C38_application_succeeds RN ex_show yes ex_run yes ex_ps cs ex_sets tc tp s) as (s1 & H & S1); auto; [discriminate|exact ex_sets_exist|].
    destruct (C38_nothing_else_changes RN ex_show yes ex_run yes ex_ps cs ex_sets _ _ s s1 A H) as (G & X & _).
    exists (set_field s TU (add_fields (bs_field s TU) (bs_field s1 TDeltaU))), s1. split; [exact H|]. split; [|split; [reflexivity|split; [reflexivity|]]].
    - destruct S as (S2 & S3). split; [exact S2|]. intros tg. cbn [set_field bs_field bs_gids]. destruct (target_eqb_spec TU tg) as [<-|]; [|apply S3].
      unfold add_fields. rewrite map_length, combine_length. destruct S1 as (_ & S4).
      etransitivity; [|exact (S3 TU)]. etransitivity; [apply f_equal; exact (S4 TDeltaU)|]. rewrite G. etransitivity; [exact (f_equal (fun z => Nat.min z _) (S3 TU))|].
      etransitivity; [|symmetry; exact (S3 TU)]. cbn [target_dim]. lia.
    - intros p g comp _ _ u du U DU. unfold value_at in *. cbn [set_field bs_gids bs_field target_eqb]. rewrite G in DU.
      destruct (pos (bs_gids s) g); [|discriminate]. now apply add_fields_nth.
  Qed.
  Example C38_history_case : exists cs s', add_all ex_show ex_ps = Ok cs /\
    history (load_step yes ex_run yes ex_sets ex_ps (cs_boundary cs)) [0; 1; 3]%R ex_state s' /\ value_at s' TU 7 1 = Some (3%R : T RN).
  Proof.
    destruct ex_added as (cs & A). exists cs.
    destruct (load_step_exists cs ex_state 0%R 1%R A ex_sized) as (s1 & H1). assert (S1 : sized s1) by (destruct H1 as (? & _ & S & _); exact S).
    destruct (load_step_exists cs s1 1%R 3%R A S1) as (s2 & H2). exists s2. split; [exact A|].
    assert (H : history (load_step yes ex_run yes ex_sets ex_ps (cs_boundary cs)) [0; 1; 3]%R ex_state s2).
    { apply H_step with (s1 := s1); [lra|exact H1|]. apply H_step with (s1 := s2); [lra|exact H2|]. constructor. }
    split; [exact H|].
    destruct (C38_increments_add_up ex_show yes ex_run yes ex_ps cs ex_sets (hd (Build_bc_params (N:=RN) NO_SUCH_BOUNDARY_CONDITION_TYPE "" CX (VText "")) ex_ps) 7 1 vzero (fun t => t) [0; 1; 3]%R ex_state s2 0%R A eq_refl ex_last (fun t v => eq_refl) eq_refl eq_refl H) as (u' & U & U1 & _).
    rewrite U. f_equal. apply U1. reflexivity.
  Qed.
End Case38.

(** ** C39 *)
(** Residual: the entries of the constrained rows become zero, all others stay; and this
    always succeeds when the node sets exist. *)
Theorem C39_residual_entries : forall (N : Num) show (ps : list (bc_params N)) cs p sets gids (v : list N),
  add_all show ps = Ok cs -> let d := dofs_initialize dofs_init p in let rows := dof_map d gids in
  length v = length rows ->
  (forall v', insert_zeros p d rows sets (cs_boundary cs) v = Ok v' ->
     length v' = length v /\
     (forall r, In r rows -> constrained p d sets (cs_boundary cs) r -> vec_entry rows v' r = Some (ofZ 0)) /\
     (forall r, ~ constrained p d sets (cs_boundary cs) r -> vec_entry rows v' r = vec_entry rows v r)) /\
  ((forall c, In c (cs_boundary cs) -> sets (cd_set c) <> None) -> exists v', insert_zeros p d rows sets (cs_boundary cs) v = Ok v').
Proof.
  intros N show ps cs p sets gids v A d rows Lv. subst rows; subst d. pose proof (made_proper show ps cs A) as F. split.
  - intros v' H. destruct (insert_zeros_spec p sets gids _ F v v' Lv H) as (L & B). split; [etransitivity; [exact L|symmetry; exact Lv]|]. split.
    + intros r I C. rewrite B. apply in_ids in C. apply existsb_in in C. rewrite C. unfold vec_entry.
      destruct (pos_in _ _ I) as (i & P). rewrite P. destruct (nth_error v i) eqn:Q; [reflexivity|].
      apply nth_error_None in Q. apply pos_lt in P. lia.
    + intros r C. rewrite B. destruct (existsb _ _) eqn:Q; [|reflexivity]. apply existsb_in, in_ids in Q. easy.
  - intros Hs. now apply insert_zeros_ok.
Qed.
Print Assumptions C39_residual_entries.

(** Tangent, one processor: constrained rows become zero but for the diagonal entry,
    constrained columns become zero, everything else stays, no place is added or removed. *)
Theorem C39_rows_and_columns_one_processor_partial : forall (N : Num) show (ps : list (bc_params N)) cs p sets (m m' : rows_of N),
  add_all show ps = Ok cs -> let d := dofs_initialize dofs_init p in let fixed := constrained p d sets (cs_boundary cs) in
  length (mt_vals m) = length (mt_rows m) ->
  insert_zeros_and_set_diagonal p d (cs_boundary cs) [(m, sets)] = Ok [m'] ->
  same_pattern m m' /\
  (forall r, fixed r -> stored m r r -> entry m' r r = diagonal_entry [m]) /\
  (forall r c, fixed r \/ fixed c -> c <> r -> entry m' r c = ofZ 0) /\
  (forall r c, ~ fixed r -> ~ fixed c -> entry m' r c = entry m r c).
Proof.
  intros N show ps cs p sets m m' A d fixed Lm H. unfold insert_zeros_and_set_diagonal in H. apply mapO_inv in H. inversion H as [|? ? ? ? E _]; subst. cbn [fst snd map] in E.
  apply constrain_all_spec in E; [|exact Lm]. destruct E as (E1 & E2 & E3 & E4 & E5).
  split; [split; [exact E1|split; [exact E2|intros r c; now rewrite <- !hasb_stored, E4]]|].
  assert (D : forall r, fixed r <-> existsb (Nat.eqb r) (concat (map (ids_of p sets d) (cs_boundary cs))) = true).
  { intros r. now rewrite existsb_in, in_ids. }
  split; [|split].
  - intros r Fr St. rewrite E5. apply D in Fr. rewrite Fr. apply hasb_stored in St. rewrite St, Nat.eqb_refl. reflexivity.
  - intros r c Fr X. rewrite E5. destruct (existsb (Nat.eqb r) _) eqn:R1.
    + destruct (Nat.eqb_spec c r); [easy|]. now rewrite andb_false_r.
    + destruct (existsb (Nat.eqb c) _) eqn:C1; [reflexivity|]. exfalso. destruct Fr as [Fr|Fr]; apply D in Fr; congruence.
  - intros r c Fr Fc. rewrite E5. destruct (existsb (Nat.eqb r) _) eqn:R1; [exfalso; now apply Fr, D|].
    destruct (existsb (Nat.eqb c) _) eqn:C1; [exfalso; now apply Fc, D|]. reflexivity.
Qed.
Print Assumptions C39_rows_and_columns_one_processor_partial.

(** Any number of processors, node sets reduced to the nodes each of them owns: the rows
    are as they should be; so are the columns of constrained unknowns of the same
    processor, and everything unconstrained stays. *)
Theorem C39_rows_in_parallel_partial : forall (N : Num) show (ps : list (bc_params N)) cs p global w w',
  add_all show ps = Ok cs -> let d := dofs_initialize dofs_init p in let fixed := constrained p d global (cs_boundary cs) in
  Forall (part_of d global) w -> insert_zeros_and_set_diagonal p d (cs_boundary cs) w = Ok w' ->
  forall k m sets, nth_error w k = Some (m, sets) -> exists m', nth_error w' k = Some m' /\ same_pattern m m' /\
    forall r, In r (mt_rows m) ->
      (fixed r -> stored m r r -> entry m' r r = diagonal_entry (map fst w)) /\
      (forall c, fixed r -> c <> r -> entry m' r c = ofZ 0) /\
      (forall c, fixed c -> In c (mt_rows m) -> c <> r -> entry m' r c = ofZ 0) /\
      (forall c, ~ fixed r -> ~ fixed c -> entry m' r c = entry m r c).
Proof.
  intros N show ps cs p global w w' A d fixed W H k m sets E. unfold insert_zeros_and_set_diagonal in H. apply mapO_inv in H.
  destruct (Forall2_nth _ _ _ H k _ E) as (m' & E' & C). cbn [fst snd] in C. exists m'. split; [exact E'|].
  rewrite Forall_forall in W. destruct (W (m, sets)) as (Lm & _ & owned & O1 & O2); [now apply nth_error_In in E|]. cbn [fst snd] in *.
  apply constrain_all_spec in C; [|exact Lm]. destruct C as (E1 & E2 & E3 & E4 & E5).
  split; [split; [exact E1|split; [exact E2|intros r c; now rewrite <- !hasb_stored, E4]]|].
  assert (D : forall r, existsb (Nat.eqb r) (concat (map (ids_of p sets d) (cs_boundary cs))) = true <-> fixed r /\ In r (mt_rows m)).
  { intros r. rewrite existsb_in, in_ids, O1. apply culled_constrained; auto. now apply (made_proper show ps). }
  intros r I. split; [|split; [|split]].
  - intros Fr St. rewrite E5. rewrite (proj2 (D r) (conj Fr I)). apply hasb_stored in St. rewrite St, Nat.eqb_refl. reflexivity.
  - intros c Fr X. rewrite E5. rewrite (proj2 (D r) (conj Fr I)). destruct (Nat.eqb_spec c r); [easy|]. now rewrite andb_false_r.
  - intros c Fc Ic X. rewrite E5. rewrite (proj2 (D c) (conj Fc Ic)). destruct (Nat.eqb_spec c r); [easy|]. rewrite andb_false_r. now destruct (existsb _ _).
  - intros c Fr Fc. rewrite E5. destruct (existsb (Nat.eqb r) _) eqn:R1; [apply D in R1; tauto|].
    destruct (existsb (Nat.eqb c) _) eqn:C1; [apply D in C1; tauto|]. reflexivity.
Qed.
Print Assumptions C39_rows_in_parallel_partial.

(** The columns of constrained unknowns of other processors are not zeroed: they keep their
    values in every free row. *)
Theorem C39_columns_in_parallel_refuted :
  (forall (N : Num) show (ps : list (bc_params N)) cs p global w w',
    add_all show ps = Ok cs -> let d := dofs_initialize dofs_init p in let fixed := constrained p d global (cs_boundary cs) in
    Forall (part_of d global) w -> insert_zeros_and_set_diagonal p d (cs_boundary cs) w = Ok w' ->
    forall k m sets, nth_error w k = Some (m, sets) -> exists m', nth_error w' k = Some m' /\
      forall r c, In r (mt_rows m) -> ~ fixed r -> fixed c -> ~ In c (mt_rows m) -> entry m' r c = entry m r c) /\
  (forall a : R, a <> 0%R -> exists show (ps : list (bc_params RN)) cs p global m1 m2 s1 s2 m1' m2',
    let d := dofs_initialize dofs_init p in
    add_all show ps = Ok cs /\ Forall (part_of d global) [(m1, s1); (m2, s2)] /\
    insert_zeros_and_set_diagonal p d (cs_boundary cs) [(m1, s1); (m2, s2)] = Ok [m1'; m2'] /\
    constrained p d global (cs_boundary cs) 3 /\ ~ constrained p d global (cs_boundary cs) 0 /\ entry m1' 0 3 = (a : T RN)).
Proof.
  assert (G : forall (N : Num) show (ps : list (bc_params N)) cs p global w w',
    add_all show ps = Ok cs -> let d := dofs_initialize dofs_init p in let fixed := constrained p d global (cs_boundary cs) in
    Forall (part_of d global) w -> insert_zeros_and_set_diagonal p d (cs_boundary cs) w = Ok w' ->
    forall k m sets, nth_error w k = Some (m, sets) -> exists m', nth_error w' k = Some m' /\
      forall r c, In r (mt_rows m) -> ~ fixed r -> fixed c -> ~ In c (mt_rows m) -> entry m' r c = entry m r c).
  { intros N show ps cs p global w w' A d fixed W H k m sets E. unfold insert_zeros_and_set_diagonal in H. apply mapO_inv in H.
    destruct (Forall2_nth _ _ _ H k _ E) as (m' & E' & C). cbn [fst snd] in C. exists m'. split; [exact E'|].
    rewrite Forall_forall in W. destruct (W (m, sets)) as (Lm & _ & owned & O1 & O2); [now apply nth_error_In in E|]. cbn [fst snd] in *.
    apply constrain_all_spec in C; [|exact Lm]. destruct C as (E1 & E2 & E3 & E4 & E5).
    assert (D : forall r, existsb (Nat.eqb r) (concat (map (ids_of p sets d) (cs_boundary cs))) = true <-> fixed r /\ In r (mt_rows m)).
    { intros r. rewrite existsb_in, in_ids, O1. apply culled_constrained; auto. now apply (made_proper show ps). }
    intros r c I Fr Fc Ic. rewrite E5. destruct (existsb (Nat.eqb r) _) eqn:R1; [apply D in R1; tauto|].
    destruct (existsb (Nat.eqb c) _) eqn:C1; [apply D in C1; tauto|]. reflexivity. }
  split; [exact G|]. intros a Ha.
  exists ex_show, [{| bp_type := PRESCRIBED_DISPLACEMENT; bp_set := "A"; bp_coord := CX; bp_value := VText (N:=RN) "0" |}]. eexists.
  exists {| ph_disp := true; ph_temp := false; ph_conc := false; ph_pres := false |}, (fun n => if String.eqb n "A" then Some [1] else None).
  exists {| mt_rows := [0;1;2]; mt_cols := [0;1;2;3]; mt_vals := [[(0, 1%R : T RN); (3, a : T RN)]; []; []] |}.
  exists {| mt_rows := [3;4;5]; mt_cols := [3;4;5;0]; mt_vals := [[(0, 1%R : T RN); (3, a : T RN)]; []; []] |}.
  exists (fun n => if String.eqb n "A" then Some [] else None), (fun n => if String.eqb n "A" then Some [1] else None).
  eexists. eexists. intros d. split; [reflexivity|]. split; [|split; [reflexivity|split; [|split]]].
  - repeat constructor; cbn [fst snd mt_vals mt_rows mt_cols length]; try (cbn; intuition discriminate).
    + exists [0]. split; [reflexivity|]. intros n. now destruct (String.eqb n "A").
    + exists [1]. split; [reflexivity|]. intros n. now destruct (String.eqb n "A").
  - eexists _, UDisp, [1], 1. split; [left; reflexivity|]. repeat split. now left.
  - intros (c & u & nodes & g & [<-|[<-|[]]] & H2 & H3 & H4 & H5 & H6); cbn in *; injection H2 as <-; injection H4 as <-; destruct H5 as [<-|[]]; discriminate.
  - reflexivity.
Qed.
Print Assumptions C39_columns_in_parallel_refuted.

(** The linear solve, any number of processors: a solution of the system with zero
    right-hand side in the constrained rows is zero there, and in the free rows solves the
    original equations with the constrained unknowns left out. *)
Theorem C39_solve_leaves_constrained_increments_zero : forall show (ps : list (bc_params RN)) cs p global w w' (x b : nat -> R),
  add_all show ps = Ok cs -> let d := dofs_initialize dofs_init p in let fixed := constrained p d global (cs_boundary cs) in
  Forall (part_of d global) w -> insert_zeros_and_set_diagonal p d (cs_boundary cs) w = Ok w' ->
  (forall r, fixed r -> exists ms, In ms w /\ In r (mt_rows (fst ms)) /\ In r (mt_cols (fst ms)) /\ stored (fst ms) r r) ->
  diagonal_entry (map fst w) <> (0%R : T RN) -> Forall (fun m' => solves m' x b) w' -> (forall r, fixed r -> b r = 0%R) ->
  (forall r, fixed r -> x r = 0%R) /\
  (forall (free : nat -> bool) ms r, (forall c, free c = true <-> ~ fixed c) -> In ms w -> In r (mt_rows (fst ms)) -> free r = true ->
     Rsum (map (fun c => entry (fst ms) r c * x c)%R (filter free (mt_cols (fst ms)))) = b r).
Proof.
  intros show ps cs p global w w' x b A d fixed W H Own De Sv Bz.
  pose proof (fun k m s => C39_rows_in_parallel_partial RN show ps cs p global w w' A W H k m s) as P.
  assert (X0 : forall r, fixed r -> x r = 0%R).
  { intros r Fr. destruct (Own r Fr) as ((m, s) & I1 & I2 & I3 & I4). cbn [fst] in *. apply In_nth_error in I1. destruct I1 as (k & E).
    destruct (P k m s E) as (m' & E' & (S1 & S2 & S3) & Q). destruct (Q r I2) as (Q1 & Q2 & _).
    rewrite Forall_forall in Sv, W. pose proof (Sv m') as Sm. specialize (Sm (nth_error_In _ _ E') r). rewrite S1, S2 in Sm. specialize (Sm I2).
    destruct (W (m, s)) as (_ & ND & _); [now apply nth_error_In in E|]. cbn [fst] in ND.
    rewrite (Rsum_single (mt_cols m) r) in Sm; [|exact ND|exact I3|].
    - rewrite (Q1 Fr I4), (Bz r Fr) in Sm. apply Rmult_integral in Sm. destruct Sm as [Sm|Sm]; [now elim De|exact Sm].
    - intros c _ Hc. rewrite (Q2 c Fr Hc). cbn. lra. }
  split; [exact X0|]. intros free (m, s) r Fd I1 I2 Fr. cbn [fst] in *. apply In_nth_error in I1. destruct I1 as (k & E).
  destruct (P k m s E) as (m' & E' & (S1 & S2 & S3) & Q). destruct (Q r I2) as (_ & _ & _ & Q4).
  rewrite Forall_forall in Sv. pose proof (Sv m') as Sm. specialize (Sm (nth_error_In _ _ E') r). rewrite S1, S2 in Sm. specialize (Sm I2).
  rewrite <- Sm. clear Sm S1 S2 S3. induction (mt_cols m) as [|c t IH]; [reflexivity|]. cbn [filter map]. rewrite Rsum_cons.
  destruct (free c) eqn:Fc; cbn [map]; [rewrite Rsum_cons|]; rewrite IH.
  - f_equal. f_equal. symmetry. apply Q4; now apply Fd.
  - assert (Z : x c = 0%R).
    { apply X0. destruct (constrained_dec p d global (cs_boundary cs) c) as [Y|Y]; [exact Y|]. pose proof (proj2 (Fd c) Y) as Y2. rewrite Fc in Y2. discriminate. }
    rewrite Z. rewrite Rmult_0_r. symmetry. apply Rplus_0_l.
Qed.
Print Assumptions C39_solve_leaves_constrained_increments_zero.

(** The diagonal entry used is minus the mean absolute value of the diagonal, so it is not
    zero exactly when some diagonal entry of the tangent is not. *)
Theorem C39_diagonal_entry_is_not_zero : forall w : list (rows_of RN),
  (forall m, In m w -> length (mt_vals m) = length (mt_rows m) /\ NoDup (mt_rows m)) ->
  (diagonal_entry w <> (0%R : T RN) <-> exists m r, In m w /\ In r (mt_rows m) /\ entry m r r <> (0%R : T RN)) /\
  (diagonal_entry w <> (0%R : T RN) -> (diagonal_entry w < 0)%R).
Proof.
  intros w W. split; [|apply de_neg]. split.
  - intros H. apply de_nonzero in H. destruct H as (a & I & Z). apply in_concat in I. destruct I as (l & Hl & I). apply in_map_iff in Hl. destruct Hl as (m & <- & Hm).
    destruct (W m Hm) as (_ & ND). apply (diagonal_of_entry m a ND) in I. destruct I as (r & I & ->). exists m, r. auto.
  - intros (m & r & Hm & Hr & Z). apply de_nonzero. exists (entry m r r). split; [|exact Z]. apply in_concat. exists (diagonal m). split; [now apply in_map|].
    apply diagonal_in; [now apply W|exact Hr].
Qed.
Print Assumptions C39_diagonal_entry_is_not_zero.

(** *** A concrete case: two unknown points, one constrained component *)
Section Case39.
  Local Open Scope R_scope.
  Definition ex39_ps : list (bc_params RN) := [ {| bp_type := PRESCRIBED_DISPLACEMENT; bp_set := "A"; bp_coord := CY; bp_value := VText (N:=RN) "t" |} ].
  Definition ex39_sets (n : string) : option (list nat) := if String.eqb n "A" then Some [1]%nat else None.
  Definition ex39_phys := {| ph_disp := true; ph_temp := false; ph_conc := false; ph_pres := false |}.
  Definition ex39_m : rows_of RN :=
    {| mt_rows := [0;1;2;3;4;5]%nat; mt_cols := [0;1;2;3;4;5]%nat;
       mt_vals := [ [(0%nat, 2 : T RN); (4%nat, 7 : T RN)]; [(1%nat, 2 : T RN)]; [(2%nat, 2 : T RN)]; [(3%nat, 2 : T RN)];
                    [(0%nat, 7 : T RN); (4%nat, 5 : T RN)]; [(5%nat, 2 : T RN)] ] |}.
  Example C39_case : exists cs m', add_all ex_show ex39_ps = Ok cs /\
    part_of (dofs_initialize dofs_init ex39_phys) ex39_sets (ex39_m, ex39_sets) /\
    constrained ex39_phys (dofs_initialize dofs_init ex39_phys) ex39_sets (cs_boundary cs) 4%nat /\ stored ex39_m 4%nat 4%nat /\
    insert_zeros_and_set_diagonal ex39_phys (dofs_initialize dofs_init ex39_phys) (cs_boundary cs) [(ex39_m, ex39_sets)] = Ok [m'] /\
    entry m' 0%nat 4%nat = (0 : T RN) /\ entry m' 4%nat 0%nat = (0 : T RN) /\ entry m' 0%nat 0%nat = (2 : T RN) /\
    diagonal_entry [ex39_m] <> (0 : T RN).
  Proof.
    eexists. eexists. split; [reflexivity|]. split; [|split; [|split; [|split; [reflexivity|]]]].
    - split; [reflexivity|]. split; [repeat constructor; cbn; intuition discriminate|]. exists [0;1]%nat. split; [reflexivity|]. intros n. cbn [snd]. unfold ex39_sets. now destruct (String.eqb n "A").
    - eexists _, UDisp, [1%nat], 1%nat. split; [left; reflexivity|]. repeat split. now left.
    - exists 4%nat, 4%nat. eexists. exists (5 : T RN). repeat split. right; now left.
    - split; [reflexivity|]. split; [reflexivity|]. split; [reflexivity|].
      apply C39_diagonal_entry_is_not_zero.
      + intros m [<-|[]]. split; [reflexivity|]. repeat constructor; cbn; intuition discriminate.
      + exists ex39_m, 4%nat. split; [now left|]. split; [cbn; auto 10|]. cbn. exact (not_0_IZR 5 ltac:(discriminate)).
  Qed.
End Case39.
