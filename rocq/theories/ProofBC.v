(** * Proofs for boundary conditions *)
From Coq Require Import String Reals Lra Psatz.
From Verif Require Import Base Num SpecGlobal ModelScalar ModelInput ModelBC SpecBC.

Lemma pos_nth m g i : pos m g = Some i -> nth_error m i = Some g.
Proof.
  revert i; induction m as [|h t IH]; intros i H; [discriminate|]. cbn [pos] in H.
  destruct (Nat.eqb_spec h g) as [->|]; [now injection H as <-|].
  destruct (pos t g) as [j|] eqn:E; [|discriminate]. injection H as <-. now apply IH.
Qed.
Lemma pos_lt m g i : pos m g = Some i -> i < length m.
Proof. intros H%pos_nth. apply nth_error_Some. congruence. Qed.
Lemma pos_inj m g g' i : pos m g = Some i -> pos m g' = Some i -> g = g'.
Proof. intros H%pos_nth H'%pos_nth. congruence. Qed.
Lemma pos_in m g : In g m -> exists i, pos m g = Some i.
Proof.
  induction m as [|h t IH]; [easy|]. intros H. cbn [pos]. destruct (Nat.eqb_spec h g) as [->|]; [now exists 0|].
  destruct H as [->|H]; [easy|]. destruct (IH H) as (i & ->). now exists (S i).
Qed.
Lemma pos_some_in m g i : pos m g = Some i -> In g m.
Proof. intros H%pos_nth. now apply nth_error_In in H. Qed.

Lemma upd_spec {A} (l : list A) i a l' : upd l i a = Some l' ->
  length l' = length l /\ forall j, nth_error l' j = if Nat.eqb i j then Some a else nth_error l j.
Proof.
  revert i l'; induction l as [|h t IH]; intros i l' H; [now destruct i|].
  destruct i as [|i]; cbn [upd] in H.
  - injection H as <-. split; [reflexivity|]. now intros [|j].
  - destruct (upd t i a) as [t'|] eqn:E; [|discriminate]. injection H as <-. destruct (IH _ _ E) as [L P].
    split; [cbn; congruence|]. intros [|j]; [reflexivity|]. cbn [nth_error Nat.eqb]. apply P.
Qed.
Lemma upd_some {A} (l : list A) i a : i < length l -> exists l', upd l i a = Some l'.
Proof.
  revert i; induction l as [|h t IH]; intros i H; [cbn in H; lia|]. destruct i as [|i]; [now exists (a :: t)|].
  cbn [length] in H. destruct (IH i) as (t' & E); [lia|]. exists (h :: t'). cbn [upd]. now rewrite E.
Qed.
Lemma upd_ub_spec {A} (l : list A) i a l' : upd_ub l i a = Ok l' ->
  length l' = length l /\ forall j, nth_error l' j = if Nat.eqb i j then Some a else nth_error l j.
Proof. unfold upd_ub. destruct (upd l i a) eqn:E; [|discriminate]. intros H; injection H as <-. now apply upd_spec. Qed.
Lemma upd_ub_ok {A} (l : list A) i a : i < length l -> exists l', upd_ub l i a = Ok l'.
Proof. intros H. destruct (upd_some l i a H) as (l' & E). exists l'. unfold upd_ub. now rewrite E. Qed.

Lemma target_eqb_spec a b : reflect (a = b) (target_eqb a b).
Proof. destruct a, b; constructor; congruence. Qed.
Lemma dim_pos t : 0 < target_dim t. Proof. destruct t; cbn; lia. Qed.

Lemma index_inj d i j a b : a < d -> b < d -> i * d + a = j * d + b -> i = j /\ a = b.
Proof.
  intros Ha Hb H. assert (i = j).
  { destruct (lt_eq_lt_dec i j) as [[L|E]|L]; [|exact E|];
      [assert (i * d + d <= j * d) by (replace j with (S (j - 1)) by lia; cbn [Nat.mul]; nia)
      |assert (j * d + d <= i * d) by nia]; nia. }
  subst. split; [easy|lia].
Qed.

Section Conditions.
  Context {N : Num}.
  Variable show : N -> string.
  Variables (compiles : string -> bool) (run : string -> V3 N -> N -> N -> option N) (finite : N -> bool).

  (** A condition is about an entry *)
  Definition about (sets : string -> option (list nat)) (c : cond N) (tg : target) (g comp : nat) : Prop :=
    cd_target c = tg /\ cd_coord c = comp /\ exists nodes, sets (cd_set c) = Some nodes /\ In g nodes.
  Definition fits (c : cond N) : Prop := cd_coord c < target_dim (cd_target c).

  Definition same_frame (s s' : bstate N) : Prop :=
    bs_gids s' = bs_gids s /\ bs_x s' = bs_x s /\ (sized s -> sized s').
  Lemma same_frame_refl s : same_frame s s. Proof. repeat split; auto; apply H. Qed.
  Lemma same_frame_trans a b c : same_frame a b -> same_frame b c -> same_frame a c.
  Proof. intros (H1 & H2 & H3) (H4 & H5 & H6). split; [congruence|]. split; [congruence|]. auto. Qed.

  Lemma set_node_spec c tc tp s g s' : fits c -> set_node run finite c tc tp s g = Ok s' ->
    same_frame s s' /\
    (forall tg g' comp, comp < target_dim tg ->
       ~ (cd_target c = tg /\ cd_coord c = comp /\ g' = g) -> value_at s' tg g' comp = value_at s tg g' comp) /\
    (forall i, pos (bs_gids s) g = Some i -> exists v, new_value run finite s c i tc tp = Ok v /\
       value_at s' (cd_target c) g (cd_coord c) = Some v) /\
    (forall tg, tg <> cd_target c -> bs_field s' tg = bs_field s tg).
  Proof.
    intros F H. unfold set_node in H. destruct (pos (bs_gids s) g) as [i|] eqn:E.
    2:{ injection H as <-. split; [apply same_frame_refl|]. split; [easy|]. split; [discriminate|easy]. }
    destruct (new_value run finite s c i tc tp) as [v| |] eqn:V; cbn [bind] in H; try discriminate.
    destruct (upd_ub _ _ v) as [l| |] eqn:U; cbn [bind] in H; try discriminate. injection H as <-.
    apply upd_ub_spec in U. destruct U as [L U].
    split; [|split; [|split]].
    - split; [reflexivity|]. split; [reflexivity|]. intros [S1 S2]. split; [exact S1|].
      intros tg. cbn [set_field bs_field bs_gids]. destruct (target_eqb_spec (cd_target c) tg) as [<-|]; [|apply S2].
      rewrite L. apply S2.
    - intros tg g' comp Hc Hn. unfold value_at. cbn [set_field bs_field bs_gids].
      destruct (pos (bs_gids s) g') as [j|] eqn:E'; [|reflexivity].
      destruct (target_eqb_spec (cd_target c) tg) as [<-|]; [|reflexivity]. rewrite U.
      destruct (Nat.eqb_spec (i * target_dim (cd_target c) + cd_coord c) (j * target_dim (cd_target c) + comp)) as [X|]; [|reflexivity].
      apply index_inj in X; [|exact F|exact Hc]. destruct X as [-> X]. exfalso. apply Hn.
      split; [reflexivity|]. split; [exact X|]. eapply pos_inj; eassumption.
    - intros i0 X. injection X as <-. exists v. split; [exact V|]. unfold value_at. cbn [set_field bs_field bs_gids]. rewrite E.
      destruct (target_eqb_spec (cd_target c) (cd_target c)) as [_|]; [|easy]. rewrite U. now rewrite Nat.eqb_refl.
    - intros tg Ht. cbn [set_field bs_field]. destruct (target_eqb_spec (cd_target c) tg); [now subst|reflexivity].
  Qed.

  (** When the value depends on nothing the loop changes *)
  Definition steady (c : cond N) : Prop := cd_type c = PRESCRIBED_DISPLACEMENT -> cd_target c <> TU.
  Lemma evaluate_same s s' c i tc tp : bs_x s' = bs_x s ->
    (cd_type c = PRESCRIBED_DISPLACEMENT -> bs_field s' TU = bs_field s TU) ->
    evaluate run s' c i tc tp = evaluate run s c i tc tp.
  Proof.
    intros X Y. unfold evaluate. rewrite X. destruct (at_ub (bs_x s) i); cbn [bind]; try reflexivity.
    destruct (run (body c) a tp (ofZ 0)); [|reflexivity]. destruct (run (body c) a tc _); [|reflexivity].
    destruct (cd_type c); cbn [andb]; try reflexivity. now rewrite Y.
  Qed.
  Lemma new_value_same s s' c i tc tp : bs_x s' = bs_x s ->
    (cd_type c = PRESCRIBED_DISPLACEMENT -> bs_field s' TU = bs_field s TU) ->
    new_value run finite s' c i tc tp = new_value run finite s c i tc tp.
  Proof. intros X Y. unfold new_value. destruct (cd_kind c); [| |reflexivity]; now rewrite (evaluate_same s s'). Qed.

  Lemma nodes_spec c tc tp nodes : fits c -> forall s s', foldM (set_node run finite c tc tp) s nodes = Ok s' ->
    same_frame s s' /\
    (forall tg g' comp, comp < target_dim tg ->
       ~ (cd_target c = tg /\ cd_coord c = comp /\ In g' nodes) -> value_at s' tg g' comp = value_at s tg g' comp) /\
    (steady c -> forall g i, In g nodes -> pos (bs_gids s) g = Some i -> exists v, new_value run finite s c i tc tp = Ok v /\
       value_at s' (cd_target c) g (cd_coord c) = Some v) /\
    (forall tg, tg <> cd_target c -> bs_field s' tg = bs_field s tg).
  Proof.
    intros F. induction nodes as [|g0 t IH]; intros s s' H; cbn [foldM] in H.
    - injection H as <-. split; [apply same_frame_refl|]. split; [easy|]. split; [easy|easy].
    - destruct (set_node run finite c tc tp s g0) as [s1| |] eqn:E; cbn [bind] in H; try discriminate.
      destruct (set_node_spec _ _ _ _ _ _ F E) as (A1 & A2 & A3 & A4). destruct (IH _ _ H) as (B1 & B2 & B3 & B4).
      split; [eapply same_frame_trans; eassumption|]. split; [|split].
      + intros tg g' comp Hc Hn. rewrite B2; [apply A2; [exact Hc|]|exact Hc|].
        * intros (? & ? & ->). apply Hn. repeat split; auto. now left.
        * intros (? & ? & ?). apply Hn. repeat split; auto. now right.
      + intros St g i [->|Hg] Hp.
        * destruct (in_dec Nat.eq_dec g t) as [I|I].
          -- destruct A1 as (G1 & G2 & G3). destruct (B3 St g i I) as (v & V1 & V2); [now rewrite G1|]. exists v.
             split; [|exact V2]. rewrite <- V1. symmetry. apply new_value_same; [exact G2|].
             intros T0. apply A4. intros X. apply (St T0). congruence.
          -- destruct (A3 i Hp) as (v & V1 & V2). exists v. split; [exact V1|]. rewrite <- V2. apply B2; [exact F|]. tauto.
        * destruct A1 as (G1 & G2 & G3). destruct (B3 St g i Hg) as (v & V1 & V2); [now rewrite G1|]. exists v.
          split; [|exact V2]. rewrite <- V1. symmetry. apply new_value_same; [exact G2|].
          intros T0. apply A4. intros X. apply (St T0). congruence.
      + intros tg Ht. rewrite B4, A4; auto.
  Qed.

  Definition skipped (c : cond N) (tc tp : N) : Prop :=
    match cd_kind c with Increment _ _ _ => eqb tc tp = true | _ => False end.

  Lemma apply_cond_spec sets tc tp s c s' : fits c -> apply_cond compiles run finite sets tc tp s c = Ok s' ->
    same_frame s s' /\
    (forall tg g comp, comp < target_dim tg -> ~ about sets c tg g comp -> value_at s' tg g comp = value_at s tg g comp) /\
    (~ skipped c tc tp -> steady c -> forall g comp i, about sets c (cd_target c) g comp -> pos (bs_gids s) g = Some i ->
       exists v, new_value run finite s c i tc tp = Ok v /\ value_at s' (cd_target c) g comp = Some v) /\
    (forall tg, tg <> cd_target c -> bs_field s' tg = bs_field s tg).
  Proof.
    intros F H. unfold apply_cond in H.
    assert (D : s' = s /\ skipped c tc tp \/ exists nodes, sets (cd_set c) = Some nodes /\ foldM (set_node run finite c tc tp) s nodes = Ok s').
    { unfold skipped. destruct (cd_kind c).
      - destruct (compiles (body c)); [|discriminate]. right. destruct (sets (cd_set c)) eqn:E; [eauto|discriminate].
      - destruct (eqb tc tp); [injection H as <-; now left|].
        destruct (compiles (body c)); [|discriminate]. right. destruct (sets (cd_set c)) eqn:E; [eauto|discriminate].
      - right. destruct (sets (cd_set c)) eqn:E; [eauto|discriminate]. }
    destruct D as [(-> & Sk)|(nodes & E & X)].
    - split; [apply same_frame_refl|]. split; [easy|]. split; [easy|easy].
    - destruct (nodes_spec _ _ _ _ F _ _ X) as (B1 & B2 & B3 & B4). split; [exact B1|]. split; [|split; [|exact B4]].
      + intros tg g comp Hc Hn. apply B2; [exact Hc|]. intros (Y1 & Y2 & Y3). apply Hn. repeat split; auto. eauto.
      + intros _ St g comp i (_ & <- & n & Hn & Hg) Hp. apply B3; auto. congruence.
  Qed.

  Lemma apply_conds_frame sets tc tp l : Forall fits l -> forall s s', foldM (apply_cond compiles run finite sets tc tp) s l = Ok s' ->
    same_frame s s' /\
    (forall tg g comp, comp < target_dim tg -> (forall c, In c l -> ~ about sets c tg g comp) -> value_at s' tg g comp = value_at s tg g comp) /\
    (forall tg, (forall c, In c l -> cd_target c <> tg) -> bs_field s' tg = bs_field s tg).
  Proof.
    intros F. induction F as [|c t F0 F IH]; intros s s' H; cbn [foldM] in H.
    - injection H as <-. split; [apply same_frame_refl|]. easy.
    - destruct (apply_cond compiles run finite sets tc tp s c) as [s1| |] eqn:E; cbn [bind] in H; try discriminate.
      destruct (apply_cond_spec _ _ _ _ _ _ F0 E) as (A1 & A2 & _ & A4). destruct (IH _ _ H) as (B1 & B2 & B3).
      split; [eapply same_frame_trans; eassumption|]. split.
      + intros tg g comp Hc Hn. rewrite B2; [apply A2; auto|exact Hc|]; [|intros; apply Hn]; [apply Hn; now left|now right].
      + intros tg Hn. rewrite B3; [apply A4|]; [|intros; apply Hn; now right]. intros ->. apply (Hn c); [now left|reflexivity].
  Qed.

  Lemma foldM_app {A S} (f : S -> A -> outcome S) l1 l2 s s' : foldM f s (l1 ++ l2) = Ok s' ->
    exists s1, foldM f s l1 = Ok s1 /\ foldM f s1 l2 = Ok s'.
  Proof.
    revert s; induction l1 as [|a t IH]; intros s H; [exists s; auto|]. cbn [foldM app] in *.
    destruct (f s a); cbn [bind] in *; try discriminate. auto.
  Qed.

  Lemma apply_conds_value sets tc tp l1 c l2 s s' tg g comp i :
    Forall fits (l1 ++ c :: l2) -> (forall c', In c' (l1 ++ c :: l2) -> cd_type c' = PRESCRIBED_DISPLACEMENT -> cd_target c' <> TU) ->
    (cd_type c = PRESCRIBED_DISPLACEMENT -> forall c', In c' (l1 ++ c :: l2) -> cd_target c' <> TU) ->
    foldM (apply_cond compiles run finite sets tc tp) s (l1 ++ c :: l2) = Ok s' ->
    ~ skipped c tc tp -> about sets c tg g comp -> (forall c', In c' l2 -> ~ about sets c' tg g comp) ->
    pos (bs_gids s) g = Some i ->
    exists v, new_value run finite s c i tc tp = Ok v /\ value_at s' tg g comp = Some v.
  Proof.
    intros F St Hu H Sk Ab Nl Hp. apply foldM_app in H. destruct H as (s1 & H1 & H2). cbn [foldM] in H2.
    destruct (apply_cond compiles run finite sets tc tp s1 c) as [s2| |] eqn:E; cbn [bind] in H2; try discriminate.
    apply Forall_app in F. destruct F as [F1 F2]. inversion F2 as [|? ? Fc F3]; subst.
    destruct (apply_conds_frame _ _ _ _ F1 _ _ H1) as ((A1 & A2 & _) & _ & A3).
    destruct (apply_cond_spec _ _ _ _ _ _ Fc E) as (B1 & _ & B3 & _).
    destruct (apply_conds_frame _ _ _ _ F3 _ _ H2) as (_ & C2 & _).
    destruct Ab as (T1 & T2 & T3). subst tg.
    destruct (B3 Sk) with (g := g) (comp := comp) (i := i) as (v & V1 & V2).
    { intros X. apply St; [|exact X]. apply in_or_app; right; now left. }
    { split; [reflexivity|]. split; auto. }
    { now rewrite A1. }
    exists v. split.
    - rewrite <- V1. symmetry. apply new_value_same; [exact A2|]. intros X. apply A3. intros c' Hc'. apply (Hu X). apply in_or_app; now left.
    - rewrite C2; auto. subst comp. exact Fc.
  Qed.

  (** ** From the input parameters to the conditions *)
  Definition boundary_kinds (t : bc_type) : list (target * kind N) :=
    match t with
    | PRESCRIBED_DISPLACEMENT => [(TDeltaU, Increment (ofZ 1) (ofZ 0) false); (TV, Increment (ofZ 0) (ofZ 1) false)]
    | PRESCRIBED_FLUID_PRESSURE_U => [(TFluidDeltaU, Increment (ofZ 1) (ofZ 0) false); (TFluidV, Increment (ofZ 0) (ofZ 1) false)]
    | PRESCRIBED_TEMPERATURE => [(TTemp, Dirichlet); (TDeltaTemp, Increment (ofZ 1) (ofZ 0) true)]
    | THERMAL_FLUX => [(TTemp, Neumann)]
    | _ => []
    end.
  Definition plain (w : bc_type -> list target) (t : bc_type) : list (target * kind N) := map (fun x => (x, Dirichlet)) (w t).
  Definition mk (p : bc_params N) (comp : nat) (tk : target * kind N) : cond N :=
    {| cd_type := bp_type p; cd_set := tidy (bp_set p); cd_coord := comp; cd_text := text_of show p;
       cd_target := fst tk; cd_kind := snd tk |}.
  Definition comp0 (p : bc_params N) : nat := match component_of (bp_coord p) with Some k => k | None => 0 end.
  Definition made (ks : bc_type -> list (target * kind N)) (p : bc_params N) : list (cond N) := map (mk p (comp0 p)) (ks (bp_type p)).
  Definition good (ks : bc_type -> list (target * kind N)) (p : bc_params N) : Prop :=
    ks (bp_type p) <> [] -> exists k, component_of (bp_coord p) = Some k /\ forall tk, In tk (ks (bp_type p)) -> k < target_dim (fst tk).

  Lemma make_cond_ok p tg k c : make_cond show p tg k = Ok c ->
    exists i, component_of (bp_coord p) = Some i /\ i < target_dim tg /\ c = mk p i (tg, k).
  Proof.
    unfold make_cond. intros H. destruct (Nat.eqb_spec (target_dim tg) 1) as [D|D].
    - destruct (bp_coord p); try discriminate. injection H as <-. exists 0. rewrite D. repeat split; auto.
    - assert (target_dim tg = 3) by (destruct tg; cbn in *; lia).
      destruct (bp_coord p); try discriminate; injection H as <-; eexists; (split; [reflexivity|]; split; [lia|reflexivity]).
  Qed.
  Lemma mapO_make p l r : mapO (fun tk : target * kind N => make_cond show p (fst tk) (snd tk)) l = Ok r ->
    r = map (mk p (comp0 p)) l /\ (l <> [] -> exists k, component_of (bp_coord p) = Some k /\ forall tk, In tk l -> k < target_dim (fst tk)).
  Proof.
    revert r; induction l as [|tk l IH]; intros r H; cbn [mapO] in H.
    - injection H as <-. split; [reflexivity|easy].
    - destruct (make_cond show p (fst tk) (snd tk)) as [c| |] eqn:E; cbn [bind] in H; try discriminate.
      destruct (mapO _ l) as [r'| |] eqn:E'; cbn [bind] in H; try discriminate. injection H as <-.
      destruct (IH _ eq_refl) as [-> Q]. apply make_cond_ok in E. destruct E as (i & E1 & E2 & ->). split.
      + cbn [map]. f_equal. unfold comp0. rewrite E1. now destruct tk.
      + intros _. exists i. split; [exact E1|]. intros tk' [<-|Hk]; [exact E2|].
        destruct Q as (k & K1 & K2); [now destruct l|]. rewrite E1 in K1. injection K1 as <-. auto.
  Qed.

  Lemma add_params_spec cs p cs' : add_params show cs p = Ok cs' ->
    cs_boundary cs' = cs_boundary cs ++ made boundary_kinds p /\ good boundary_kinds p /\
    cs_initial cs' = cs_initial cs ++ made (plain initial_writes) p /\ good (plain initial_writes) p /\
    cs_force cs' = cs_force cs ++ made (plain force_writes) p /\ good (plain force_writes) p.
  Proof.
    unfold add_params, made, good, plain. intros H.
    destruct (bp_type p) eqn:T;
      try (match type of H with context [mapO ?f ?l] => destruct (mapO f l) as [r| |] eqn:E; cbn [bind] in H; try discriminate H end;
           injection H as <-; apply mapO_make in E; destruct E as [-> Q]; cbn [cs_boundary cs_initial cs_force boundary_kinds initial_writes force_writes map];
           rewrite ?app_nil_r; repeat split; auto; easy);
      try (match type of H with context [make_cond show p ?f ?l] => destruct (make_cond show p f l) as [r| |] eqn:E; cbn [bind] in H; try discriminate H end;
           injection H as <-; apply make_cond_ok in E; destruct E as (i & E1 & E2 & ->); cbn [cs_boundary cs_initial cs_force boundary_kinds initial_writes force_writes map];
           rewrite ?app_nil_r; unfold comp0; rewrite E1; repeat split; auto; try easy;
           intros _; exists i; (split; [reflexivity|]); intros tk [<-|[]]; exact E2).
    injection H as <-. cbn [boundary_kinds initial_writes force_writes map]. rewrite ?app_nil_r. repeat split; easy.
  Qed.
  Lemma add_fold ps : forall cs cs', foldM (add_params show) cs ps = Ok cs' ->
    cs_boundary cs' = cs_boundary cs ++ concat (map (made boundary_kinds) ps) /\ Forall (good boundary_kinds) ps /\
    cs_initial cs' = cs_initial cs ++ concat (map (made (plain initial_writes)) ps) /\ Forall (good (plain initial_writes)) ps /\
    cs_force cs' = cs_force cs ++ concat (map (made (plain force_writes)) ps) /\ Forall (good (plain force_writes)) ps.
  Proof.
    induction ps as [|p t IH]; intros cs cs' H; cbn [foldM] in H.
    - injection H as <-. cbn. rewrite !app_nil_r. repeat split; constructor.
    - destruct (add_params show cs p) as [c1| |] eqn:E; cbn [bind] in H; try discriminate.
      apply add_params_spec in E. destruct E as (-> & G1 & -> & G2 & -> & G3)
        || (destruct E as (X1 & G1 & X2 & G2 & X3 & G3)).
      destruct (IH _ _ H) as (Y1 & K1 & Y2 & K2 & Y3 & K3). rewrite Y1, Y2, Y3, X1, X2, X3. cbn [map concat].
      rewrite <- !app_assoc. repeat split; auto.
  Qed.
  Lemma add_all_spec ps cs : add_all show ps = Ok cs ->
    (cs_boundary cs = concat (map (made boundary_kinds) ps) /\ Forall (good boundary_kinds) ps) /\
    (cs_initial cs = concat (map (made (plain initial_writes)) ps) /\ Forall (good (plain initial_writes)) ps) /\
    (cs_force cs = concat (map (made (plain force_writes)) ps) /\ Forall (good (plain force_writes)) ps).
  Proof. intros H. apply add_fold in H. cbn in H. tauto. Qed.

  Section Kinds.
    Variables (ks : bc_type -> list (target * kind N)) (w : bc_type -> list target).
    Hypothesis ks_w : forall t, map fst (ks t) = w t.
    Lemma made_fits ps : Forall (good ks) ps -> Forall fits (concat (map (made ks) ps)).
    Proof.
      intros G. apply Forall_forall. intros c Hc. apply in_concat in Hc. destruct Hc as (l & Hl & Hc). apply in_map_iff in Hl.
      destruct Hl as (p & <- & Hp). unfold made in Hc. apply in_map_iff in Hc. destruct Hc as (tk & <- & Ht).
      rewrite Forall_forall in G. destruct (G p Hp) as (k & K1 & K2); [intros X; rewrite X in Ht; easy|].
      unfold fits, mk. cbn [cd_coord cd_target]. unfold comp0. rewrite K1. now apply K2.
    Qed.
    Lemma made_about sets p c tg g comp : good ks p -> In c (made ks p) -> about sets c tg g comp -> concerns w sets p tg g comp.
    Proof.
      intros G Hc (A1 & A2 & A3). unfold made in Hc. apply in_map_iff in Hc. destruct Hc as (tk & <- & Ht).
      destruct G as (k & K1 & K2); [intros X; rewrite X in Ht; easy|]. cbn [mk cd_target cd_coord cd_set] in *.
      split; [rewrite <- ks_w, <- A1; now apply in_map|]. split; [|exact A3]. unfold comp0 in A2. rewrite K1 in *. now subst.
    Qed.
    Lemma concerns_made sets p tg g comp : concerns w sets p tg g comp -> exists k, In (tg, k) (ks (bp_type p)) /\
      In (mk p comp (tg, k)) (made ks p) /\ about sets (mk p comp (tg, k)) tg g comp.
    Proof.
      intros (A1 & A2 & A3). rewrite <- ks_w in A1. apply in_map_iff in A1. destruct A1 as ((tg', k) & X & A1). cbn in X; subst tg'.
      exists k. split; [exact A1|]. split.
      - unfold made. apply in_map_iff. exists (tg, k). split; [|exact A1]. unfold comp0. now rewrite A2.
      - split; [reflexivity|]. split; [reflexivity|]. exact A3.
    Qed.
    Lemma frame_of sets tc tp ps s s' : Forall (good ks) ps ->
      foldM (apply_cond compiles run finite sets tc tp) s (concat (map (made ks) ps)) = Ok s' ->
      same_frame s s' /\
      (forall tg g comp, comp < target_dim tg -> (forall p, In p ps -> ~ concerns w sets p tg g comp) ->
         value_at s' tg g comp = value_at s tg g comp).
    Proof.
      intros G H. destruct (apply_conds_frame _ _ _ _ (made_fits ps G) _ _ H) as (A & B & _). split; [exact A|].
      intros tg g comp Hc Hn. apply B; [exact Hc|]. intros c Hin Ab. apply in_concat in Hin. destruct Hin as (l & Hl & Hin).
      apply in_map_iff in Hl. destruct Hl as (p & <- & Hp). apply (Hn p Hp). rewrite Forall_forall in G. eapply made_about; eauto.
    Qed.
    Hypothesis ks_nodup : forall t, NoDup (w t).
    (** Either no prescribed displacement, or nothing written to the displacement. *)
    Hypothesis ks_u : forall t, ~ In TU (w t) \/ ks PRESCRIBED_DISPLACEMENT = [].
    Lemma value_of_last sets tc tp ps p s s' tg g comp i : Forall (good ks) ps ->
      foldM (apply_cond compiles run finite sets tc tp) s (concat (map (made ks) ps)) = Ok s' ->
      last_concerning w sets ps p tg g comp -> pos (bs_gids s) g = Some i ->
      exists k, In (tg, k) (ks (bp_type p)) /\
        (~ skipped (mk p comp (tg, k)) tc tp ->
        exists v, new_value run finite s (mk p comp (tg, k)) i tc tp = Ok v /\ value_at s' tg g comp = Some v).
    Proof.
      intros G H (p1 & p2 & -> & Cn & Nl) Hp. destruct (concerns_made _ _ _ _ _ Cn) as (k & K1 & K2 & K3).
      exists k. split; [exact K1|]. intros Sk. pose proof (made_fits _ G) as F.
      assert (Z : forall c', In c' (concat (map (made ks) (p1 ++ p :: p2))) -> (~ In TU (w (cd_type c')) \/ ks PRESCRIBED_DISPLACEMENT = []) /\ In (cd_target c') (w (cd_type c')) /\ ks (cd_type c') <> []).
      { intros c' Hc'. apply in_concat in Hc'. destruct Hc' as (l & Hl & Hc'). apply in_map_iff in Hl. destruct Hl as (q & <- & Hq).
        unfold made in Hc'. apply in_map_iff in Hc'. destruct Hc' as (tk & <- & Ht). cbn [mk cd_type cd_target].
        split; [apply ks_u|]. split; [rewrite <- ks_w; now apply in_map|]. intros X; now rewrite X in Ht. }
      rewrite map_app, concat_app in H, F, Z. cbn [map concat] in H, F, Z.
      apply in_split in K2. destruct K2 as (m1 & m2 & K2). rewrite K2 in H, F, Z. rewrite <- (app_assoc m1), app_assoc in H, F, Z. cbn [app] in H, F, Z.
      apply (apply_conds_value _ _ _ _ _ _ _ _ _ _ _ i) with (1 := F) (4 := H); auto.
      - intros c' Hc' T0 T1. destruct (Z _ Hc') as ([Z1|Z1] & Z2 & Z3); rewrite T0 in *; [rewrite T1 in Z2; auto|easy].
      - intros T0 c' Hc' T1. cbn [mk cd_type] in T0. rewrite T0 in K1. destruct (Z _ Hc') as ([Z1|Z1] & Z2 & Z3).
        + rewrite T1 in Z2; auto. + now rewrite Z1 in K1.
      - intros c' Hc' Ab. apply in_app_or in Hc'. destruct Hc' as [Hc'|Hc'].
        + assert (ND : NoDup (map cd_target (made ks p))).
          { unfold made. rewrite map_map. cbn [mk cd_target]. rewrite ks_w. apply ks_nodup. }
          rewrite K2, map_app in ND. apply NoDup_remove_2 in ND. apply ND. apply in_or_app; right.
          destruct Ab as (<- & _). exact (in_map cd_target _ _ Hc').
        + apply in_concat in Hc'. destruct Hc' as (l & Hl & Hc'). apply in_map_iff in Hl. destruct Hl as (q & <- & Hq).
          apply (Nl q Hq). eapply made_about; eauto. rewrite Forall_forall in G. apply G. apply in_or_app; right; now right.
    Qed.
  End Kinds.
  Lemma bk_w t : map fst (boundary_kinds t) = boundary_writes t. Proof. now destruct t. Qed.
  Lemma bk_nd t : NoDup (boundary_writes t).
  Proof. destruct t; cbn; repeat constructor; cbn; intuition discriminate. Qed.
  Lemma bk_u t : ~ In TU (boundary_writes t) \/ boundary_kinds PRESCRIBED_DISPLACEMENT = [].
  Proof. left. destruct t; cbn; intuition discriminate. Qed.
  Lemma pl_w w t : map fst (plain w t) = w t. Proof. unfold plain. rewrite map_map. apply map_id. Qed.
  Lemma in_nd t : NoDup (initial_writes t). Proof. destruct t; cbn; repeat constructor; easy. Qed.
  Lemma fo_nd t : NoDup (force_writes t). Proof. destruct t; cbn; repeat constructor; easy. Qed.
End Conditions.

Section Values.
  Context {N : Num}.
  Variable show : N -> string.
  Variables (compiles : string -> bool) (run : string -> V3 N -> N -> N -> option N) (finite : N -> bool).

  Lemma eval_plain (s : bstate N) c i tc tp x f : cd_type c <> PRESCRIBED_DISPLACEMENT -> nth_error (bs_x s) i = Some x ->
    defines run (cd_text c) x f -> evaluate run s c i tc tp = Ok (f tc, f tp).
  Proof.
    intros T X D. unfold evaluate, at_ub. rewrite X. cbn [bind].
    change (body c) with (statement_of (cd_text c)). rewrite !D.
    destruct (cd_type c); try reflexivity. easy.
  Qed.
  Lemma eval_disp (s : bstate N) c i tc tp x f r : cd_type c = PRESCRIBED_DISPLACEMENT -> nth_error (bs_x s) i = Some x ->
    defines run (cd_text c) x f -> evaluate run s c i tc tp = Ok r ->
    fst r = f tc /\ (eqb (sub (f tc) (f tp)) (ofZ 0) = false -> snd r = f tp) /\
    (eqb (sub (f tc) (f tp)) (ofZ 0) = true -> nth_error (bs_field s TU) (i * 3 + cd_coord c) = Some (snd r)).
  Proof.
    intros T X D. unfold evaluate, at_ub. rewrite X. cbn [bind].
    change (body c) with (statement_of (cd_text c)). rewrite !D, T. cbn [andb].
    destruct (eqb (sub (f tc) (f tp)) (ofZ 0)).
    - destruct (nth_error (bs_field s TU) (i * 3 + cd_coord c)); cbn [bind]; [|discriminate]. intros H; injection H as <-. repeat split; easy.
    - intros H; injection H as <-. repeat split; easy.
  Qed.
  Lemma position_some (s : bstate N) g x : position s g = Some x -> exists i, pos (bs_gids s) g = Some i /\ nth_error (bs_x s) i = Some x.
  Proof. unfold position. destruct (pos (bs_gids s) g) as [i|]; [eauto|discriminate]. Qed.

  Lemma increment_value s c i tc tp a b rel v : cd_kind c = Increment a b rel -> new_value run finite s c i tc tp = Ok v ->
    exists r, evaluate run s c i tc (if rel then ofZ 0 else tp) = Ok r /\
      v = add (mul a (sub (fst r) (snd r))) (mul (mul b (sub (fst r) (snd r))) (div (ofZ 1) (sub tc (if rel then ofZ 0 else tp)))).
  Proof.
    intros K. unfold new_value. rewrite K. destruct (evaluate run s c i tc _) as [[cur prev]| |]; cbn [bind]; try discriminate.
    match goal with |- (if finite ?e then _ else _) = _ -> _ => destruct (finite e); [|discriminate]; intros H; injection H as <- end.
    exists (cur, prev). split; reflexivity.
  Qed.
  Lemma dirichlet_value s c i tc tp v x f : cd_type c <> PRESCRIBED_DISPLACEMENT -> cd_kind c = Dirichlet -> nth_error (bs_x s) i = Some x ->
    defines run (cd_text c) x f -> new_value run finite s c i tc tp = Ok v -> v = f tc.
  Proof.
    intros T K X D. unfold new_value. rewrite K. rewrite (eval_plain _ _ _ _ _ _ _ T X D). cbn [bind].
    destruct (finite (f tc)); [|discriminate]. now intros H; injection H as <-.
  Qed.
End Values.

Section Real.
  Variable show : RN -> string.
  Variables (compiles : string -> bool) (run : string -> V3 RN -> RN -> RN -> option RN) (finite : RN -> bool).
  Local Open Scope R_scope.

  Lemma sub_zero (a b : R) : eqb (sub (a : T RN) b) (ofZ 0) = true <-> a = b.
  Proof. cbn. split; intros H; [apply Reqb_true in H; lra|apply Reqb_true; lra]. Qed.

  Lemma displacement_pair ps cs sets tc tp s s' p g k x f :
    add_all show ps = Ok cs -> apply_conds compiles run finite sets tc tp s (cs_boundary cs) = Ok s' -> tc <> tp ->
    bp_type p = PRESCRIBED_DISPLACEMENT ->
    last_concerning boundary_writes sets ps p TDeltaU g k -> position s g = Some x -> defines run (text_of show p) x f ->
    exists du, value_at s' TDeltaU g k = Some du /\ value_at s' TV g k = Some (du / (tc - tp) : T RN) /\
      (f tc <> f tp -> du = f tc - f tp) /\
      (f tc = f tp -> exists u, value_at s TU g k = Some u /\ du = f tc - u).
  Proof.
    intros A H Ht Ty L X D. apply add_all_spec in A. destruct A as ((E & G) & _). unfold apply_conds in H. rewrite E in H.
    apply position_some in X. destruct X as (i & P & X).
    assert (L2 : last_concerning boundary_writes sets ps p TV g k).
    { destruct L as (p1 & p2 & Q1 & (Q2 & Q3 & Q4) & Q5). exists p1, p2. split; [exact Q1|]. split.
      - split; [rewrite Ty; cbn; auto|]. auto.
      - intros p' Hp' (Z1 & Z2). apply (Q5 p' Hp'). split; [|exact Z2]. destruct (bp_type p'); cbn in Z1 |- *; intuition discriminate. }
    destruct (value_of_last show compiles run finite _ _ bk_w bk_nd bk_u _ _ _ _ _ _ _ _ _ _ i G H L P) as (k1 & K1 & V1).
    destruct (value_of_last show compiles run finite _ _ bk_w bk_nd bk_u _ _ _ _ _ _ _ _ _ _ i G H L2 P) as (k2 & K2 & V2).
    rewrite Ty in K1, K2. cbn in K1, K2. destruct K1 as [K1|[K1|[]]]; [|discriminate]. destruct K2 as [K2|[K2|[]]]; [discriminate|].
    injection K1 as <-. injection K2 as <-.
    destruct V1 as (v1 & N1 & W1). { cbn. intros Z; apply Reqb_true in Z; auto. }
    destruct V2 as (v2 & N2 & W2). { cbn. intros Z; apply Reqb_true in Z; auto. }
    apply increment_value with (1 := eq_refl) in N1. apply increment_value with (1 := eq_refl) in N2.
    destruct N1 as (r & R & ->). destruct N2 as (r2 & R' & ->).
    assert (r2 = r) by (apply (f_equal (fun o => match o with Ok a => a | _ => r end)) in R'; etransitivity; [symmetry; exact R'|];
      etransitivity; [|exact (f_equal (fun o => match o with Ok a => a | _ => r end) R)]; reflexivity). subst r2. clear R'.
    apply eval_disp with (x := x) (f := f) in R; [|exact Ty|exact X|exact D]. destruct R as (R1 & R2 & R3). destruct r as [cur prev]. cbn [fst snd] in *.
    exists (f tc - prev). subst cur. split; [|split; [|split]].
    - etransitivity; [exact W1|]. f_equal. cbn. lra.
    - etransitivity; [exact W2|]. f_equal. cbn. field. lra.
    - intros Z. rewrite R2; [reflexivity|]. destruct (eqb _ _) eqn:Q; [|reflexivity]. apply sub_zero in Q. easy.
    - intros Z. exists prev. split; [|reflexivity]. unfold value_at. rewrite P. apply R3. now apply sub_zero.
  Qed.

  Lemma temperature_pair ps cs sets tc tp s s' p g k x f :
    add_all show ps = Ok cs -> apply_conds compiles run finite sets tc tp s (cs_boundary cs) = Ok s' -> tc <> tp ->
    bp_type p = PRESCRIBED_TEMPERATURE ->
    last_concerning boundary_writes sets ps p TDeltaTemp g k -> position s g = Some x -> defines run (text_of show p) x f ->
    value_at s' TDeltaTemp g k = Some (f tc - f 0 : T RN) /\
    (last_concerning boundary_writes sets ps p TTemp g k -> value_at s' TTemp g k = Some (f tc : T RN)).
  Proof.
    intros A H Ht Ty L X D. apply add_all_spec in A. destruct A as ((E & G) & _). unfold apply_conds in H. rewrite E in H.
    apply position_some in X. destruct X as (i & P & X). split.
    - destruct (value_of_last show compiles run finite _ _ bk_w bk_nd bk_u _ _ _ _ _ _ _ _ _ _ i G H L P) as (k1 & K1 & V1).
      rewrite Ty in K1. cbn in K1. destruct K1 as [K1|[K1|[]]]; [discriminate|]. injection K1 as <-.
      destruct V1 as (v1 & N1 & W1). { cbn. intros Z; apply Reqb_true in Z; auto. }
      apply increment_value with (1 := eq_refl) in N1. destruct N1 as (r & R & ->).
      match type of R with evaluate _ _ ?c _ _ ?t = _ => assert (Q : evaluate run s c i tc t = Ok (f tc, f t)) end.
      { apply eval_plain with (x := x); [cbn [mk cd_type]; rewrite Ty; discriminate|exact X|exact D]. }
      assert (Q' : r = (f tc, f 0)) by (apply (f_equal (fun o => match o with Ok a => a | _ => r end)) in Q; etransitivity; [|exact Q];
        symmetry; exact (f_equal (fun o => match o with Ok a => a | _ => r end) R)). subst r.
      etransitivity; [exact W1|]. f_equal. cbn. lra.
    - intros L2.
      destruct (value_of_last show compiles run finite _ _ bk_w bk_nd bk_u _ _ _ _ _ _ _ _ _ _ i G H L2 P) as (k1 & K1 & V1).
      rewrite Ty in K1. cbn in K1. destruct K1 as [K1|[K1|[]]]; [|discriminate]. injection K1 as <-.
      destruct V1 as (v1 & N1 & W1). { easy. }
      apply (dirichlet_value run finite s _ i tc tp v1 x f) in N1; [|cbn [mk cd_type]; rewrite Ty; discriminate|reflexivity|exact X|exact D].
      now subst.
  Qed.
  (** A flux condition writes zero into the temperature *)
  Lemma flux_zero ps cs sets tc tp s s' p g k i :
    add_all show ps = Ok cs -> apply_conds compiles run finite sets tc tp s (cs_boundary cs) = Ok s' ->
    bp_type p = THERMAL_FLUX ->
    last_concerning boundary_writes sets ps p TTemp g k -> pos (bs_gids s) g = Some i ->
    value_at s' TTemp g k = Some (0 : T RN).
  Proof.
    intros A H Ty L P. apply add_all_spec in A. destruct A as ((E & G) & _). unfold apply_conds in H. rewrite E in H.
    destruct (value_of_last show compiles run finite _ _ bk_w bk_nd bk_u _ _ _ _ _ _ _ _ _ _ i G H L P) as (k1 & K1 & V1).
    rewrite Ty in K1. cbn in K1. destruct K1 as [K1|[]]. injection K1 as <-.
    destruct V1 as (v1 & N1 & W1). { easy. } cbn in N1. injection N1 as <-. exact W1.
  Qed.

  Section Telescope.
    Variables (ps : list (bc_params RN)) (cs : conds RN) (sets : string -> option (list nat)) (p : bc_params RN) (g k : nat)
              (x : V3 RN) (f : R -> R).
    Hypothesis A : add_all show ps = Ok cs.
    Hypothesis Ty : bp_type p = PRESCRIBED_DISPLACEMENT.
    Hypothesis L : last_concerning boundary_writes sets ps p TDeltaU g k.
    Hypothesis D : defines run (text_of show p) x (f : RN -> RN).
    (** What a step does to the displacement of the node *)
    Definition moves (step : bstate RN -> R -> R -> bstate RN -> Prop) : Prop :=
      forall s tp tc s' u, tc <> tp -> step s tp tc s' -> position s g = Some x -> value_at s TU g k = Some u ->
        position s' g = Some x /\
        exists u', value_at s' TU g k = Some u' /\ (f tc = f tp -> u' = f tc) /\ (f tc <> f tp -> u' - u = f tc - f tp).

    Lemma load_moves : moves (load_step compiles run finite sets ps (cs_boundary cs)).
    Proof.
      intros s tp tc s' u Ht (s1 & H1 & H2 & H3 & H4 & H5) X U.
      destruct (displacement_pair ps cs sets tc tp s s1 p g k x f A H1 Ht Ty L X D) as (du & D1 & D2 & D3 & D4).
      split; [unfold position in *; now rewrite H3, H4|].
      exists (u + du). split; [|split].
      - destruct L as (p1 & p2 & Q1 & Q2 & _). apply (H5 p); [|exact Q2|exact U|exact D1]. rewrite Q1. apply in_or_app; right; now left.
      - intros Z. destruct (D4 Z) as (u0 & U0 & ->). assert (u0 = u) by congruence. subst. lra.
      - intros Z. rewrite (D3 Z). lra.
    Qed.
    Lemma explicit_moves : moves (explicit_step compiles run finite sets ps (cs_boundary cs)).
    Proof.
      intros s tp tc s' u Ht (s1 & H1 & H2 & H3 & H4 & H5) X U.
      destruct (displacement_pair ps cs sets tc tp s s1 p g k x f A H1 Ht Ty L X D) as (du & D1 & D2 & D3 & D4).
      split; [unfold position in *; now rewrite H3, H4|].
      exists (u + (tc - tp) * (du / (tc - tp))). split; [|split].
      - destruct L as (p1 & p2 & Q1 & (Q2 & Q3) & _). apply (H5 p); [|split; [rewrite Ty; cbn; auto|exact Q3]|exact U|exact D2]. rewrite Q1. apply in_or_app; right; now left.
      - intros Z. destruct (D4 Z) as (u0 & U0 & ->). assert (u0 = u) by congruence. subst u0.
        change (u + (tc - tp) * ((f tc - u) / (tc - tp)) = f tc :> R). field. lra.
      - intros Z. rewrite (D3 Z). change (u + (tc - tp) * ((f tc - f tp) / (tc - tp)) - u = f tc - f tp :> R). field. lra.
    Qed.

    Lemma telescope step ts s s' : moves step -> history step ts s s' -> forall u, position s g = Some x -> value_at s TU g k = Some u ->
      exists u', value_at s' TU g k = Some u' /\
        (u = f (first_time ts) -> u' = f (final_time ts)) /\
        (changes_every_step f ts -> u' - u = f (final_time ts) - f (first_time ts)) /\
        (~ changes_every_step f ts -> u' = f (final_time ts)).
    Proof.
      intros M H. induction H as [t s|t t' ts s s1 s' Ht St H IH]; intros u X U.
      - exists u. split; [exact U|]. split; [auto|]. split; [cbn; intros; lra|]. intros Z. exfalso. apply Z. intros [|[|i]] a b; discriminate.
      - destruct (M s t t' s1 u Ht St X U) as (X1 & u1 & U1 & M1 & M2).
        destruct (IH u1 X1 U1) as (u' & U' & I1 & I2 & I3). exists u'. split; [exact U'|].
        assert (FT : final_time (t :: t' :: ts) = final_time (t' :: ts)) by reflexivity. rewrite FT. cbn [first_time hd] in *.
        assert (CE : changes_every_step f (t :: t' :: ts) <-> f t' <> f t /\ changes_every_step f (t' :: ts)).
        { split.
          - intros Z. split; [apply (Z O); reflexivity|]. intros i a b Ha Hb. apply (Z (S i)); assumption.
          - intros (Z1 & Z2) [|i] a b Ha Hb; cbn in Ha, Hb; [injection Ha as <-; injection Hb as <-; exact Z1|]. apply (Z2 i); assumption. }
        split; [|split].
        + intros ->. destruct (Req_dec (f t') (f t)) as [Z|Z]; [apply I1; now apply M1|]. apply I1. specialize (M2 Z). lra.
        + intros Z%CE. destruct Z as [Z1 Z2]. specialize (M2 Z1). specialize (I2 Z2). lra.
        + intros Z. destruct (Req_dec (f t') (f t)) as [Y|Y]; [apply I1; now apply M1|]. apply I3. intros Q. apply Z. now apply CE.
    Qed.
  End Telescope.
End Real.

(** ** Application succeeds when the evaluator does *)
Section Success.
  Context {N : Num}.
  Variable show : N -> string.
  Variables (compiles : string -> bool) (run : string -> V3 N -> N -> N -> option N) (finite : N -> bool).
  Hypothesis total_c : forall t, compiles t = true.
  Hypothesis total_r : forall t x tm v, run t x tm v <> None.
  Hypothesis total_f : forall v, finite v = true.

  Lemma evaluate_ok s c i tc tp : sized s -> i < length (bs_gids s) -> (cd_type c = PRESCRIBED_DISPLACEMENT -> cd_coord c < 3) ->
    exists r, evaluate run s c i tc tp = Ok r.
  Proof.
    intros (S1 & S2) Hi Hc. unfold evaluate, at_ub. destruct (nth_error (bs_x s) i) as [x|] eqn:E.
    2:{ apply nth_error_None in E. lia. }
    cbn [bind]. destruct (run (body c) x tp (ofZ 0)) eqn:R1; [|now apply total_r in R1].
    destruct (run (body c) x tc t) eqn:R2; [|now apply total_r in R2].
    destruct (_ && _) eqn:B; [|eauto].
    assert (T : cd_type c = PRESCRIBED_DISPLACEMENT) by (destruct (cd_type c); (reflexivity || discriminate)).
    specialize (Hc T). destruct (nth_error (bs_field s TU) (i * 3 + cd_coord c)) eqn:F; [cbn; eauto|].
    apply nth_error_None in F. rewrite S2 in F. cbn in F. lia.
  Qed.
  Lemma set_node_ok s c tc tp g : sized s -> fits c -> (cd_type c = PRESCRIBED_DISPLACEMENT -> cd_coord c < 3) ->
    exists s', set_node run finite c tc tp s g = Ok s'.
  Proof.
    intros S F Hc. unfold set_node. destruct (pos (bs_gids s) g) as [i|] eqn:E; [|eauto]. pose proof (pos_lt _ _ _ E) as Hi.
    assert (V : exists v, new_value run finite s c i tc tp = Ok v).
    { unfold new_value. destruct (cd_kind c).
      - destruct (evaluate_ok s c i tc (ofZ 0) S Hi Hc) as ((cur, prev) & ->). cbn [bind]. rewrite total_f. eauto.
      - destruct (evaluate_ok s c i tc (if rel then ofZ 0 else tp) S Hi Hc) as ((cur, prev) & ->). cbn [bind]. rewrite total_f. eauto.
      - eauto. }
    destruct V as (v & ->). cbn [bind].
    destruct (upd_ub_ok (bs_field s (cd_target c)) (i * target_dim (cd_target c) + cd_coord c) v) as (l & ->); [|cbn; eauto].
    destruct S as (_ & S2). rewrite S2. unfold fits in F. nia.
  Qed.
  Lemma nodes_ok c tc tp nodes : fits c -> (cd_type c = PRESCRIBED_DISPLACEMENT -> cd_coord c < 3) ->
    forall s, sized s -> exists s', foldM (set_node run finite c tc tp) s nodes = Ok s'.
  Proof.
    intros F Hc. induction nodes as [|g t IH]; intros s S; [cbn; eauto|]. cbn [foldM].
    destruct (set_node_ok s c tc tp g S F Hc) as (s1 & E). rewrite E. cbn [bind]. apply IH.
    apply (set_node_spec run finite) in E; [|exact F]. now apply E.
  Qed.
  Lemma conds_ok sets tc tp l : Forall fits l -> (forall c, In c l -> (cd_type c = PRESCRIBED_DISPLACEMENT -> cd_coord c < 3) /\ sets (cd_set c) <> None) ->
    forall s, sized s -> exists s', foldM (apply_cond compiles run finite sets tc tp) s l = Ok s'.
  Proof.
    intros F. induction F as [|c t F0 F IH]; intros H s S; [cbn; eauto|]. cbn [foldM].
    destruct (H c (or_introl eq_refl)) as (H1 & H2).
    assert (E : exists s1, apply_cond compiles run finite sets tc tp s c = Ok s1).
    { unfold apply_cond. rewrite total_c. destruct (sets (cd_set c)) as [nodes|]; [|easy].
      destruct (nodes_ok c tc tp nodes F0 H1 s S) as (s1 & ->). destruct (cd_kind c); eauto. destruct (eqb tc tp); eauto. }
    destruct E as (s1 & E). rewrite E. cbn [bind]. apply IH; [intros; apply H; now right|].
    apply (apply_cond_spec show compiles run finite) in E; [|exact F0]. now apply E.
  Qed.
  Lemma made_ok ks sets tc tp ps s : Forall (good ks) ps -> (forall p, In p ps -> sets (tidy (bp_set p)) <> None) -> sized s ->
    (forall t tk, In tk (ks t) -> t = PRESCRIBED_DISPLACEMENT -> target_dim (fst tk) = 3) ->
    exists s', foldM (apply_cond compiles run finite sets tc tp) s (concat (map (made show ks) ps)) = Ok s'.
  Proof.
    intros G H S K. apply conds_ok; [now apply made_fits| |exact S]. intros c Hc. apply in_concat in Hc. destruct Hc as (l & Hl & Hc). apply in_map_iff in Hl.
    destruct Hl as (p & <- & Hp). unfold made in Hc. apply in_map_iff in Hc. destruct Hc as (tk & <- & Ht). cbn [mk cd_type cd_coord cd_set].
    split; [|now apply H]. intros T. rewrite Forall_forall in G. destruct (G p Hp) as (k & K1 & K2); [intros X; rewrite X in Ht; easy|].
    unfold comp0. rewrite K1. rewrite <- (K (bp_type p) tk Ht T). now apply K2.
  Qed.
End Success.
