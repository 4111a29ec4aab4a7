(** * Proofs for the implicit solver *)
From Coq Require Import String Reals Lra.
From Verif Require Import Base Num SpecGlobal ProofGlobal ModelScalar ModelInput ModelBC SpecBC ProofBC ProofBC2 PropBC ModelForce SpecForce ModelExplicit SpecExplicit ProofExplicit ProofExplicit2 ProofExplicit3 ModelNewmark SpecNewmark.
Local Open Scope R_scope.

Lemma norm_euclidean (r : list R) : norm2 (N:=RN) r = euclidean r.
Proof.
  unfold norm2, euclidean. cbn [sqr_root RN]. f_equal.
  etransitivity; [exact (fold_left_Rsum (fun e : R => e * e) r 0)|]. apply Rplus_0_l.
Qed.

Section Kin.
  Variables (compiles : string -> bool) (run : string -> V3 RN -> RN -> RN -> option RN) (finite : RN -> bool).
  Variable sets : string -> option (list nat).
  Variables (show : RN -> string) (ps : list (bc_params RN)) (cs : conds RN).
  Context {M : Type}.
  Variable evaluate : M -> list RN -> list RN -> list RN -> outcome (M * list RN * option (list RN)).
  Variable rho : list R.
  Variable solver : nat -> list RN -> list RN.
  Variables (tolerance : R) (max_iterations : Z) (dt beta gamma : R).
  Hypothesis made : add_all show ps = Ok cs.

  Notation state := (estate RN M).
  Notation correct := (correct (N:=RN) M dt beta gamma).
  Notation residual_of := (residual_of (N:=RN) compiles run finite sets (cs_boundary cs) (cs_force cs) M evaluate rho mechanics mechanics_dofs dt beta).
  Notation newton := (newton (N:=RN) compiles run finite sets (cs_boundary cs) (cs_force cs) M evaluate rho mechanics mechanics_dofs solver tolerance dt beta gamma).
  Notation step := (implicit_step (N:=RN) compiles run finite sets (cs_boundary cs) (cs_force cs) M evaluate rho mechanics mechanics_dofs solver tolerance max_iterations dt beta gamma).
  Notation prescribed := (prescribed_in sets ps).

  Lemma held_at (s : state) l g comp i : pos (bs_gids (e_b s)) g = Some i -> held s l g comp = nth_error l (i * 3 + comp).
  Proof. unfold held. intros ->. reflexivity. Qed.

  Lemma fixed_row g comp : (comp < 3)%nat -> constrained mechanics mechanics_dofs sets (cs_boundary cs) (3 * g + comp) <-> prescribed g comp.
  Proof.
    intros Hc. pose proof (add_all_spec show ps cs made) as ((E & G) & _). rewrite E. rewrite Forall_forall in G. split.
    - intros (c & u & nodes & g' & I & F & S & N1 & N2 & R). apply in_concat in I. destruct I as (l & Il & I). apply in_map_iff in Il. destruct Il as (p & <- & Ip).
      unfold ProofBC.made in I. apply in_map_iff in I. destruct I as (tk & <- & It). cbn [mk cd_type cd_set cd_coord] in *.
      assert (T : bp_type p = PRESCRIBED_DISPLACEMENT). { destruct (bp_type p); cbn in F; try discriminate; injection F as <-; cbn in S; try discriminate; reflexivity. }
      destruct (G p Ip) as (k & K1 & K2); [intros X; rewrite X in It; easy|]. specialize (K2 _ It).
      assert (Kd : (k < 3)%nat) by (destruct (target_dim (fst tk)) as [|[|[|[|]]]] eqn:TD; destruct (fst tk); cbn in TD; lia).
      unfold comp0 in R. rewrite K1 in R. rewrite T in F. injection F as <-. unfold dof_row in R. change (n_total mechanics_dofs) with 3%nat in R. change (dof_offset mechanics_dofs UDisp) with 0%nat in R.
      assert (g = g' /\ comp = k) as (-> & ->) by lia. exists p. split; [exact Ip|]. split; [rewrite T; cbn; auto|]. split; [exact K1|]. exists nodes. auto.
    - intros (p & Ip & W & K & nodes & N1 & N2).
      assert (T : bp_type p = PRESCRIBED_DISPLACEMENT) by (destruct (bp_type p); cbn in W; intuition discriminate).
      exists (mk show p (comp0 p) (TV, Increment (N:=RN) (ofZ 0) (ofZ 1) false)), UDisp, nodes, g. split; [|split; [cbn; now rewrite T|split; [reflexivity|split; [exact N1|split; [exact N2|]]]]].
      + apply in_concat. exists (ProofBC.made show boundary_kinds p). split; [now apply in_map|]. unfold ProofBC.made. apply in_map. rewrite T. right; left; reflexivity.
      + cbn [mk cd_coord]. unfold comp0. rewrite K. unfold dof_row. change (n_total mechanics_dofs) with 3%nat. change (dof_offset mechanics_dofs UDisp) with 0%nat. lia.
  Qed.

  Lemma cond_fields tc tp b b' c tg : apply_cond compiles run finite sets tc tp b c = Ok b' -> tg <> cd_target c -> bs_field b' tg = bs_field b tg.
  Proof.
    intros H Hn. unfold apply_cond in H.
    assert (Go : forall nodes b b', foldM (set_node run finite c tc tp) b nodes = Ok b' -> bs_field b' tg = bs_field b tg).
    { clear - Hn. induction nodes as [|g t IH]; intros b b' H; cbn [foldM] in H; [now injection H as <-|].
      destruct (set_node run finite c tc tp b g) as [b1| |] eqn:E; cbn [bind] in H; try discriminate. rewrite (IH _ _ H).
      unfold set_node in E. destruct (pos (bs_gids b) g); [|now injection E as <-].
      destruct (new_value _ _ _ _ _ _ _) as [v| |]; cbn [bind] in E; try discriminate.
      destruct (upd_ub _ _ _) as [l| |]; cbn [bind] in E; try discriminate. injection E as <-. now apply field_other. }
    destruct (cd_kind c); [destruct (compiles (body c)); [|discriminate]|destruct (eqb tc tp); [now injection H as <-|]; destruct (compiles (body c)); [|discriminate]|];
      (destruct (sets (cd_set c)); [|discriminate]; eapply Go; exact H).
  Qed.
  Lemma forces_fields tc tp b b' tg : apply_forces compiles run finite sets tc tp b (cs_force cs) = Ok b' -> tg <> TForce -> bs_field b' tg = bs_field b tg.
  Proof.
    intros H Hn. pose proof (add_all_spec show ps cs made) as (_ & _ & (E & _)). unfold apply_forces in H.
    assert (F : Forall (fun c => cd_target c = TForce) (cs_force cs)).
    { rewrite E. apply Forall_forall. intros c I. apply in_concat in I. destruct I as (l & Il & I). apply in_map_iff in Il. destruct Il as (p & <- & Ip).
      unfold ProofBC.made in I. apply in_map_iff in I. destruct I as (tk & <- & It). unfold plain in It. apply in_map_iff in It. destruct It as (t & <- & It).
      cbn. destruct (bp_type p); cbn in It; try easy. now destruct It as [<-|[]]. }
    transitivity (bs_field (set_field b TForce (map (fun _ => ofZ (n:=RN) 0) (bs_field b TForce))) tg); [|now apply field_other].
    revert H. generalize (set_field b TForce (map (fun _ => ofZ (n:=RN) 0) (bs_field b TForce))). intros b0. revert b0 b'. clear - F Hn.
    induction F as [|c t Fc F IH]; intros b0 b' H; cbn [foldM] in H; [now injection H as <-|].
    destruct (apply_cond compiles run finite sets tc tp b0 c) as [b1| |] eqn:E; cbn [bind] in H; try discriminate. rewrite (IH _ _ H). eapply cond_fields; [exact E|congruence].
  Qed.

  (** The state follows from its displacements, [u2] and [v2]. *)
  Definition kin (s0 : state) (u2 v2 : list R) (s : state) : Prop :=
    complete s /\ bs_gids (e_b s) = bs_gids (e_b s0) /\ bs_x (e_b s) = bs_x (e_b s0) /\
    forall g comp, In g (bs_gids (e_b s0)) -> (comp < 3)%nat ->
      exists X u u2i v2i a : R, option_map (fun X => coord_of X comp) (position (e_b s0) g) = Some X /\
        held s (u_of s) g comp = Some u /\ held s0 u2 g comp = Some u2i /\ held s0 v2 g comp = Some v2i /\ held s (e_a s) g comp = Some a /\
        a = 1 / (beta * (dt * dt)) * (u - u2i) /\ held s (v_of s) g comp = Some (v2i + dt * gamma * a) /\ held s (e_y s) g comp = Some (X + u).

  Lemma correct_kin s0 u2 v2 u s s' : complete s -> bs_gids (e_b s) = bs_gids (e_b s0) -> bs_x (e_b s) = bs_x (e_b s0) -> length u = length (u_of s) ->
    correct u2 v2 u s = Ok s' -> kin s0 u2 v2 s' /\ u_of s' = u /\ e_mat s' = e_mat s.
  Proof.
    intros ((Z1 & Z2) & Ly & La) G X Lu H. unfold ModelNewmark.correct in H.
    match type of H with bind ?e _ = _ => destruct e as [du| |] eqn:D; cbn [bind] in H; try discriminate end.
    match type of H with bind ?e _ = _ => destruct e as [v'| |] eqn:V; cbn [bind] in H; try discriminate end.
    match type of H with bind ?e _ = _ => destruct e as [y'| |] eqn:Y; cbn [bind] in H; try discriminate end.
    injection H as <-. split; [|split; [reflexivity|reflexivity]].
    apply map2_spec in D, V, Y. destruct D as (D1 & D2 & D3), V as (V1 & V2 & V3), Y as (Y1 & Y2 & Y3). rewrite map_length in V1.
    assert (Lu' : length u = (length (bs_gids (e_b s)) * 3)%nat) by (etransitivity; [exact Lu|apply (Z2 TU)]).
    assert (Lv' : length v' = (length (bs_gids (e_b s)) * 3)%nat).
    { etransitivity; [exact V2|]. etransitivity; [exact V1|]. etransitivity; [exact D2|exact Lu']. }
    assert (Lx : length (flat (bs_x (e_b s))) = (length (bs_gids (e_b s)) * 3)%nat) by (rewrite flat_length, Z1; reflexivity).
    split.
    { split; [|split; [cbn [e_y e_b set_field bs_gids]; etransitivity; [exact Y2|exact Lx]|cbn [e_a e_b set_field bs_gids]; rewrite map_length; etransitivity; [exact D2|exact Lu']]].
      cbn [e_b]. apply sized_set; [apply sized_set; [split; assumption|]|].
      - etransitivity; [exact Lu'|]. symmetry. apply (Z2 TU).
      - change (bs_field (set_field (e_b s) TU u) TV) with (bs_field (e_b s) TV). etransitivity; [exact Lv'|]. symmetry. apply (Z2 TV). }
    split; [exact G|]. split; [exact X|]. intros g comp I Hc. destruct (pos_in _ _ I) as (i & P). pose proof (pos_lt _ _ _ P) as Hi. rewrite <- G in P, Hi.
    assert (Hj : (i * 3 + comp < length (bs_gids (e_b s)) * 3)%nat) by nia.
    destruct (nth_lt u (i * 3 + comp)) as (ui & Nu); [rewrite Lu'; exact Hj|].
    destruct (nth_lt u2 (i * 3 + comp)) as (u2i & Nu2); [rewrite <- D1, Lu'; exact Hj|].
    destruct (nth_lt v2 (i * 3 + comp)) as (v2i & Nv2); [rewrite V1, D2, Lu'; exact Hj|].
    destruct (nth_lt (bs_x (e_b s)) i) as (Xi & NX); [rewrite Z1; exact Hi|].
    exists (coord_of Xi comp), ui, u2i, v2i, (1 / (beta * (dt * dt)) * (ui - u2i)).
    assert (Na : nth_error (map (fun e : RN => (1 / (beta * (dt * dt)) * e)%R : RN) du) (i * 3 + comp) = Some (1 / (beta * (dt * dt)) * (ui - u2i) : T RN)).
    { rewrite nth_error_map. rewrite (D3 _ _ _ Nu Nu2). reflexivity. }
    set (s' := {| e_b := _; e_y := _; e_a := _; e_mat := _ |}).
    assert (P' : pos (bs_gids (e_b s')) g = Some i) by exact P. assert (P0 : pos (bs_gids (e_b s0)) g = Some i) by (rewrite <- G; exact P).
    rewrite !(held_at s' _ g comp i P'), !(held_at s0 _ g comp i P0).
    split; [unfold position; rewrite P0, <- X, NX; reflexivity|]. split; [exact Nu|]. split; [exact Nu2|]. split; [exact Nv2|]. split; [exact Na|]. split; [reflexivity|]. split.
    - exact (V3 _ _ _ Nv2 Na).
    - exact (Y3 _ _ _ (flat_nth _ _ _ _ Hc NX) Nu).
  Qed.

  (** What an evaluation of the residual leaves. *)
  Definition loaded (tc tp : R) (s : state) : Prop :=
    exists b0, sized b0 /\ bs_gids b0 = bs_gids (e_b s) /\ bs_x b0 = bs_x (e_b s) /\
      apply_forces compiles run finite sets tc tp b0 (cs_force cs) = Ok (e_b s).

  Lemma residual_frame tc tp s s' r : complete s -> residual_of tc tp s = Ok (s', r) ->
    complete s' /\ bs_gids (e_b s') = bs_gids (e_b s) /\ bs_x (e_b s') = bs_x (e_b s) /\ e_y s' = e_y s /\ e_a s' = e_a s /\
    u_of s' = u_of s /\ v_of s' = v_of s /\ loaded tc tp s' /\
    exists f c, evaluate (e_mat s) (u_of s) (e_y s) (v_of s) = Ok (e_mat s', f, c) /\ length r = (length (bs_gids (e_b s)) * 3)%nat /\
      forall g comp, In g (bs_gids (e_b s)) -> (comp < 3)%nat ->
        exists a fi ei rh ri : R, held s' (e_a s') g comp = Some a /\ held s' f g comp = Some fi /\ held s' (ext_of s') g comp = Some ei /\
          held s' (concat (map (fun r => [r; r; r]) rho)) g comp = Some rh /\ held s' r g comp = Some ri /\
          (prescribed g comp -> ri = 0) /\ (~ prescribed g comp -> ri = beta * (dt * dt) * (rh * a - fi - ei)).
  Proof.
    intros (Sz & Ly & La) H. unfold ModelNewmark.residual_of in H.
    destruct (evaluate _ _ _ _) as [[[m f] c]| |] eqn:Ev; cbn [bind] in H; try discriminate.
    destruct (apply_forces _ _ _ _ _ _ _ _) as [b| |] eqn:Fo; cbn [bind] in H; try discriminate.
    match type of H with bind ?e _ = _ => destruct e as [ra| |] eqn:A1; cbn [bind] in H; try discriminate end.
    match type of H with bind ?e _ = _ => destruct e as [rf| |] eqn:A2; cbn [bind] in H; try discriminate end.
    match type of H with bind ?e _ = _ => destruct e as [re| |] eqn:A3; cbn [bind] in H; try discriminate end.
    match type of H with bind ?e _ = _ => destruct e as [r'| |] eqn:A4; cbn [bind] in H; try discriminate end.
    injection H as <- <-. cbn [e_b e_y e_a e_mat].
    destruct (forces_frame _ _ _ _ _ _ _ made _ _ _ _ Fo) as (G & X & S & Fr). specialize (S Sz).
    apply map2_spec in A1, A2, A3. destruct A1 as (B1 & B2 & B3), A2 as (C1 & C2 & C3), A3 as (D1 & D2 & D3).
    assert (Lrho : length (concat (map (fun r : R => [r; r; r]) rho)) = (length (bs_gids (e_b s)) * 3)%nat) by (etransitivity; [exact B1|exact La]).
    assert (Lre : length re = (length (bs_gids (e_b s)) * 3)%nat).
    { etransitivity; [exact D2|]. etransitivity; [exact C2|]. etransitivity; [exact B2|exact Lrho]. }
    assert (Lrows : length (map (fun e : RN => (beta * (dt * dt) * e)%R : RN) re) = length (dof_map mechanics_dofs (bs_gids b))).
    { rewrite map_length, dof_map_length, G. exact Lre. }
    destruct (C39_residual_entries RN show ps cs mechanics sets (bs_gids b) _ made Lrows) as (Q & _).
    destruct (Q r' A4) as (Lr & Qz & Qn). clear Q. fold mechanics_dofs in Qz, Qn.
    split; [split; [exact S|cbn [e_y e_a e_b]; rewrite G; auto]|]. split; [exact G|]. split; [exact X|]. split; [reflexivity|]. split; [reflexivity|].
    split; [|split; [|split]].
    - exact (forces_fields _ _ _ _ TU Fo ltac:(easy)).
    - exact (forces_fields _ _ _ _ TV Fo ltac:(easy)).
    - exists (e_b s). cbn [e_b]. split; [exact Sz|]. split; [now symmetry|]. split; [now symmetry|exact Fo].
    - exists f, c. split; [first [exact Ev|reflexivity]|]. split; [etransitivity; [exact Lr|]; rewrite map_length; exact Lre|]. intros g comp I Hc.
      destruct (pos_in _ _ I) as (i & P). pose proof (pos_lt _ _ _ P) as Hi.
      assert (Hj : (i * 3 + comp < length (bs_gids (e_b s)) * 3)%nat) by nia. set (j := (i * 3 + comp)%nat) in *.
      set (s' := {| e_b := b; e_y := e_y s; e_a := e_a s; e_mat := m |}).
      assert (P' : pos (bs_gids (e_b s')) g = Some i) by (cbn [s' e_b]; rewrite G; exact P).
      destruct (nth_lt (e_a s) j) as (a & Na); [rewrite La; exact Hj|].
      destruct (nth_lt f j) as (fi & Nf); [eapply Nat.lt_le_trans; [exact Hj|]; apply Nat.eq_le_incl; symmetry; etransitivity; [symmetry; exact C1|]; etransitivity; [exact B2|exact Lrho]|].
      destruct (nth_lt (bs_field b TForce) j) as (ei & Ne); [eapply Nat.lt_le_trans; [exact Hj|]; apply Nat.eq_le_incl; symmetry; etransitivity; [symmetry; exact D1|]; etransitivity; [exact C2|]; etransitivity; [exact B2|exact Lrho]|].
      destruct (nth_lt (concat (map (fun r : R => [r; r; r]) rho)) j) as (rh & Nr); [eapply Nat.lt_le_trans; [exact Hj|]; apply Nat.eq_le_incl; symmetry; exact Lrho|].
      destruct (nth_lt r' j) as (ri & Nri).
      { replace (length r') with (length (bs_gids (e_b s)) * 3)%nat; [exact Hj|]. symmetry. etransitivity; [exact Lr|]. rewrite map_length. exact Lre. }
      exists a, fi, ei, rh, ri. rewrite !(held_at s' _ g comp i P'). fold j.
      split; [exact Na|]. split; [exact Nf|]. split; [exact Ne|]. split; [exact Nr|]. split; [exact Nri|].
      assert (Pr : pos (dof_map mechanics_dofs (bs_gids b)) (3 * g + comp) = Some j).
      { change (3 * g + comp)%nat with (n_total mechanics_dofs * g + comp)%nat. rewrite dof_map_pos by exact Hc. rewrite G, P. reflexivity. }
      split.
      + intros Fx. apply (fixed_row g comp Hc) in Fx. specialize (Qz (3 * g + comp)%nat (pos_some_in _ _ _ Pr) Fx).
        unfold vec_entry in Qz. rewrite Pr in Qz. rewrite Nri in Qz. injection Qz as Qz. exact Qz.
      + intros Fx. specialize (Qn (3 * g + comp)%nat (fun Y => Fx (proj1 (fixed_row g comp Hc) Y))).
        unfold vec_entry in Qn. rewrite Pr in Qn. rewrite Nri in Qn. rewrite nth_error_map in Qn.
        rewrite (D3 _ _ _ (C3 _ _ _ (B3 _ _ _ Nr Na) Nf) Ne) in Qn. injection Qn as Qn. exact Qn.
  Qed.

  Lemma newton_inv (P : state -> list R -> Prop) tc tp u2 v2 :
    (forall k s r u s1 s2 r2, P s r -> map2_ub (add (n:=RN)) (bs_field (e_b s) TU) (solver k (map (fun e : RN => (- (1) * e)%num) r)) = Ok u ->
       correct u2 v2 u s = Ok s1 -> residual_of tc tp s1 = Ok (s2, r2) -> P s2 r2) ->
    forall left k s r s' r' k', P s r -> newton left k tc tp u2 v2 s r = Ok (s', r', k') ->
    P s' r' /\ (k <= k' <= k + left)%nat /\ (euclidean r' <= tolerance \/ k' = (k + left)%nat).
  Proof.
    intros St. induction left as [|left IH]; intros k s r s' r' k' Hp H; cbn [ModelNewmark.newton] in H.
    - injection H as <- <- <-. split; [exact Hp|]. split; [lia|]. right. lia.
    - match type of H with (if ?c then _ else _) = _ => destruct c eqn:L end.
      + match type of H with bind ?e _ = _ => destruct e as [u| |] eqn:U; cbn [bind] in H; try discriminate end.
        match type of H with bind ?e _ = _ => destruct e as [s1| |] eqn:C; cbn [bind] in H; try discriminate end.
        match type of H with bind ?e _ = _ => destruct e as [[s2 r2]| |] eqn:R2; cbn [bind] in H; try discriminate end.
        apply IH in H; [|eapply St; eassumption]. destruct H as (H1 & H2 & H3). split; [exact H1|]. split; [lia|]. destruct H3 as [H3|H3]; [now left|right; lia].
      + injection H as <- <- <-. split; [exact Hp|]. split; [lia|]. left. apply Rltb_false in L. rewrite norm_euclidean in L. exact L.
  Qed.

  Definition settled (s0 : state) u2 v2 tc tp (s : state) (r : list R) : Prop :=
    kin s0 u2 v2 s /\ out_of_balance evaluate rho prescribed dt beta s r /\ loaded tc tp s.

  Lemma residual_settled s0 u2 v2 tc tp s s' r : kin s0 u2 v2 s -> residual_of tc tp s = Ok (s', r) ->
    u_of s' = u_of s /\ settled s0 u2 v2 tc tp s' r.
  Proof.
    intros (C & G & X & K) R1. destruct (residual_frame _ _ _ _ _ C R1) as (C' & G' & X' & Ey & Ea & Hu & Hv & Ld & f & c & Ev & Lr & En).
    split; [exact Hu|]. split; [|split; [|exact Ld]].
    - split; [exact C'|]. split; [congruence|]. split; [congruence|]. intros g comp I Hc. destruct (K g comp I Hc) as (Xi & u & u2i & v2i & a & K1 & K2 & K3 & K4 & K5 & K6 & K7 & K8).
      assert (Hh : forall l, held s' l g comp = held s l g comp) by (intros l; unfold held; rewrite G'; reflexivity).
      exists Xi, u, u2i, v2i, a. rewrite !Hh, Hu, Hv, Ea, Ey. auto 10.
    - exists (e_mat s), f, c. split; [rewrite Hu, Hv, Ey; exact Ev|]. split; [rewrite G'; exact Lr|]. rewrite G'. exact En.
  Qed.

  Lemma step_settled k tc tp s s' r k' : complete s -> step k tc tp s = Ok (s', r, k') ->
    exists u2 v2, predict_u (N:=RN) dt beta (u_of s) (v_of s) (e_a s) = Ok u2 /\ predict_v (N:=RN) dt gamma (v_of s) (e_a s) = Ok v2 /\
    settled s u2 v2 tc tp s' r /\ (k <= k' <= k + Z.to_nat (max_iterations + 1))%nat /\ (euclidean r <= tolerance \/ k' = (k + Z.to_nat (max_iterations + 1))%nat) /\
    forall g comp, In g (bs_gids (e_b s)) -> (comp < 3)%nat -> prescribed g comp ->
      (forall k r i, pos (bs_gids (e_b s)) g = Some i -> nth_error r (i * 3 + comp) = Some (0 : T RN) -> nth_error (solver k r) (i * 3 + comp) = Some (0 : T RN)) ->
      held s' (u_of s') g comp = held s u2 g comp.
  Proof.
    intros C H. unfold ModelNewmark.implicit_step in H.
    match type of H with bind ?e _ = _ => destruct e as [u2| |] eqn:U; cbn [bind] in H; try discriminate end.
    match type of H with bind ?e _ = _ => destruct e as [v2| |] eqn:V; cbn [bind] in H; try discriminate end.
    match type of H with bind ?e _ = _ => destruct e as [s1| |] eqn:C1; cbn [bind] in H; try discriminate end.
    match type of H with bind ?e _ = _ => destruct e as [[s2 r2]| |] eqn:R1; cbn [bind] in H; try discriminate end.
    exists u2, v2. split; [exact U|]. split; [exact V|].
    assert (Lu2 : length u2 = length (u_of s)).
    { unfold predict_u in U. match type of U with bind ?e _ = _ => destruct e as [va| |] eqn:Ea; cbn [bind] in U; try discriminate end. apply map2_spec in U. exact (proj1 (proj2 U)). }
    destruct (correct_kin s u2 v2 u2 s s1 C eq_refl eq_refl Lu2 C1) as (K1 & Eu1 & _).
    destruct (residual_settled _ _ _ _ _ _ _ _ K1 R1) as (Eu2 & S2).
    assert (St : forall k s0 r u s1 s2 r2, settled s u2 v2 tc tp s0 r -> map2_ub (add (n:=RN)) (bs_field (e_b s0) TU) (solver k (map (fun e : RN => (- (1) * e)%num) r)) = Ok u ->
       correct u2 v2 u s0 = Ok s1 -> residual_of tc tp s1 = Ok (s2, r2) -> settled s u2 v2 tc tp s2 r2 /\ u_of s2 = u).
    { intros k0 s3 r3 u s4 s5 r5 ((C3 & G3 & X3 & _) & _) Hu Hc Hr. apply map2_spec in Hu. destruct Hu as (_ & Lu & _).
      destruct (correct_kin s u2 v2 u s3 s4 C3 G3 X3 Lu Hc) as (K4 & Eu4 & _). destruct (residual_settled _ _ _ _ _ _ _ _ K4 Hr) as (Eu5 & S5). split; [exact S5|congruence]. }
    destruct (newton_inv (settled s u2 v2 tc tp) tc tp u2 v2 (fun k0 s0 r0 u s3 s4 r4 A B D E => proj1 (St k0 s0 r0 u s3 s4 r4 A B D E)) _ _ _ _ _ _ _ S2 H) as (S' & Kk & Cv).
    split; [exact S'|]. split; [exact Kk|]. split; [exact Cv|]. intros g comp I Hc Fx Hs. destruct (pos_in _ _ I) as (i & P). rewrite (held_at s _ _ _ _ P).
    destruct (newton_inv (fun s0 r0 => settled s u2 v2 tc tp s0 r0 /\ nth_error (u_of s0) (i * 3 + comp) = nth_error u2 (i * 3 + comp)) tc tp u2 v2) with (3 := H) as ((Sf & Ef) & _).
    - intros k0 s0 r0 u s3 s4 r4 (S0 & E0) B D E. destruct (St k0 s0 r0 u s3 s4 r4 S0 B D E) as (S4 & Eu4). split; [exact S4|]. rewrite Eu4.
      destruct S0 as ((C0 & G0 & X0 & K0) & (m & f & c & _ & Lr & En) & _).
      rewrite <- G0 in I, P. destruct (En g comp I Hc) as (a & fi & ei & rh & ri & _ & _ & _ & _ & Q & Z & _). rewrite (held_at s0 _ _ _ _ P) in Q. rewrite (Z Fx) in Q.
      apply map2_spec in B. destruct B as (B1 & B2 & B3). rewrite <- E0.
      destruct (nth_lt (bs_field (e_b s0) TU) (i * 3 + comp)) as (u0 & Nu).
      { destruct C0 as ((_ & Z2) & _). rewrite Z2. apply pos_lt in P. cbn [target_dim]. nia. }
      rewrite G0 in P. assert (Nr : nth_error (map (fun e : RN => (- (1) * e)%num) r0) (i * 3 + comp) = Some (0 : T RN)).
      { rewrite nth_error_map. etransitivity; [exact (f_equal _ Q)|]. cbn. f_equal. to_R. ring. }
      pose proof (B3 _ _ _ Nu (Hs k0 _ i P Nr)) as W. etransitivity; [exact W|]. symmetry. etransitivity; [exact Nu|]. f_equal. symmetry. exact (Rplus_0_r u0).
    - split; [exact S2|]. exact (f_equal (fun l : list R => nth_error l (i * 3 + comp)) (eq_trans Eu2 Eu1)).
    - etransitivity; [|exact Ef]. apply held_at. destruct Sf as ((_ & G0 & _) & _). rewrite G0. exact P.
  Qed.

  Hypothesis beta_ok : beta <> 0.
  Hypothesis dt_ok : dt <> 0.
  Lemma predict_held (s : state) u2 v2 g comp : complete s -> predict_u (N:=RN) dt beta (u_of s) (v_of s) (e_a s) = Ok u2 -> predict_v (N:=RN) dt gamma (v_of s) (e_a s) = Ok v2 ->
    In g (bs_gids (e_b s)) -> (comp < 3)%nat -> exists u v a : R, held s (u_of s) g comp = Some u /\ held s (v_of s) g comp = Some v /\ held s (e_a s) g comp = Some a /\
      held s u2 g comp = Some (u + (dt * v + 1 / 2 * (dt * dt) * (1 - 2 * beta) * a)) /\ held s v2 g comp = Some (v + dt * (1 - gamma) * a).
  Proof.
    intros ((_ & Z2) & _ & La) U V I Hc. destruct (pos_in _ _ I) as (i & P). pose proof (pos_lt _ _ _ P) as Hi. rewrite !(held_at s _ _ _ _ P).
    assert (Hj : (i * 3 + comp < length (bs_gids (e_b s)) * 3)%nat) by nia.
    destruct (nth_lt (u_of s) (i * 3 + comp)) as (u & Nu); [unfold u_of; rewrite Z2; exact Hj|].
    destruct (nth_lt (v_of s) (i * 3 + comp)) as (v & Nv); [unfold v_of; rewrite Z2; exact Hj|].
    destruct (nth_lt (e_a s) (i * 3 + comp)) as (a & Na); [rewrite La; exact Hj|].
    exists u, v, a. split; [exact Nu|]. split; [exact Nv|]. split; [exact Na|].
    unfold predict_u in U. match type of U with bind ?e _ = _ => destruct e as [va| |] eqn:Ea; cbn [bind] in U; try discriminate end.
    apply map2_spec in Ea, U. unfold predict_v in V. apply map2_spec in V. destruct Ea as (_ & _ & A), U as (_ & _ & B), V as (_ & _ & D). split.
    - exact (B _ _ _ Nu (A _ _ _ Nv Na)).
    - exact (D _ _ _ Nv Na).
  Qed.
  Lemma settled_newmark (s : state) u2 v2 tc tp s' r : complete s -> predict_u (N:=RN) dt beta (u_of s) (v_of s) (e_a s) = Ok u2 -> predict_v (N:=RN) dt gamma (v_of s) (e_a s) = Ok v2 ->
    settled s u2 v2 tc tp s' r -> newmark dt beta gamma s s'.
  Proof.
    intros C U V ((C' & G & X & K) & _). intros g comp I Hc. destruct (K g comp I Hc) as (Xi & u' & u2i & v2i & a' & K1 & K2 & K3 & K4 & K5 & K6 & K7 & K8).
    destruct (predict_held s u2 v2 g comp C U V I Hc) as (u & v & a & P1 & P2 & P3 & P4 & P5). rewrite K3 in P4. rewrite K4 in P5. injection P4 as P4. injection P5 as P5.
    exists Xi, u, v, a, u', (v2i + dt * gamma * a'), a'. repeat (split; [assumption|]). split; [|split; [|exact K8]].
    - assert (Eu : u' = u2i + beta * (dt * dt) * a') by (rewrite K6; field; auto). rewrite Eu. change (u2i = u + (dt * v + 1 / 2 * (dt * dt) * (1 - 2 * beta) * a) :> R) in P4. rewrite P4. field.
    - change (v2i = v + dt * (1 - gamma) * a :> R) in P5. rewrite P5. ring.
  Qed.
  (** One step: everything. *)
  Lemma step_all k tc tp s s' r k' : complete s -> step k tc tp s = Ok (s', r, k') ->
    complete s' /\ bs_gids (e_b s') = bs_gids (e_b s) /\ bs_x (e_b s') = bs_x (e_b s) /\ newmark dt beta gamma s s' /\ out_of_balance evaluate rho prescribed dt beta s' r /\ loaded tc tp s' /\
    (k <= k' <= k + Z.to_nat (max_iterations + 1))%nat /\ (euclidean r <= tolerance \/ k' = (k + Z.to_nat (max_iterations + 1))%nat) /\
    forall g comp u, In g (bs_gids (e_b s)) -> (comp < 3)%nat -> prescribed g comp ->
      (forall k r i, pos (bs_gids (e_b s)) g = Some i -> nth_error r (i * 3 + comp) = Some (0 : T RN) -> nth_error (solver k r) (i * 3 + comp) = Some (0 : T RN)) ->
      held s (u_of s) g comp = Some u -> held s (v_of s) g comp = Some 0 -> held s (e_a s) g comp = Some 0 ->
      held s' (u_of s') g comp = Some u /\ held s' (v_of s') g comp = Some 0 /\ held s' (e_a s') g comp = Some 0.
  Proof.
    intros C H. destruct (step_settled _ _ _ _ _ _ _ C H) as (u2 & v2 & U & V & St & Kk & Cv & Fx). pose proof (settled_newmark _ _ _ _ _ _ _ C U V St) as Nm.
    destruct St as ((C' & G & X & K) & Ob & Ld). repeat (split; [assumption|]). intros g comp u I Hc Pr Hs Hu Hv Ha.
    pose proof (Fx g comp I Hc Pr Hs) as E. destruct (predict_held s u2 v2 g comp C U V I Hc) as (u0 & v0 & a0 & P1 & P2 & P3 & P4 & P5).
    rewrite Hu in P1. rewrite Hv in P2. rewrite Ha in P3. injection P1 as <-. injection P2 as <-. injection P3 as <-.
    destruct (K g comp I Hc) as (Xi & u' & u2i & v2i & a' & K1 & K2 & K3 & K4 & K5 & K6 & K7 & K8).
    rewrite P4 in E, K3. rewrite P5 in K4. rewrite K2 in E. injection E as E. injection K3 as K3. injection K4 as K4.
    assert (Eu : u' = u :> R) by (change (u' = u + (dt * 0 + 1 / 2 * (dt * dt) * (1 - 2 * beta) * 0) :> R) in E; rewrite E; ring).
    assert (Ea : a' = 0).
    { rewrite K6. change (u + (dt * 0 + 1 / 2 * (dt * dt) * (1 - 2 * beta) * 0) = u2i :> R) in K3. rewrite <- K3, Eu. ring. }
    assert (Ev : v2i + dt * gamma * a' = 0) by (change (0 + dt * (1 - gamma) * 0 = v2i :> R) in K4; rewrite <- K4, Ea; ring).
    split; [rewrite K2, Eu; reflexivity|]. split; [rewrite K7, Ev; reflexivity|rewrite K5, Ea; reflexivity].
  Qed.

  Notation loop := (implicit_loop (N:=RN) compiles run finite sets (cs_boundary cs) (cs_force cs) M evaluate rho mechanics mechanics_dofs solver tolerance max_iterations dt beta gamma).
  Lemma loop_run (ti : R) n : forall z k (tc tp : R) s r0 out, loop n z k ti tc tp s = Ok out -> complete s -> tc = ti + IZR z * dt ->
    length out = n /\
    forall i t1 s1 r1 k1 t2 s2 r2 k2, nth_error ((tc, s, r0, k) :: out) i = Some (t1, s1, r1, k1) -> nth_error out i = Some (t2, s2, r2, k2) ->
      t1 = ti + IZR (z + Z.of_nat i) * dt /\ t2 = ti + IZR (z + Z.of_nat i + 1) * dt /\ complete s1 /\
      exists t0, step k1 t1 t0 s1 = Ok (s2, r2, k2).
  Proof.
    induction n as [|n IH]; intros z k tc tp s r0 out H Cs Et; cbn [implicit_loop] in H.
    - injection H as <-. split; [reflexivity|]. intros [|i]; cbn; discriminate.
    - match type of H with bind ?e _ = _ => destruct e as [[[s' r'] k']| |] eqn:E; cbn [bind] in H; try discriminate end.
      match type of H with bind ?e _ = _ => destruct e as [rest| |] eqn:E2; cbn [bind] in H; try discriminate end. injection H as <-.
      destruct (step_all _ _ _ _ _ _ _ Cs E) as (C' & _).
      destruct (IH _ _ _ _ _ r' _ E2 C' eq_refl) as (L & K). split; [cbn [length]; now rewrite L|].
      intros [|i] t1 s1 r1 k1 t2 s2 r2 k2 H1 H2.
      + cbn in H1, H2. injection H1 as <- <- <- <-. injection H2 as <- <- <- <-. rewrite Z.add_0_r. split; [exact Et|]. split; [reflexivity|]. split; [exact Cs|]. exists tp. exact E.
      + cbn in H1, H2. destruct (K i t1 s1 r1 k1 t2 s2 r2 k2 H1 H2) as (K1 & K2 & K3).
        replace (z + 1 + Z.of_nat i)%Z with (z + Z.of_nat (S i))%Z in * by lia. auto.
  Qed.

  Lemma start_fields (t : R) b b' tg : apply_conds compiles run finite sets t t b (cs_boundary cs) = Ok b' -> tg = TU \/ tg = TV -> bs_field b' tg = bs_field b tg.
  Proof.
    intros H Hn. pose proof (add_all_spec show ps cs made) as ((E & _) & _). unfold apply_conds in H.
    assert (F : Forall (fun c => (cd_target c <> TU /\ cd_target c <> TV) \/ exists x y z, cd_kind c = Increment x y z) (cs_boundary cs)).
    { rewrite E. apply Forall_forall. intros c I. apply in_concat in I. destruct I as (l & Il & I). apply in_map_iff in Il. destruct Il as (p & <- & Ip).
      unfold ProofBC.made in I. apply in_map_iff in I. destruct I as (tk & <- & It). cbn [mk cd_target cd_kind].
      destruct (bp_type p); cbn in It; try easy; repeat destruct It as [<-|It]; try easy; cbn; try (left; split; discriminate); right; eauto. }
    revert b b' H. clear - F Hn. induction F as [|c l Fc F IH]; intros b0 b' H; cbn [foldM] in H; [now injection H as <-|].
    destruct (apply_cond compiles run finite sets t t b0 c) as [b1| |] eqn:E; cbn [bind] in H; try discriminate. rewrite (IH _ _ H).
    destruct Fc as [(F1 & F2)|(x & y & z & K)].
    - eapply cond_fields; [exact E|]. destruct Hn; subst; congruence.
    - unfold apply_cond in E. rewrite K in E. assert (T : eqb (n:=RN) t t = true) by now apply Reqb_true. rewrite T in E. now injection E as <-.
  Qed.

  Variable floorZ : RN -> option Z.
  Notation execute := (execute_implicit (N:=RN) floorZ compiles run finite sets (cs_boundary cs) (cs_force cs) M evaluate rho mechanics mechanics_dofs solver tolerance max_iterations dt beta gamma).
  Lemma exec_run (ti tf : R) s out : complete s -> execute ti tf s = Ok out ->
    exists n s0, number_of_steps floorZ (ti : RN) tf dt = Ok n /\ length out = S (Z.to_nat n) /\ nth_error out 0 = Some (ti, s0, [], 0%nat) /\
      complete s0 /\ bs_gids (e_b s0) = bs_gids (e_b s) /\ bs_x (e_b s0) = bs_x (e_b s) /\ u_of s0 = u_of s /\ v_of s0 = v_of s /\ e_a s0 = e_a s /\
      forall i t1 s1 r1 k1 t2 s2 r2 k2, nth_error out i = Some (t1, s1, r1, k1) -> nth_error out (S i) = Some (t2, s2, r2, k2) ->
        t1 = ti + INR i * dt /\ t2 = ti + INR (S i) * dt /\ complete s1 /\ exists t0, step k1 t1 t0 s1 = Ok (s2, r2, k2).
  Proof.
    intros (Sz & Ly & La) H. unfold execute_implicit in H. destruct (number_of_steps floorZ _ _ _) as [n| |] eqn:En; cbn [bind] in H; try discriminate.
    destruct (apply_conds _ _ _ _ _ _ _ _) as [b2| |] eqn:B2; cbn [bind] in H; try discriminate.
    destruct (apply_forces _ _ _ _ _ _ _ _) as [b3| |] eqn:B3; cbn [bind] in H; try discriminate.
    match type of H with bind ?e _ = _ => destruct e as [r| |] eqn:Er; cbn [bind] in H; try discriminate end. injection H as <-.
    pose proof (start_fields _ _ _ TU B2 (or_introl eq_refl)) as U2. pose proof (start_fields _ _ _ TV B2 (or_intror eq_refl)) as V2.
    pose proof (forces_fields _ _ _ _ TU B3 ltac:(easy)) as U3. pose proof (forces_fields _ _ _ _ TV B3 ltac:(easy)) as V3.
    eapply conds_frame in B2; [|exact made]. destruct B2 as (G2 & X2 & S2 & _). eapply forces_frame in B3; [|exact made]. destruct B3 as (G3 & X3 & S3 & _).
    set (s0 := {| e_b := b3; e_y := e_y s; e_a := e_a s; e_mat := e_mat s |}) in *.
    assert (C0 : complete s0) by (split; [exact (S3 (S2 Sz))|cbn [s0 e_y e_a e_b]; rewrite G3, G2; auto]).
    exists n, s0. split; [reflexivity|]. destruct (loop_run ti (Z.to_nat n) 0%Z 0%nat ti ti s0 [] r Er C0) as (L & K); [cbn; ring|].
    split; [cbn [length]; now rewrite L|]. split; [reflexivity|]. split; [exact C0|]. split; [cbn; congruence|]. split; [cbn; congruence|].
    split; [unfold u_of; cbn [s0 e_b]; congruence|]. split; [unfold v_of; cbn [s0 e_b]; congruence|]. split; [reflexivity|].
    intros i t1 s1 r1 k1 t2 s2 r2 k2 H1 H2. cbn [nth_error] in H2. destruct (K i t1 s1 r1 k1 t2 s2 r2 k2 H1 H2) as (K1 & K2 & K3 & K4).
    rewrite Z.add_0_l in K1, K2. rewrite S_INR, INR_IZR_INZ. split; [exact K1|]. split; [rewrite K2, plus_IZR; reflexivity|]. auto.
  Qed.

  (** Runs that succeed. *)
  Variable n : nat.
  Hypothesis Hc : forall t, compiles t = true.
  Hypothesis Hr : forall t x tm v, run t x tm v <> None.
  Hypothesis Hf : forall v, finite v = true.
  Hypothesis Hs : forall p, In p ps -> sets (tidy (bp_set p)) <> None.
  Hypothesis Hn : length rho = n.
  Hypothesis He : always_evaluates finite n evaluate.
  Hypothesis Hsol : forall k r, length r = (3 * n)%nat -> length (solver k r) = (3 * n)%nat.

  Lemma correct_ok u2 v2 u (s : state) : complete s -> length (bs_gids (e_b s)) = n -> length u2 = (3 * n)%nat -> length v2 = (3 * n)%nat -> length u = (3 * n)%nat ->
    exists s', correct u2 v2 u s = Ok s'.
  Proof.
    intros ((Z1 & Z2) & Ly & La) Ln L2 Lv Lu. unfold ModelNewmark.correct.
    destruct (map2_ok (sub (n:=RN)) u u2) as (du & D); [congruence|]. rewrite D. cbn [bind]. apply map2_spec in D. destruct D as (_ & D & _).
    match goal with |- exists _, bind (map2_ub ?f ?l ?m) _ = _ => destruct (map2_ok f l m) as (v & V) end.
    { rewrite map_length. etransitivity; [exact Lv|]. symmetry. etransitivity; [exact D|exact Lu]. }
    rewrite V. cbn [bind].
    match goal with |- exists _, bind (map2_ub ?f ?l ?m) _ = _ => destruct (map2_ok f l m) as (y & Y) end.
    { rewrite flat_length, Z1, Ln. etransitivity; [|symmetry; exact Lu]. lia. }
    rewrite Y. cbn [bind]. eauto.
  Qed.
  Lemma residual_ok tc tp (s : state) : complete s -> length (bs_gids (e_b s)) = n -> exists s' r, residual_of tc tp s = Ok (s', r).
  Proof.
    intros ((Z1 & Z2) & Ly & La) Ln. unfold ModelNewmark.residual_of.
    destruct (He (e_mat s) (bs_field (e_b s) TU) (e_y s) (bs_field (e_b s) TV)) as (m & f & c & Ev & Lf & _).
    { rewrite Z2, Ln; cbn [target_dim]; lia. } { rewrite Ly, Ln; lia. } { rewrite Z2, Ln; cbn [target_dim]; lia. }
    rewrite Ev. cbn [bind].
    destruct (forces_succeed compiles run finite sets show ps cs made Hc Hr Hf Hs tc tp (e_b s) (conj Z1 Z2)) as (b & B). rewrite B. cbn [bind].
    eapply forces_frame in B; [|exact made]. destruct B as (G & X & S & _). specialize (S (conj Z1 Z2)). destruct S as (T1 & T2).
    match goal with |- exists _ _, bind (map2_ub ?f ?l ?m) _ = _ => destruct (map2_ok f l m) as (ra & A1) end.
    { etransitivity; [exact (rep_length rho)|]. rewrite Hn, La, Ln. reflexivity. }
    rewrite A1. cbn [bind]. apply map2_spec in A1. destruct A1 as (A0 & A1 & _).
    assert (L1 : length ra = (n * 3)%nat) by (etransitivity; [exact A1|]; etransitivity; [exact A0|]; rewrite La, Ln; reflexivity).
    match goal with |- exists _ _, bind (map2_ub ?f ?l ?m) _ = _ => destruct (map2_ok f l m) as (rf & A2) end.
    { etransitivity; [exact L1|]. rewrite Lf. lia. }
    rewrite A2. cbn [bind]. apply map2_spec in A2. destruct A2 as (_ & A2 & _).
    assert (L2 : length rf = (n * 3)%nat) by (etransitivity; [exact A2|exact L1]).
    match goal with |- exists _ _, bind (map2_ub ?f ?l ?m) _ = _ => destruct (map2_ok f l m) as (re & A3) end.
    { etransitivity; [exact L2|]. rewrite T2, G, Ln. reflexivity. }
    rewrite A3. cbn [bind]. apply map2_spec in A3. destruct A3 as (_ & A3 & _).
    match goal with |- exists _ _, bind (insert_zeros _ _ ?rows _ _ ?v) _ = _ => assert (Lv : length v = length rows) end.
    { rewrite map_length, dof_map_length, G, Ln. etransitivity; [exact A3|exact L2]. }
    destruct (C39_residual_entries RN show ps cs mechanics sets (bs_gids b) _ made Lv) as (_ & Q). destruct Q as (r & R).
    { intros c0 I. pose proof (add_all_spec show ps cs made) as ((E & _) & _). rewrite E in I. apply in_concat in I. destruct I as (l & Il & I). apply in_map_iff in Il. destruct Il as (p & <- & Ip).
      unfold ProofBC.made in I. apply in_map_iff in I. destruct I as (tk & <- & It). cbn. now apply Hs. }
    fold mechanics_dofs in R. exists {| e_b := b; e_y := e_y s; e_a := e_a s; e_mat := m |}, r. rewrite R. reflexivity.
  Qed.
  Lemma newton_ok (s0 : state) tc tp u2 v2 : length (bs_gids (e_b s0)) = n -> length u2 = (3 * n)%nat -> length v2 = (3 * n)%nat ->
    forall left k s r, kin s0 u2 v2 s -> length r = (3 * n)%nat -> exists s' r' k', newton left k tc tp u2 v2 s r = Ok (s', r', k').
  Proof.
    intros Ln L2 Lv. induction left as [|left IH]; intros k s r K Lr; cbn [ModelNewmark.newton]; [eauto|].
    match goal with |- exists _ _ _, (if ?c then _ else _) = _ => destruct c end; [|eauto].
    destruct K as (C & G & X & K). pose proof C as ((Z1 & Z2) & Ly & La).
    match goal with |- exists _ _ _, bind (map2_ub ?f ?l ?m) _ = _ => destruct (map2_ok f l m) as (u & U) end.
    { rewrite Hsol; [rewrite Z2, G, Ln; cbn [target_dim]; lia|rewrite map_length; exact Lr]. }
    rewrite U. cbn [bind]. apply map2_spec in U. destruct U as (_ & Lu & _).
    destruct (correct_ok u2 v2 u s C ltac:(congruence) L2 Lv) as (s1 & C1); [etransitivity; [exact Lu|]; rewrite Z2, G, Ln; cbn [target_dim]; lia|].
    rewrite C1. cbn [bind]. destruct (correct_kin s0 u2 v2 u s s1 C G X Lu C1) as (K1 & _).
    destruct (residual_ok tc tp s1 (proj1 K1)) as (s2 & r2 & R2); [destruct K1 as (_ & G1 & _); congruence|].
    rewrite R2. cbn [bind]. destruct (residual_settled _ _ _ _ _ _ _ _ K1 R2) as (_ & K2 & (m & f & c & _ & L & _) & _). apply IH; [exact K2|].
    etransitivity; [exact L|]. destruct K2 as (_ & G2 & _). rewrite G2, Ln. lia.
  Qed.
  Lemma step_ok k tc tp (s : state) : complete s -> length (bs_gids (e_b s)) = n -> exists s' r k', step k tc tp s = Ok (s', r, k').
  Proof.
    intros C Ln. pose proof C as ((Z1 & Z2) & Ly & La). unfold ModelNewmark.implicit_step, predict_u, predict_v.
    assert (LV : length (bs_field (e_b s) TV) = length (e_a s)) by (rewrite La, Z2; reflexivity).
    match goal with |- context [bind (bind (map2_ub ?f ?l ?m) _)] => destruct (map2_ok f l m LV) as (va & Ea) end. rewrite Ea. cbn [bind]. apply map2_spec in Ea. destruct Ea as (_ & Ea & _).
    destruct (map2_ok (add (n:=RN)) (bs_field (e_b s) TU) va) as (u2 & U).
    { etransitivity; [apply (Z2 TU)|]. symmetry. etransitivity; [exact Ea|]. apply (Z2 TV). }
    rewrite U. cbn [bind]. apply map2_spec in U. destruct U as (_ & Lu & _).
    match goal with |- context [bind (map2_ub ?f ?l ?m)] => destruct (map2_ok f l m LV) as (v2 & V) end. rewrite V. cbn [bind]. apply map2_spec in V. destruct V as (_ & Lv & _).
    assert (L2 : length u2 = (3 * n)%nat) by (etransitivity; [exact Lu|]; rewrite Z2, Ln; cbn [target_dim]; lia).
    assert (L3 : length v2 = (3 * n)%nat) by (etransitivity; [exact Lv|]; rewrite Z2, Ln; cbn [target_dim]; lia).
    destruct (correct_ok u2 v2 u2 s C Ln L2 L3 L2) as (s1 & C1). rewrite C1. cbn [bind].
    destruct (correct_kin s u2 v2 u2 s s1 C eq_refl eq_refl Lu C1) as (K1 & _).
    destruct (residual_ok tc tp s1 (proj1 K1)) as (s2 & r2 & R2); [destruct K1 as (_ & G1 & _); congruence|].
    rewrite R2. cbn [bind]. destruct (residual_settled _ _ _ _ _ _ _ _ K1 R2) as (_ & K2 & (m & f & c & _ & L & _) & _). apply (newton_ok s); auto.
    etransitivity; [exact L|]. destruct K2 as (_ & G2 & _). rewrite G2, Ln. lia.
  Qed.
  Lemma loop_ok (ti : R) j : forall z k tc tp s, complete s -> length (bs_gids (e_b s)) = n -> exists out, loop j z k ti tc tp s = Ok out.
  Proof.
    induction j as [|j IH]; intros z k tc tp s C Ln; cbn [implicit_loop]; [eauto|].
    destruct (step_ok k tc tp s C Ln) as (s' & r & k' & E). rewrite E. cbn [bind]. destruct (step_all _ _ _ _ _ _ _ C E) as (C' & G & _).
    match goal with |- exists _, bind (loop _ ?a ?b _ ?c ?d _) _ = _ => destruct (IH a b c d s' C' ltac:(congruence)) as (out & O) end. rewrite O. cbn [bind]. eauto.
  Qed.
  Lemma exec_ok (ti tf : R) s k : complete s -> length (bs_gids (e_b s)) = n -> number_of_steps floorZ (ti : RN) tf dt = Ok k -> exists out, execute ti tf s = Ok out.
  Proof.
    intros (Sz & Ly & La) Ln En. unfold execute_implicit. rewrite En. cbn [bind].
    destruct (conds_succeed compiles run finite sets show ps cs made Hc Hr Hf Hs ti ti (e_b s) Sz) as (b2 & B2). rewrite B2. cbn [bind].
    eapply conds_frame in B2; [|exact made]. destruct B2 as (G2 & X2 & S2 & _). specialize (S2 Sz).
    destruct (forces_succeed compiles run finite sets show ps cs made Hc Hr Hf Hs ti ti b2 S2) as (b3 & B3). rewrite B3. cbn [bind].
    eapply forces_frame in B3; [|exact made]. destruct B3 as (G3 & X3 & S3 & _). specialize (S3 S2).
    match goal with |- exists _, bind (loop ?j ?z ?k _ ?a ?b ?s0) _ = _ => destruct (loop_ok ti j z k a b s0) as (out & O) end.
    { split; [exact S3|cbn [e_y e_a e_b]; rewrite G3, G2; auto]. } { cbn [e_b]. congruence. }
    rewrite O. cbn [bind]. eauto.
  Qed.
End Kin.

(** ** Values of prescribed displacements do not matter *)
Section Same.
  Variables (compiles : string -> bool) (run : string -> V3 RN -> RN -> RN -> option RN) (finite : RN -> bool).
  Variable sets : string -> option (list nat).
  Context {M : Type}.
  Variable evaluate : M -> list RN -> list RN -> list RN -> outcome (M * list RN * option (list RN)).
  Variable rho : list R.
  Variables (p : physics) (d : dofs).
  Variable solver : nat -> list RN -> list RN.
  Variables (tolerance : R) (max_iterations : Z) (dt beta gamma : R).

  Definition alike (c1 c2 : cond RN) : Prop :=
    c1 = c2 \/ (cd_type c1 = cd_type c2 /\ cd_set c1 = cd_set c2 /\ cd_coord c1 = cd_coord c2 /\ (exists x y z, cd_kind c1 = Increment x y z) /\ exists x y z, cd_kind c2 = Increment x y z).
  Variables bo1 bo2 forces : list (cond RN).
  Hypothesis same : Forall2 alike bo1 bo2.

  Lemma zeros_same rows v : insert_zeros (N:=RN) p d rows sets bo1 v = insert_zeros p d rows sets bo2 v.
  Proof.
    revert v. unfold insert_zeros. induction same as [|c1 c2 l1 l2 A F IH]; intros v; [reflexivity|]. cbn [foldM].
    assert (E : cd_type c1 = cd_type c2 /\ cd_set c1 = cd_set c2 /\ cd_coord c1 = cd_coord c2) by (destruct A as [->|(? & ? & ? & _)]; auto).
    destruct E as (-> & -> & ->). match goal with |- bind ?e _ = bind ?e _ => destruct e; cbn [bind]; auto end.
  Qed.
  Lemma conds_same (t : R) b : apply_conds compiles run finite sets t t b bo1 = apply_conds compiles run finite sets t t b bo2.
  Proof.
    revert b. unfold apply_conds. induction same as [|c1 c2 l1 l2 A F IH]; intros b; [reflexivity|]. cbn [foldM].
    assert (E : apply_cond compiles run finite sets t t b c1 = apply_cond compiles run finite sets t t b c2).
    { destruct A as [->|(_ & _ & _ & (x1 & y1 & z1 & K1) & x2 & y2 & z2 & K2)]; [reflexivity|]. unfold apply_cond. rewrite K1, K2.
      assert (T : eqb (n:=RN) t t = true) by now apply Reqb_true. rewrite T. reflexivity. }
    rewrite E. destruct (apply_cond compiles run finite sets t t b c2); cbn [bind]; auto.
  Qed.
  Lemma residual_same tc tp s : residual_of (N:=RN) compiles run finite sets bo1 forces M evaluate rho p d dt beta tc tp s = residual_of compiles run finite sets bo2 forces M evaluate rho p d dt beta tc tp s.
  Proof.
    unfold residual_of. destruct (evaluate _ _ _ _) as [[[m f] c]| |]; cbn [bind]; try reflexivity.
    repeat (match goal with |- bind ?e _ = bind ?e _ => destruct e; cbn [bind]; try reflexivity end). rewrite zeros_same. reflexivity.
  Qed.
  Lemma newton_same left : forall k tc tp u2 v2 s r, newton (N:=RN) compiles run finite sets bo1 forces M evaluate rho p d solver tolerance dt beta gamma left k tc tp u2 v2 s r =
    newton compiles run finite sets bo2 forces M evaluate rho p d solver tolerance dt beta gamma left k tc tp u2 v2 s r.
  Proof.
    induction left as [|left IH]; intros k tc tp u2 v2 s r; [reflexivity|]. cbn [newton]. match goal with |- (if ?c then _ else _) = _ => destruct c; [|reflexivity] end.
    match goal with |- bind ?e _ = bind ?e _ => destruct e; cbn [bind]; try reflexivity end. match goal with |- bind ?e _ = bind ?e _ => destruct e; cbn [bind]; try reflexivity end.
    rewrite residual_same. match goal with |- bind ?e _ = bind ?e _ => destruct e as [[s2 r2]| |]; cbn [bind]; try reflexivity end. apply IH.
  Qed.
  Lemma step_same k tc tp s : implicit_step (N:=RN) compiles run finite sets bo1 forces M evaluate rho p d solver tolerance max_iterations dt beta gamma k tc tp s =
    implicit_step compiles run finite sets bo2 forces M evaluate rho p d solver tolerance max_iterations dt beta gamma k tc tp s.
  Proof.
    unfold implicit_step. repeat (match goal with |- bind (predict_u _ _ _ _ _) _ = _ => idtac | |- bind (predict_v _ _ _ _) _ = _ => idtac | |- bind (correct _ _ _ _ _ _ _ _) _ = _ => idtac end;
      match goal with |- bind ?e _ = bind ?e _ => destruct e; cbn [bind]; try reflexivity end).
    rewrite residual_same. match goal with |- bind ?e _ = bind ?e _ => destruct e as [[s2 r2]| |]; cbn [bind]; try reflexivity end. apply newton_same.
  Qed.
  Lemma loop_same n : forall z k ti tc tp s, implicit_loop (N:=RN) compiles run finite sets bo1 forces M evaluate rho p d solver tolerance max_iterations dt beta gamma n z k ti tc tp s =
    implicit_loop compiles run finite sets bo2 forces M evaluate rho p d solver tolerance max_iterations dt beta gamma n z k ti tc tp s.
  Proof.
    induction n as [|n IH]; intros z k ti tc tp s; [reflexivity|]. cbn [implicit_loop]. rewrite step_same.
    match goal with |- bind ?e _ = bind ?e _ => destruct e as [[[s2 r2] k2]| |]; cbn [bind]; try reflexivity end. rewrite IH. reflexivity.
  Qed.
  Lemma exec_same floorZ ti tf s : execute_implicit (N:=RN) floorZ compiles run finite sets bo1 forces M evaluate rho p d solver tolerance max_iterations dt beta gamma ti tf s =
    execute_implicit floorZ compiles run finite sets bo2 forces M evaluate rho p d solver tolerance max_iterations dt beta gamma ti tf s.
  Proof.
    unfold execute_implicit. match goal with |- bind ?e _ = bind ?e _ => destruct e; cbn [bind]; try reflexivity end. rewrite conds_same.
    match goal with |- bind ?e _ = bind ?e _ => destruct e; cbn [bind]; try reflexivity end. match goal with |- bind ?e _ = bind ?e _ => destruct e; cbn [bind]; try reflexivity end.
    rewrite loop_same. reflexivity.
  Qed.
End Same.
