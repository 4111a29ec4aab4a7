(** * Proofs for the explicit solver *)
From Coq Require Import String Reals Lra.
From Verif Require Import Base Num SpecGlobal ProofGlobal ModelScalar ModelInput ModelBC SpecBC ProofBC ProofBC2 ModelForce SpecForce ModelExplicit SpecExplicit.
Local Open Scope R_scope.

Lemma map2_spec {A B C} (f : A -> B -> C) l : forall m r, map2_ub f l m = Ok r ->
  length l = length m /\ length r = length l /\
  forall i a b, nth_error l i = Some a -> nth_error m i = Some b -> nth_error r i = Some (f a b).
Proof.
  induction l as [|a l IH]; intros [|b m] r H; cbn [map2_ub] in H; try discriminate.
  - injection H as <-. repeat split; auto. intros [|i]; discriminate.
  - destruct (map2_ub f l m) as [r'| |] eqn:E; cbn [bind] in H; try discriminate. injection H as <-.
    destruct (IH m r' E) as (L1 & L2 & L3). cbn [length]. split; [congruence|]. split; [congruence|].
    intros [|i] a' b'; cbn [nth_error]; [intros H1 H2; injection H1 as <-; injection H2 as <-; reflexivity|apply L3].
Qed.
Lemma map2_ok {A B C} (f : A -> B -> C) l : forall m, length l = length m -> exists r, map2_ub f l m = Ok r.
Proof.
  induction l as [|a l IH]; intros [|b m] H; try discriminate; [exists []; reflexivity|].
  injection H as H. destruct (IH m H) as (r & E). exists (f a b :: r). cbn [map2_ub]. rewrite E. reflexivity.
Qed.
Lemma nth_lt {A} (l : list A) i : (i < length l)%nat -> exists a, nth_error l i = Some a.
Proof. intros H. destruct (nth_error l i) eqn:E; [eauto|]. apply nth_error_None in E. lia. Qed.
Lemma flat_length {N : Num} (x : list (V3 N)) : length (flat x) = (length x * 3)%nat.
Proof. induction x as [|p x IH]; [reflexivity|]. unfold flat in *. cbn [map concat app length]. rewrite IH. reflexivity. Qed.
Lemma flat_nth (x : list (V3 RN)) i comp X : (comp < 3)%nat -> nth_error x i = Some X -> nth_error (flat x) (i * 3 + comp) = Some (coord_of X comp : T RN).
Proof.
  revert i; induction x as [|p x IH]; intros [|i] Hc H; try discriminate.
  - injection H as ->. destruct comp as [|[|[|]]]; try lia; reflexivity.
  - change (nth_error (flat (p :: x)) (S i * 3 + comp)) with (nth_error (flat x) (i * 3 + comp)). now apply IH.
Qed.
Lemma rep_length (rho : list R) : length (concat (map (fun r => [r; r; r]) rho)) = (length rho * 3)%nat.
Proof. induction rho as [|r t IH]; [reflexivity|]. cbn [map concat app length]. rewrite IH. reflexivity. Qed.

Section Steps.
  Variables (compiles : string -> bool) (run : string -> V3 RN -> RN -> RN -> option RN) (finite : RN -> bool).
  Variable sets : string -> option (list nat).
  Variables (show : RN -> string) (ps : list (bc_params RN)) (cs : conds RN).
  Context {M : Type}.
  Variable evaluate : M -> list RN -> list RN -> list RN -> outcome (M * list RN * option (list RN)).
  Variable rho : list R.
  Hypothesis made : add_all show ps = Ok cs.

  Notation step := (explicit_step compiles run finite sets (cs_boundary cs) (cs_force cs) M evaluate rho).
  Notation prescribed_in := (SpecExplicit.prescribed_in sets ps).

  Lemma conds_frame tc tp s s' : apply_conds compiles run finite sets tc tp s (cs_boundary cs) = Ok s' ->
    bs_gids s' = bs_gids s /\ bs_x s' = bs_x s /\ (sized s -> sized s') /\
    forall tg g comp, (comp < target_dim tg)%nat -> (forall p, In p ps -> ~ concerns boundary_writes sets p tg g comp) ->
      value_at s' tg g comp = value_at s tg g comp.
  Proof.
    intros H. pose proof (add_all_spec show ps cs made) as ((E & G) & _).
    unfold apply_conds in H. rewrite E in H. destruct (frame_of show compiles run finite _ _ bk_w _ _ _ _ _ _ G H) as ((A1 & A2 & A3) & B). auto.
  Qed.
  Lemma forces_frame tc tp s s' : apply_forces compiles run finite sets tc tp s (cs_force cs) = Ok s' ->
    bs_gids s' = bs_gids s /\ bs_x s' = bs_x s /\ (sized s -> sized s') /\
    forall tg g comp, (comp < target_dim tg)%nat -> tg <> TForce -> value_at s' tg g comp = value_at s tg g comp.
  Proof.
    intros H. pose proof (add_all_spec show ps cs made) as (_ & _ & (E & G)).
    unfold apply_forces in H. rewrite E in H. set (s0 := set_field s TForce _) in H.
    destruct (frame_of show compiles run finite _ _ (pl_w force_writes) _ _ _ _ _ _ G H) as ((A1 & A2 & A3) & B).
    split; [exact A1|]. split; [exact A2|]. split.
    - intros (Z1 & Z2). apply A3. split; [exact Z1|]. intros tg. unfold s0. cbn [set_field bs_field bs_gids].
      destruct (target_eqb_spec TForce tg) as [<-|]; [rewrite map_length|]; apply Z2.
    - intros tg g comp Hc Hn. rewrite B; [|exact Hc|].
      + unfold value_at, s0. cbn [set_field bs_gids bs_field]. destruct (target_eqb_spec TForce tg); [congruence|reflexivity].
      + intros p _ (X & _). destruct (bp_type p); cbn in X; try easy. destruct X as [X|[]]; congruence.
  Qed.
  Lemma no_boundary_u p g comp : ~ concerns (N:=RN) boundary_writes sets p TU g comp.
  Proof. intros (X & _). destruct (bp_type p); cbn in X; intuition discriminate. Qed.

  Ltac inv H := repeat match type of H with
    | bind ?e _ = Ok _ => let E := fresh "E" in destruct e as [?| |] eqn:E; cbn [bind] in H; try discriminate H
    | (if ?b then _ else _) = Ok _ => let E := fresh "C" in destruct b eqn:E; try discriminate H
    end.

  Lemma force_inv check m b y ext m' b' a : force_and_acceleration finite M evaluate rho check m b y ext = Ok (m', b', a) ->
    ext = Ok b' /\ exists f c f2, evaluate m (bs_field b TU) y (bs_field b TV) = Ok (m', f, c) /\
      (match c with None => f2 = f | Some cf => map2_ub (fun f c : RN => (c + f)%R : RN) f cf = Ok f2 end) /\
      acceleration (N:=RN) rho f2 (bs_field b' TForce) = Ok a.
  Proof.
    unfold force_and_acceleration. intros H.
    destruct (evaluate m (bs_field b TU) y (bs_field b TV)) as [[[m1 f] c]| |] eqn:E1; cbn [bind] in H; try discriminate.
    destruct ext as [b1| |]; cbn [bind] in H; try discriminate.
    destruct (check && negb (forallb finite f))%bool; try discriminate.
    destruct (check && negb (forallb finite (bs_field b1 TForce)))%bool; try discriminate.
    destruct c as [cf|].
    - destruct (check && negb (forallb finite cf))%bool; cbn [bind] in H; try discriminate.
      match type of H with bind ?e _ = _ => destruct e as [f2| |] eqn:E2; cbn [bind] in H; try discriminate end.
      destruct (acceleration (N:=RN) rho f2 (bs_field b1 TForce)) as [a1| |] eqn:E3; cbn [bind] in H; try discriminate.
      injection H as <- <- <-. split; [reflexivity|]. exists f, (Some cf), f2. auto.
    - cbn [bind] in H. destruct (acceleration (N:=RN) rho f (bs_field b1 TForce)) as [a1| |] eqn:E3; cbn [bind] in H; try discriminate.
      injection H as <- <- <-. split; [reflexivity|]. exists f, None, f. auto.
  Qed.
  Lemma acc_inv f e a : acceleration (N:=RN) rho f e = Ok a -> length f = length e /\ length a = length f /\ length a = (length rho * 3)%nat /\
    forall i fi ei r, nth_error f i = Some fi -> nth_error e i = Some ei -> nth_error (concat (map (fun r => [r; r; r]) rho)) i = Some r ->
      nth_error a i = Some ((fi + ei) / r : T RN).
  Proof.
    unfold acceleration. intros H. destruct (map2_ub add f e) as [s| |] eqn:E; cbn [bind] in H; try discriminate.
    apply map2_spec in E. destruct E as (L1 & L2 & L3). apply map2_spec in H. destruct H as (K1 & K2 & K3).
    split; [exact L1|]. split; [congruence|]. split; [rewrite K2; etransitivity; [exact K1|]; apply rep_length|].
    intros i fi ei r F1 F2 F3. exact (K3 i _ _ (L3 i fi ei F1 F2) F3).
  Qed.

  Lemma sized_set (s : bstate RN) tg l : sized s -> length l = length (bs_field s tg) -> sized (set_field s tg l).
  Proof.
    intros (S1 & S2) L. split; [exact S1|]. intros t. cbn [set_field bs_field bs_gids]. destruct (target_eqb_spec tg t) as [<-|]; [rewrite L|]; apply S2.
  Qed.
  Lemma field_set (s : bstate RN) tg l : bs_field (set_field s tg l) tg = l.
  Proof. cbn [set_field bs_field]. destruct (target_eqb_spec tg tg); congruence. Qed.
  Lemma field_other (s : bstate RN) tg l t : t <> tg -> bs_field (set_field s tg l) t = bs_field s t.
  Proof. intros H. cbn [set_field bs_field]. destruct (target_eqb_spec tg t); congruence. Qed.

  Lemma step_frame dt tc tp s s' : complete s -> step dt tc tp s = Ok s' ->
    complete s' /\ bs_gids (e_b s') = bs_gids (e_b s) /\ bs_x (e_b s') = bs_x (e_b s) /\
    verlet evaluate rho prescribed_in dt s s'.
  Proof.
    intros ((Z1 & Z2) & Ly & La) H. unfold explicit_step in H.
    destruct (kick M dt s) as [b1| |] eqn:K; cbn [bind] in H; try discriminate.
    unfold kick in K. destruct (axpy (dt / 2)%num (e_a s) (bs_field (e_b s) TV)) as [v1| |] eqn:V1; cbn [bind] in K; try discriminate. injection K as <-.
    destruct (apply_conds _ _ _ _ _ _ _ _) as [b2| |] eqn:B2; cbn [bind] in H; try discriminate.
    destruct (apply_forces _ _ _ _ _ _ _ _) as [b3| |] eqn:B3; cbn [bind] in H; try discriminate.
    destruct (map2_ub add (flat (bs_x b3)) (bs_field b3 TU)) as [xu| |] eqn:XU; cbn [bind] in H; try discriminate.
    match type of H with bind ?e _ = _ => destruct e as [y'| |] eqn:Y; cbn [bind] in H; try discriminate end.
    destruct (axpy dt (bs_field b3 TV) (bs_field b3 TU)) as [u'| |] eqn:U; cbn [bind] in H; try discriminate.
    match type of H with bind ?e _ = _ => destruct e as [[[m' b4] a']| |] eqn:F; cbn [bind] in H; try discriminate end.
    destruct (axpy (dt / 2)%num a' (bs_field b4 TV)) as [v'| |] eqn:V2; cbn [bind] in H; try discriminate. injection H as <-.
    apply force_inv in F. destruct F as (Fb & f & c & f2 & Fe & Fc & Fa). injection Fb as <-.
    apply conds_frame in B2. destruct B2 as (G2 & X2 & S2 & Fr2). apply forces_frame in B3. destruct B3 as (G3 & X3 & S3 & Fr3).
    apply map2_spec in V1. destruct V1 as (V1a & V1b & V1c).
    assert (Sz1 : sized (set_field (e_b s) TV v1)) by (apply sized_set; [split; assumption|]; transitivity (length (e_a s)); assumption).
    apply S2 in Sz1. apply S3 in Sz1. destruct Sz1 as (T1 & T2).
    cbn [set_field bs_gids bs_x] in G2, X2.
    assert (G : bs_gids b3 = bs_gids (e_b s)) by congruence. assert (Xx : bs_x b3 = bs_x (e_b s)) by congruence.
    apply map2_spec in XU. destruct XU as (XUa & XUb & XUc). apply map2_spec in Y. destruct Y as (Ya & Yb & Yc).
    apply map2_spec in U. destruct U as (Ua & Ub & Uc). apply map2_spec in V2. destruct V2 as (V2a & V2b & V2c).
    apply acc_inv in Fa. destruct Fa as (Fa1 & Fa2 & Fa3 & Fa4).
    assert (LU : length (bs_field b3 TU) = (length (bs_gids (e_b s)) * 3)%nat) by (rewrite T2, G; reflexivity).
    assert (LV : length (bs_field b3 TV) = (length (bs_gids (e_b s)) * 3)%nat) by (rewrite T2, G; reflexivity).
    assert (LE : length (bs_field b3 TForce) = (length (bs_gids (e_b s)) * 3)%nat) by (rewrite T2, G; reflexivity).
    change (bs_field (set_field b3 TU u') TForce) with (bs_field b3 TForce) in *.
    change (bs_field (set_field b3 TU u') TV) with (bs_field b3 TV) in *.
    change (bs_field (set_field b3 TU u') TU) with u' in *.
    assert (Lu' : length u' = length (bs_field b3 TU)) by (rewrite Ub; exact Ua).
    assert (La' : length a' = (length (bs_gids (e_b s)) * 3)%nat).
    { transitivity (length (bs_field b3 TForce)); [|exact LE]. transitivity (length f2); [exact Fa2|exact Fa1]. }
    assert (Lv' : length v' = length (bs_field b3 TV)) by (etransitivity; [exact V2b|exact V2a]).
    assert (Lyn : length y' = (length (bs_gids (e_b s)) * 3)%nat).
    { etransitivity; [exact Yb|]. etransitivity; [exact Ya|exact LV]. }
    split; [|split; [exact G|split; [exact Xx|]]].
    - split; [|split; [cbn [e_y e_b set_field bs_gids]; rewrite G; exact Lyn|cbn [e_a e_b set_field bs_gids]; rewrite G; exact La']].
      cbn [e_b]. apply sized_set; [apply sized_set; [split; assumption|exact Lu']|exact Lv'].
    - exists (bs_field b3 TV), f, c. split; [exact Fe|]. intros g comp Ig Hc.
      destruct (pos_in _ _ Ig) as (i & P). pose proof (pos_lt _ _ _ P) as Hi. set (j := (i * 3 + comp)%nat).
      assert (Hj : (j < length (bs_gids (e_b s)) * 3)%nat) by (unfold j; nia).
      destruct (nth_lt (bs_x (e_b s)) i) as (X & NX); [rewrite Z1; exact Hi|].
      destruct (nth_lt (u_of s) j) as (u & Nu); [unfold u_of; rewrite Z2; exact Hj|].
      destruct (nth_lt (v_of s) j) as (v & Nv); [unfold v_of; rewrite Z2; exact Hj|].
      destruct (nth_lt (e_a s) j) as (a & Na); [rewrite La; exact Hj|].
      destruct (nth_lt (bs_field b3 TV) j) as (wi & Nw); [rewrite LV; exact Hj|].
      assert (Lf : length f = length f2).
      { destruct c as [cf|]; [|now rewrite Fc]. apply map2_spec in Fc. destruct Fc as (_ & Fc & _). symmetry; exact Fc. }
      assert (Lf2 : (j < length f2)%nat) by (rewrite Fa1, LE; exact Hj).
      destruct (nth_lt f j) as (fi & Nf); [rewrite Lf; exact Lf2|].
      destruct (nth_lt f2 j Lf2) as (f2i & Nf2).
      destruct (nth_lt (bs_field b3 TForce) j) as (ei & Ne); [rewrite LE; exact Hj|].
      destruct (nth_lt (concat (map (fun r => [r; r; r]) rho)) j) as (r & Nr).
      { rewrite rep_length, <- Fa3, La'. exact Hj. }
      assert (Nuu : nth_error (bs_field b3 TU) j = Some u).
      { assert (Q : value_at b3 TU g comp = value_at (e_b s) TU g comp).
        { rewrite Fr3 by (cbn; easy || lia). rewrite Fr2; [|cbn; lia|intros p _; apply no_boundary_u]. reflexivity. }
        unfold value_at in Q. rewrite G, P in Q. cbn [target_dim] in Q. fold j in Q. etransitivity; [exact Q|exact Nu]. }
      exists (coord_of X comp), u, v, a, wi, fi, ei, r, ((f2i + ei) / r).
      assert (Hh : forall l, held s l g comp = nth_error l j) by (intros l; unfold held; rewrite P; reflexivity).
      set (s' := {| e_b := set_field (set_field b3 TU u') TV v'; e_y := y'; e_a := a'; e_mat := m' |}).
      assert (Hh' : forall l, held s' l g comp = nth_error l j) by (intros l; unfold held; cbn [s' e_b set_field bs_gids]; rewrite G, P; reflexivity).
      rewrite !Hh, !Hh'. split; [unfold position; rewrite P, NX; reflexivity|].
      split; [exact Nu|]. split; [exact Nv|]. split; [exact Na|]. split; [exact Nw|]. split; [exact Nf|]. split; [exact Ne|]. split; [exact Nr|].
      assert (Nup : nth_error (u_of s') j = Some (u + dt * wi)) by (exact (Uc j wi u Nw Nuu)).
      assert (Nap : nth_error (e_a s') j = Some ((f2i + ei) / r)) by exact (Fa4 j f2i ei r Nf2 Ne Nr).
      split; [|split; [exact Nup|split; [|split; [|split; [exact Nap|]]]]].
      + intros Np. assert (Q : value_at b3 TV g comp = value_at (set_field (e_b s) TV v1) TV g comp).
        { rewrite Fr3 by (cbn; easy || lia). rewrite Fr2; [reflexivity|cbn; lia|]. intros p Hp Cc. apply Np. exists p. auto. }
        unfold value_at in Q. rewrite G in Q. cbn [set_field bs_gids bs_field target_eqb target_dim] in Q. rewrite P in Q.
        fold j in Q. rewrite Nw in Q. rewrite (V1c j a v Na Nv) in Q. injection Q as Q. exact Q.
      + assert (Nxu : nth_error xu j = Some (coord_of X comp + u : T RN)).
        { apply (XUc j); [|exact Nuu]. rewrite Xx. apply flat_nth; assumption. }
        etransitivity; [exact (Yc j _ _ Nxu Nw)|]. f_equal. to_R. change (coord_of X comp + u + dt * wi = coord_of X comp + (u + dt * wi)). ring.
      + destruct c as [cf|].
        * apply map2_spec in Fc. destruct Fc as (Fc1 & Fc2 & Fc3).
          destruct (nth_lt cf j) as (ci & Nc); [rewrite <- Fc1, Lf; exact Lf2|]. exists ci. rewrite Hh. split; [exact Nc|].
          pose proof (Fc3 j fi ci Nf Nc) as Q. rewrite Nf2 in Q. injection Q as Q. f_equal.
          change (f2i = ci + fi :> R) in Q. rewrite Q. change (ci + fi + ei = fi + ci + ei :> R). ring.
        * subst f2. rewrite Nf in Nf2. injection Nf2 as Nf2. f_equal. f_equal. symmetry; exact Nf2.
      + exact (V2c j _ _ Nap Nw).
  Qed.
End Steps.
