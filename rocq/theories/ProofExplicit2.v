(** * Proofs for the explicit solver: runs and totals *)
From Coq Require Import String Reals Lra.
From Verif Require Import Base Num SpecGlobal ProofGlobal ModelScalar ModelInput ModelBC SpecBC ProofBC ProofBC2 ModelForce SpecForce ModelExplicit SpecExplicit ProofExplicit.
Local Open Scope R_scope.

Section Runs.
  Variables (compiles : string -> bool) (run : string -> V3 RN -> RN -> RN -> option RN) (finite : RN -> bool).
  Variable sets : string -> option (list nat).
  Variables (show : RN -> string) (ps : list (bc_params RN)) (cs : conds RN).
  Context {M : Type}.
  Variable evaluate : M -> list RN -> list RN -> list RN -> outcome (M * list RN * option (list RN)).
  Variable rho : list R.
  Hypothesis made : add_all show ps = Ok cs.
  Notation step := (explicit_step compiles run finite sets (cs_boundary cs) (cs_force cs) M evaluate rho).
  Notation loop := (explicit_loop compiles run finite sets (cs_boundary cs) (cs_force cs) M evaluate rho).
  Notation start := (initial_evaluation compiles run finite sets (cs_boundary cs) (cs_force cs) M evaluate rho).

  (** A relation kept by every step holds along the run. *)
  Lemma loop_spec (ti dt : R) k : forall z (t : R) s r, loop k z ti dt t s = Ok r -> complete s -> t = ti + IZR z * dt ->
    length r = k /\
    forall i t1 s1 t2 s2, nth_error ((t, s) :: r) i = Some (t1, s1) -> nth_error r i = Some (t2, s2) ->
      t1 = ti + IZR (z + Z.of_nat i) * dt /\ t2 = ti + IZR (z + Z.of_nat i + 1) * dt /\
      step dt t2 t1 s1 = Ok s2 /\ complete s1 /\ complete s2 /\ bs_gids (e_b s2) = bs_gids (e_b s1) /\ bs_x (e_b s2) = bs_x (e_b s1).
  Proof.
    induction k as [|k IH]; intros z t s r H Cs Et; cbn [explicit_loop] in H.
    - injection H as <-. split; [reflexivity|]. intros [|i]; cbn; discriminate.
    - match type of H with bind ?e _ = _ => destruct e as [s'| |] eqn:E; cbn [bind] in H; try discriminate end.
      match type of H with bind ?e _ = _ => destruct e as [r'| |] eqn:E2; cbn [bind] in H; try discriminate end. injection H as <-.
      destruct (step_frame _ _ _ _ _ _ _ evaluate rho made _ _ _ _ _ Cs E) as (C' & G & X & _).
      destruct (IH _ _ _ _ E2 C' eq_refl) as (L & K). split; [cbn [length]; now rewrite L|].
      intros [|i] t1 s1 t2 s2 H1 H2.
      + cbn in H1, H2. injection H1 as <- <-. injection H2 as <- <-. rewrite Z.add_0_r. split; [exact Et|]. split; [reflexivity|].
        split; [exact E|]. auto.
      + cbn in H1, H2. destruct (K i t1 s1 t2 s2 H1 H2) as (K1 & K2 & K3).
        replace (z + 1 + Z.of_nat i)%Z with (z + Z.of_nat (S i))%Z in * by lia. auto.
  Qed.

  Lemma start_frame ti s s' : complete s -> start ti s = Ok s' ->
    complete s' /\ bs_gids (e_b s') = bs_gids (e_b s) /\ bs_x (e_b s') = bs_x (e_b s) /\ e_y s' = e_y s /\
    (forall g comp, (comp < 3)%nat -> value_at (e_b s') TU g comp = value_at (e_b s) TU g comp).
  Proof.
    intros ((Z1 & Z2) & Ly & La) H. unfold initial_evaluation in H.
    match type of H with bind ?e _ = _ => destruct e as [[[m' b4] a']| |] eqn:F; cbn [bind] in H; try discriminate end. injection H as <-.
    apply force_inv in F. destruct F as (Fb & f & c & f2 & Fe & Fc & Fa).
    destruct (apply_conds _ _ _ _ _ _ _ _) as [b2| |] eqn:B2; cbn [bind] in Fb; try discriminate.
    eapply conds_frame in B2; [|exact made]. destruct B2 as (G2 & X2 & S2 & Fr2). eapply forces_frame in Fb; [|exact made]. destruct Fb as (G3 & X3 & S3 & Fr3).
    apply acc_inv in Fa. destruct Fa as (Fa1 & Fa2 & _).
    pose proof (S3 (S2 (conj Z1 Z2))) as (T1 & T2).
    cbn [e_b e_y]. split; [|split; [congruence|split; [congruence|split; [reflexivity|]]]].
    - split; [split; assumption|]. cbn [e_y e_a e_b]. split; [congruence|]. rewrite Fa2. etransitivity; [exact Fa1|]. rewrite T2. reflexivity.
    - intros g comp Hc. rewrite Fr3; [|cbn; lia|discriminate]. apply Fr2; [cbn; lia|]. intros p _. apply no_boundary_u.
  Qed.

  (** ** Prescribed displacements are followed *)
  Lemma step_mid dt tc tp s s' : complete s -> step dt tc tp s = Ok s' ->
    exists b1 b2, kick M dt s = Ok b1 /\ bs_x b1 = bs_x (e_b s) /\ bs_gids b1 = bs_gids (e_b s) /\ bs_field b1 TU = bs_field (e_b s) TU /\
      apply_conds compiles run finite sets tc tp b1 (cs_boundary cs) = Ok b2 /\
      forall g comp u w, (comp < 3)%nat -> value_at (e_b s) TU g comp = Some u -> value_at b2 TV g comp = Some w ->
        value_at (e_b s') TU g comp = Some (u + dt * w : T RN).
  Proof.
    intros ((Z1 & Z2) & Ly & La) H. unfold explicit_step in H.
    destruct (kick M dt s) as [b1| |] eqn:K; cbn [bind] in H; try discriminate.
    unfold kick in K. destruct (axpy (dt / 2)%num (e_a s) (bs_field (e_b s) TV)) as [v1| |] eqn:V1; cbn [bind] in K; try discriminate. injection K as <-.
    destruct (apply_conds _ _ _ _ _ _ _ _) as [b2| |] eqn:B2; cbn [bind] in H; try discriminate.
    destruct (apply_forces _ _ _ _ _ _ _ _) as [b3| |] eqn:B3; cbn [bind] in H; try discriminate.
    destruct (map2_ub add (flat (bs_x b3)) (bs_field b3 TU)) as [xu| |] eqn:XU; cbn [bind] in H; try discriminate.
    match type of H with bind ?e _ = _ => destruct e as [y'| |] eqn:Y; cbn [bind] in H; try discriminate end.
    destruct (axpy dt (bs_field b3 TV) (bs_field b3 TU)) as [u'| |] eqn:U; cbn [bind] in H; try discriminate.
    match type of H with bind ?e _ = _ => destruct e as [[[m' b4] a']| |] eqn:F; cbn [bind] in H; try discriminate end.
    destruct (axpy (dt / 2)%num a' (bs_field b4 TV)) as [v'| |] eqn:V2; cbn [bind] in H; try discriminate. injection H as <-.
    apply force_inv in F. destruct F as (Fb & _). injection Fb as <-.
    exists (set_field (e_b s) TV v1), b2. split; [reflexivity|]. split; [reflexivity|]. split; [reflexivity|]. split; [reflexivity|]. split; [exact B2|].
    eapply conds_frame in B2; [|exact made]. destruct B2 as (G2 & X2 & S2 & Fr2). eapply forces_frame in B3; [|exact made]. destruct B3 as (G3 & X3 & S3 & Fr3).
    intros g comp u w Hc Hu Hw. apply map2_spec in U. destruct U as (_ & _ & Uc).
    assert (Qv : value_at b3 TV g comp = Some w) by (rewrite Fr3; [exact Hw|cbn; lia|discriminate]).
    assert (Qu : value_at b3 TU g comp = Some u).
    { rewrite Fr3; [|cbn; lia|discriminate]. rewrite Fr2; [exact Hu|cbn; lia|]. intros p _. apply no_boundary_u. }
    unfold value_at in Qu, Qv |- *. cbn [e_b set_field bs_gids bs_field target_eqb]. destruct (pos (bs_gids b3) g); [|discriminate].
    exact (Uc _ _ _ Qv Qu).
  Qed.

  Lemma step_follows dt tc tp s s' p g comp x (f : R -> R) : complete s -> step dt tc tp s = Ok s' -> dt = tc - tp -> tc <> tp ->
    bp_type p = PRESCRIBED_DISPLACEMENT -> last_concerning boundary_writes sets ps p TDeltaU g comp ->
    position (e_b s) g = Some x -> defines run (text_of show p) x (f : RN -> RN) -> value_at (e_b s) TU g comp = Some (f tp : T RN) ->
    value_at (e_b s') TU g comp = Some (f tc : T RN).
  Proof.
    intros Cs H Ed Ne Ty L X D U. destruct (step_mid _ _ _ _ _ Cs H) as (b1 & b2 & _ & X1 & G1 & U1 & B2 & K).
    assert (Hc : (comp < 3)%nat).
    { destruct L as (_ & _ & _ & (_ & Co & _) & _). destruct (bp_coord p); cbn in Co; try discriminate; injection Co as <-; lia. }
    assert (X' : position b1 g = Some x) by (unfold position in *; rewrite G1, X1; exact X).
    assert (U' : value_at b1 TU g comp = Some (f tp : T RN)) by (unfold value_at in *; rewrite G1, U1; exact U).
    destruct (displacement_pair show compiles run finite ps cs sets tc tp b1 b2 p g comp x f made B2 Ne Ty L X' D) as (du & _ & Dv & Ch & Re).
    rewrite (K g comp _ _ Hc U Dv). f_equal. change (f tp + dt * (du / (tc - tp)) = f tc :> R).
    assert (tc - tp <> 0) by (intros Z; apply Ne; lra).
    assert (Q : forall d D : R, D <> 0 -> dt = D -> dt * (d / D) = d) by (intros d D0 HD ->; field; exact HD).
    transitivity (f tp + du : R); [f_equal; exact (Q du (tc - tp) ltac:(assumption) Ed)|]. clear Q.
    destruct (Req_EM_T (f tc) (f tp)) as [E|E].
    - destruct (Re E) as (u & Q & ->). rewrite U' in Q. injection Q as Q. change (f tp = u :> R) in Q. change (f tp + (f tc - u) = f tc :> R). rewrite <- Q. ring.
    - rewrite (Ch E). change (f tp + (f tc - f tp) = f tc :> R). ring.
  Qed.
End Runs.

(** ** Totals *)
Lemma vz0 (a : V3 RN) : vadd (N:=RN) vzero a = a.
Proof. apply vext; cbn; ring. Qed.

Lemma total_lin (f : RN -> RN -> RN) (p q : R) : (forall a b : R, f a b = p * a + q * b) -> forall w l m r, map2_ub f l m = Ok r -> length l = (3 * length w)%nat ->
  total w r = vadd (vscale (N:=RN) p (total w l)) (vscale (N:=RN) q (total w m)).
Proof.
  intros Hf. induction w as [|k w IH]; intros l m r H L.
  - destruct l, m; cbn in *; try discriminate; injection H as <-; apply vext; cbn; ring.
  - replace (3 * length (k :: w))%nat with (S (S (S (3 * length w)))) in L by (cbn [length]; lia).
    destruct l as [|a [|b [|c l]]]; try discriminate. destruct m as [|a' [|b' [|c' m]]]; cbn [map2_ub] in H; try discriminate;
      try (destruct (map2_ub f l m); discriminate); try (destruct l; discriminate).
    destruct (map2_ub f l m) as [r'| |] eqn:E; cbn [bind] in H; try discriminate. injection H as <-.
    cbn [total]. rewrite (IH l m r' E) by (injection L as L; exact L). rewrite !Hf. apply vext; cbn; ring.
Qed.
Lemma spin_lin_r (f : RN -> RN -> RN) (p q : R) : (forall a b : R, f a b = p * a + q * b) -> forall w y l m r, map2_ub f l m = Ok r ->
  length l = (3 * length w)%nat -> length y = (3 * length w)%nat ->
  spin w y r = vadd (vscale (N:=RN) p (spin w y l)) (vscale (N:=RN) q (spin w y m)).
Proof.
  intros Hf. induction w as [|k w IH]; intros y l m r H L Ly.
  - destruct l, m; cbn in *; try discriminate; injection H as <-; apply vext; cbn; ring.
  - replace (3 * length (k :: w))%nat with (S (S (S (3 * length w)))) in * by (cbn [length]; lia).
    destruct l as [|a [|b [|c l]]]; try discriminate. destruct y as [|y1 [|y2 [|y3 y]]]; try discriminate.
    destruct m as [|a' [|b' [|c' m]]]; cbn [map2_ub] in H; try discriminate; try (destruct (map2_ub f l m); discriminate); try (destruct l; discriminate).
    destruct (map2_ub f l m) as [r'| |] eqn:E; cbn [bind] in H; try discriminate. injection H as <-.
    cbn [spin]. rewrite (IH y l m r' E) by (injection L as L; injection Ly as Ly; assumption). rewrite !Hf. apply vext; cbn; ring.
Qed.
Lemma spin_lin_l (f : RN -> RN -> RN) (p q : R) : (forall a b : R, f a b = p * a + q * b) -> forall w v l m r, map2_ub f l m = Ok r ->
  length l = (3 * length w)%nat -> length v = (3 * length w)%nat ->
  spin w r v = vadd (vscale (N:=RN) p (spin w l v)) (vscale (N:=RN) q (spin w m v)).
Proof.
  intros Hf. induction w as [|k w IH]; intros y l m r H L Ly.
  - destruct l, m; cbn in *; try discriminate; injection H as <-; apply vext; cbn; ring.
  - replace (3 * length (k :: w))%nat with (S (S (S (3 * length w)))) in * by (cbn [length]; lia).
    destruct l as [|a [|b [|c l]]]; try discriminate. destruct y as [|y1 [|y2 [|y3 y]]]; try discriminate.
    destruct m as [|a' [|b' [|c' m]]]; cbn [map2_ub] in H; try discriminate; try (destruct (map2_ub f l m); discriminate); try (destruct l; discriminate).
    destruct (map2_ub f l m) as [r'| |] eqn:E; cbn [bind] in H; try discriminate. injection H as <-.
    cbn [spin]. rewrite (IH y l m r' E) by (injection L as L; injection Ly as Ly; assumption). rewrite !Hf. apply vext; cbn; ring.
Qed.
Lemma spin_self w v : spin w v v = vzero.
Proof.
  revert v; induction w as [|k w IH]; intros [|a [|b [|c v]]]; try reflexivity. cbn [spin]. rewrite IH. apply vext; cbn; ring.
Qed.
Lemma masses_length rho vol : length rho = length vol -> length (masses rho vol) = length vol.
Proof. revert vol; induction rho as [|r rho IH]; intros [|v vol] H; try discriminate; [reflexivity|]. cbn. f_equal. apply IH. now injection H. Qed.
Lemma total_acc rho : Forall (fun r => r <> 0) rho -> forall vol s a, length rho = length vol ->
  map2_ub (div (n:=RN)) s (concat (map (fun r => [r; r; r]) rho)) = Ok a -> total (masses rho vol) a = total vol s.
Proof.
  induction 1 as [|r rho Hr F IH]; intros [|v vol] s a L H; try discriminate; [reflexivity|].
  cbn [map concat app] in H. destruct s as [|a1 [|a2 [|a3 s]]]; cbn [map2_ub] in H; try discriminate.
  destruct (map2_ub _ s _) as [r'| |] eqn:E; cbn [bind] in H; try discriminate. injection H as <-.
  cbn [masses total]. rewrite (IH vol s r' ltac:(now injection L) E). apply vext; cbn; to_R; field; exact Hr.
Qed.
Lemma spin_acc rho : Forall (fun r => r <> 0) rho -> forall vol y s a, length rho = length vol -> length y = (3 * length vol)%nat ->
  map2_ub (div (n:=RN)) s (concat (map (fun r => [r; r; r]) rho)) = Ok a -> spin (masses rho vol) y a = spin vol y s.
Proof.
  induction 1 as [|r rho Hr F IH]; intros [|v vol] y s a L Ly H; try discriminate; [reflexivity|].
  replace (3 * length (v :: vol))%nat with (S (S (S (3 * length vol)))) in * by (cbn [length]; lia).
  destruct y as [|y1 [|y2 [|y3 y]]]; try discriminate.
  cbn [map concat app] in H. destruct s as [|a1 [|a2 [|a3 s]]]; cbn [map2_ub] in H; try discriminate.
  destruct (map2_ub _ s _) as [r'| |] eqn:E; cbn [bind] in H; try discriminate. injection H as <-.
  cbn [masses spin]. rewrite (IH vol y s r' ltac:(now injection L) ltac:(injection Ly as Ly; exact Ly) E). apply vext; cbn; to_R; field; exact Hr.
Qed.
Lemma move_assoc (dt : R) x : forall u v xu y u', map2_ub (add (n:=RN)) x u = Ok xu -> map2_ub (fun xu v : RN => (xu + dt * v)%R : RN) xu v = Ok y ->
  map2_ub (fun v u : RN => (u + dt * v)%R : RN) v u = Ok u' -> map2_ub (add (n:=RN)) x u' = Ok y.
Proof.
  induction x as [|a x IH]; intros [|b u] v xu y u' H1 H2 H3; cbn [map2_ub] in H1; try discriminate.
  - injection H1 as <-. destruct v; cbn in *; try discriminate. injection H2 as <-. injection H3 as <-. reflexivity.
  - destruct (map2_ub add x u) as [r1| |] eqn:E1; cbn [bind] in H1; try discriminate. injection H1 as <-.
    destruct v as [|c v]; cbn [map2_ub] in H2; try discriminate.
    destruct (map2_ub _ r1 v) as [r2| |] eqn:E2; cbn [bind] in H2; try discriminate. injection H2 as <-.
    cbn [map2_ub] in H3. destruct (map2_ub (fun v u : RN => (u + dt * v)%R : RN) v u) as [r3| |] eqn:E3; cbn [bind] in H3; try discriminate. injection H3 as <-.
    cbn [map2_ub]. rewrite (IH u v r1 r2 r3 E1 E2 E3). cbn [bind]. f_equal. f_equal. to_R. ring.
Qed.
Lemma map2_zeros (l e : list RN) r : map2_ub (add (n:=RN)) l (map (fun _ => ofZ (n:=RN) 0) e) = Ok r -> r = l.
Proof.
  revert e r; induction l as [|a l IH]; intros [|b e] r H; cbn [map map2_ub] in H; try discriminate; [now injection H as <-|].
  destruct (map2_ub add l _) as [r'| |] eqn:E; cbn [bind] in H; try discriminate. injection H as <-. apply IH in E. rewrite E. exact (f_equal (fun z : R => z :: l) (Rplus_0_r a)).
Qed.

Section Isolated.
  Variables (compiles : string -> bool) (run : string -> V3 RN -> RN -> RN -> option RN) (finite : RN -> bool).
  Variable sets : string -> option (list nat).
  Context {M : Type}.
  Variable evaluate : M -> list RN -> list RN -> list RN -> outcome (M * list RN * option (list RN)).
  Variables rho vol : list R.
  Hypothesis rho_ok : Forall (fun r => r <> 0) rho.
  Hypothesis vol_ok : length rho = length vol.
  Notation step := (explicit_step compiles run finite sets [] [] M evaluate rho).
  Notation loop := (explicit_loop compiles run finite sets [] [] M evaluate rho).
  Notation start := (initial_evaluation compiles run finite sets [] [] M evaluate rho).
  Notation mass := (masses rho vol).

  Lemma acc_totals f (e : list RN) a : acceleration (N:=RN) rho f (map (fun _ => ofZ (n:=RN) 0) e) = Ok a ->
    length f = (3 * length vol)%nat /\ length a = length f /\ total mass a = total vol f /\ forall y, length y = (3 * length vol)%nat -> spin mass y a = spin vol y f.
  Proof.
    unfold acceleration. intros H. destruct (map2_ub add f _) as [r| |] eqn:E; cbn [bind] in H; try discriminate.
    apply map2_zeros in E as E'. subst r. pose proof (map2_spec _ _ _ _ H) as (L1 & L2 & _).
    assert (Lf : length f = (3 * length vol)%nat) by (etransitivity; [exact L1|]; etransitivity; [apply rep_length|]; lia).
    split; [exact Lf|]. split; [exact L2|]. split; [exact (total_acc rho rho_ok vol f a vol_ok H)|]. intros y Ly. exact (spin_acc rho rho_ok vol y f a vol_ok Ly H).
  Qed.

  (** Everything a step does without conditions and external forces. *)
  Lemma isolated_step dt tc tp s s' : step dt tc tp s = Ok s' ->
    exists w f c f2, map2_ub (fun x y : RN => (y + dt / 2 * x)%R : RN) (e_a s) (v_of s) = Ok w /\
      map2_ub (fun x y : RN => (y + dt * x)%R : RN) w (u_of s) = Ok (u_of s') /\
      map2_ub (add (n:=RN)) (flat (bs_x (e_b s))) (u_of s') = Ok (e_y s') /\
      (exists xu, map2_ub (add (n:=RN)) (flat (bs_x (e_b s))) (u_of s) = Ok xu /\ map2_ub (fun xu v : RN => (xu + dt * v)%R : RN) xu w = Ok (e_y s')) /\
      evaluate (e_mat s) (u_of s') (e_y s') w = Ok (e_mat s', f, c) /\
      (match c with None => f2 = f | Some cf => map2_ub (fun f c : RN => (c + f)%R : RN) f cf = Ok f2 end) /\
      (length f2 = (3 * length vol)%nat /\ length (e_a s') = length f2 /\ total mass (e_a s') = total vol f2 /\ forall y, length y = (3 * length vol)%nat -> spin mass y (e_a s') = spin vol y f2) /\
      map2_ub (fun x y : RN => (y + dt / 2 * x)%R : RN) (e_a s') w = Ok (v_of s') /\ bs_x (e_b s') = bs_x (e_b s).
  Proof.
    intros H. unfold explicit_step in H.
    destruct (kick M dt s) as [b1| |] eqn:K; cbn [bind] in H; try discriminate.
    unfold kick in K. destruct (axpy (dt / 2)%num (e_a s) (bs_field (e_b s) TV)) as [w| |] eqn:V1; cbn [bind] in K; try discriminate. injection K as <-.
    unfold apply_conds, apply_forces in H. cbn [foldM bind] in H.
    set (b3 := set_field (set_field (e_b s) TV w) TForce _) in H.
    change (flat (bs_x b3)) with (flat (bs_x (e_b s))) in H. change (bs_field b3 TU) with (u_of s) in H. change (bs_field b3 TV) with w in H.
    destruct (map2_ub add (flat (bs_x (e_b s))) (u_of s)) as [xu| |] eqn:XU; cbn [bind] in H; try discriminate.
    match type of H with bind ?e _ = _ => destruct e as [y'| |] eqn:Y; cbn [bind] in H; try discriminate end.
    destruct (axpy dt w (u_of s)) as [u'| |] eqn:U; cbn [bind] in H; try discriminate.
    match type of H with bind ?e _ = _ => destruct e as [[[m' b4] a']| |] eqn:F; cbn [bind] in H; try discriminate end.
    apply force_inv in F. destruct F as (Fb & f & c & f2 & Fe & Fc & Fa). injection Fb as <-.
    change (bs_field (set_field b3 TU u') TV) with w in *. change (bs_field (set_field b3 TU u') TU) with u' in *.
    change (bs_field (set_field b3 TU u') TForce) with (map (fun _ => ofZ (n:=RN) 0) (bs_field (e_b s) TForce)) in Fa.
    destruct (axpy (dt / 2)%num a' w) as [v'| |] eqn:V2; cbn [bind] in H; try discriminate. injection H as <-.
    exists w, f, c, f2. split; [exact V1|]. split; [exact U|]. split; [exact (move_assoc dt _ _ _ _ _ _ XU Y U)|]. split; [exists xu; split; [reflexivity|exact Y]|]. split; [exact Fe|]. split; [exact Fc|].
    split; [exact (acc_totals _ _ _ Fa)|]. split; [exact V2|]. reflexivity.
  Qed.

  Lemma len3 (s : estate RN M) n : complete s -> length (bs_gids (e_b s)) = n -> length (u_of s) = (3 * n)%nat /\ length (v_of s) = (3 * n)%nat /\ length (e_a s) = (3 * n)%nat /\ length (e_y s) = (3 * n)%nat.
  Proof.
    intros ((_ & Z2) & L1 & L2) E. unfold u_of, v_of. rewrite !Z2, L1, L2, E. cbn [target_dim]. repeat split; lia.
  Qed.
  Lemma bal_f2 f c f2 : (match c with None => f2 = f | Some cf => map2_ub (fun f c : RN => (c + f)%R : RN) f cf = Ok f2 end) -> length f2 = (3 * length vol)%nat ->
    total vol f = vzero -> (forall cf, c = Some cf -> total vol cf = vzero) -> total vol f2 = vzero.
  Proof.
    intros H L E1 E2. destruct c as [cf|]; [|now subst]. pose proof (map2_spec _ _ _ _ H) as (A & B & _).
    rewrite (total_lin (fun f c : RN => (c + f)%R : RN) 1 1 ltac:(intros a b; change (b + a = 1 * a + 1 * b :> R); ring) vol f cf f2 H) by (rewrite <- L; symmetry; exact B). rewrite E1, (E2 _ eq_refl). apply vext; cbn; ring.
  Qed.
  Lemma bal_m2 y f c f2 : (match c with None => f2 = f | Some cf => map2_ub (fun f c : RN => (c + f)%R : RN) f cf = Ok f2 end) -> length f2 = (3 * length vol)%nat -> length y = (3 * length vol)%nat ->
    spin vol y f = vzero -> (forall cf, c = Some cf -> spin vol y cf = vzero) -> spin vol y f2 = vzero.
  Proof.
    intros H L Ly E1 E2. destruct c as [cf|]; [|now subst]. pose proof (map2_spec _ _ _ _ H) as (A & B & _).
    rewrite (spin_lin_r (fun f c : RN => (c + f)%R : RN) 1 1 ltac:(intros a b; change (b + a = 1 * a + 1 * b :> R); ring) vol y f cf f2 H) by (try exact Ly; rewrite <- L; symmetry; exact B). rewrite E1, (E2 _ eq_refl). apply vext; cbn; ring.
  Qed.

  Lemma momentum_step dt tc tp s s' : balanced vol evaluate -> complete s -> length (bs_gids (e_b s)) = length vol ->
    step dt tc tp s = Ok s' -> total mass (e_a s) = vzero ->
    total mass (e_a s') = vzero /\ total mass (v_of s') = total mass (v_of s) /\
    total mass (u_of s') = vadd (total mass (u_of s)) (vscale (N:=RN) dt (total mass (v_of s))).
  Proof.
    intros B Cs Ln H A0. destruct (isolated_step _ _ _ _ _ H) as (w & f & c & f2 & W & U & Yx & _ & Fe & Fc & (La1 & La2 & Ta & _) & V & _).
    destruct (len3 s _ Cs Ln) as (Lu & Lv & La & _). pose proof (masses_length rho vol vol_ok) as Lm.
    pose proof (map2_spec _ _ _ _ W) as (_ & Lw & _). pose proof (map2_spec _ _ _ _ U) as (_ & Lu' & _). pose proof (map2_spec _ _ _ _ Yx) as (_ & Ly' & _).
    pose proof (proj1 (map2_spec _ _ _ _ Yx)) as Lx.
    assert (Lwn : length w = (3 * length vol)%nat) by (rewrite Lw; exact La).
    assert (Lun : length (u_of s') = (3 * length vol)%nat) by (etransitivity; [exact Lu'|exact Lwn]).
    destruct (B _ _ _ _ _ _ _ Lun ltac:(etransitivity; [exact Ly'|]; etransitivity; [exact Lx|exact Lun]) Lwn Fe) as (B1 & B2).
    assert (Ta' : total mass (e_a s') = vzero) by (rewrite Ta; exact (bal_f2 f c f2 Fc La1 B1 B2)).
    assert (Tw : total mass w = total mass (v_of s)).
    { rewrite (total_lin (fun x y : RN => (y + dt / 2 * x)%R : RN) (dt / 2) 1 ltac:(intros a b; change (b + dt / 2 * a = dt / 2 * a + 1 * b :> R); ring) mass _ _ _ W) by (rewrite Lm; exact La). rewrite A0. apply vext; cbn; ring. }
    split; [exact Ta'|]. split.
    - rewrite (total_lin (fun x y : RN => (y + dt / 2 * x)%R : RN) (dt / 2) 1 ltac:(intros a b; change (b + dt / 2 * a = dt / 2 * a + 1 * b :> R); ring) mass _ _ _ V) by (rewrite Lm, La2; exact La1). rewrite Ta', Tw. apply vext; cbn; ring.
    - rewrite (total_lin (fun x y : RN => (y + dt * x)%R : RN) dt 1 ltac:(intros a b; change (b + dt * a = dt * a + 1 * b :> R); ring) mass _ _ _ U) by (rewrite Lm, Lw; exact La). rewrite Tw. apply vext; cbn; ring.
  Qed.

  Lemma angular_step dt tc tp s s' : balanced_moments vol evaluate -> complete s -> length (bs_gids (e_b s)) = length vol ->
    step dt tc tp s = Ok s' -> map2_ub (add (n:=RN)) (flat (bs_x (e_b s))) (u_of s) = Ok (e_y s) -> spin mass (e_y s) (e_a s) = vzero ->
    map2_ub (add (n:=RN)) (flat (bs_x (e_b s'))) (u_of s') = Ok (e_y s') /\ spin mass (e_y s') (e_a s') = vzero /\ spin mass (e_y s') (v_of s') = spin mass (e_y s) (v_of s).
  Proof.
    intros B Cs Ln H Y0 A0. destruct (isolated_step _ _ _ _ _ H) as (w & f & c & f2 & W & U & Y & (xu & XU & Yw) & Fe & Fc & (La1 & La2 & _ & Ta) & V & X').
    destruct (len3 s _ Cs Ln) as (Lu & Lv & La & Ly). pose proof (masses_length rho vol vol_ok) as Lm.
    rewrite Y0 in XU. injection XU as <-.
    pose proof (map2_spec _ _ _ _ W) as (_ & Lw & _). pose proof (map2_spec _ _ _ _ Yw) as (_ & Lyn & _).
    assert (Ly' : length (e_y s') = (3 * length vol)%nat) by (rewrite Lyn; exact Ly).
    assert (Lw' : length w = (3 * length vol)%nat) by (rewrite Lw; exact La).
    pose proof (map2_spec _ _ _ _ U) as (_ & Lu' & _).
    destruct (B _ _ _ _ _ _ _ ltac:(etransitivity; [exact Lu'|exact Lw']) Ly' Lw' Fe) as (B1 & B2).
    assert (Ta' : spin mass (e_y s') (e_a s') = vzero) by (rewrite (Ta _ Ly'); exact (bal_m2 _ f c f2 Fc La1 Ly' B1 B2)).
    split; [rewrite X'; exact Y|]. split; [exact Ta'|].
    rewrite (spin_lin_r (fun x y : RN => (y + dt / 2 * x)%R : RN) (dt / 2) 1 ltac:(intros a b; change (b + dt / 2 * a = dt / 2 * a + 1 * b :> R); ring) mass (e_y s') _ _ _ V) by (rewrite Lm; first [exact Ly'|rewrite La2; exact La1]).
    rewrite Ta'. rewrite (spin_lin_l (fun xu v : RN => (xu + dt * v)%R : RN) 1 dt ltac:(intros a b; change (a + dt * b = 1 * a + dt * b :> R); ring) mass w _ _ _ Yw) by (rewrite Lm; first [exact Ly|exact Lw']).
    rewrite spin_self.
    rewrite (spin_lin_r (fun x y : RN => (y + dt / 2 * x)%R : RN) (dt / 2) 1 ltac:(intros a b; change (b + dt / 2 * a = dt / 2 * a + 1 * b :> R); ring) mass (e_y s) _ _ _ W) by (rewrite Lm; first [exact Ly|exact La]).
    rewrite A0. apply vext; cbn; ring.
  Qed.

  Lemma start_isolated ti s s' : start ti s = Ok s' ->
    bs_x (e_b s') = bs_x (e_b s) /\ e_y s' = e_y s /\ u_of s' = u_of s /\ v_of s' = v_of s /\ bs_gids (e_b s') = bs_gids (e_b s) /\
    exists f c f2, evaluate (e_mat s) (u_of s) (e_y s) (v_of s) = Ok (e_mat s', f, c) /\
      (match c with None => f2 = f | Some cf => map2_ub (fun f c : RN => (c + f)%R : RN) f cf = Ok f2 end) /\
      (length f2 = (3 * length vol)%nat /\ length (e_a s') = length f2 /\ total mass (e_a s') = total vol f2 /\ forall y, length y = (3 * length vol)%nat -> spin mass y (e_a s') = spin vol y f2).
  Proof.
    intros H. unfold initial_evaluation, apply_conds, apply_forces in H. cbn [foldM bind] in H.
    match type of H with bind ?e _ = _ => destruct e as [[[m' b4] a']| |] eqn:F; cbn [bind] in H; try discriminate end.
    apply force_inv in F. destruct F as (Fb & f & c & f2 & Fe & Fc & Fa). injection Fb as <-. injection H as <-.
    repeat (split; [reflexivity|]). exists f, c, f2. split; [exact Fe|]. split; [exact Fc|].
    change (bs_field (set_field (e_b s) TForce _) TForce) with (map (fun _ => ofZ (n:=RN) 0) (bs_field (e_b s) TForce)) in Fa. exact (acc_totals _ _ _ Fa).
  Qed.
End Isolated.
