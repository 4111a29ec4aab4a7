(** * C77: gradients of the bond-associated correspondence material *)
From Coq Require Import Reals Lra Lia.
From Verif Require Import Base Num ModelNeigh SpecDamage ModelForce SpecForce ModelCorr SpecCorr ModelBondAssoc
  ProofData ProofDamage ProofForce ProofKernels ProofCorr ProofCorr2 ProofCorr3 ProofTangent ProofBondAssoc ProofBondAssoc2 ProofBondAssoc3 ProofBondAssoc4 SpecBondAssoc.
Local Open Scope R_scope.

(** The monomials used for an accuracy order are those of degree 1 to the order, each once. *)
Theorem C77_exponents : forall order e,
  (In e (powers order) <-> (1 <= Z.of_nat (degree e) <= order)%Z) /\ NoDup (powers order).
Proof. intros. split; [apply powers_In|apply powers_NoDup]. Qed.
Print Assumptions C77_exponents.

(** Weights computed for a point sum every monomial up to the order to its derivative at the point. *)
Theorem C77_moments : forall omega svd order x v hs dmg nbrs flags old code wt fs p X h bs fl,
  gradient_weights (N:=RN) omega svd order x v hs dmg nbrs flags old = Ok (code, wt, fs) ->
  around x v hs dmg nbrs p X h bs -> nth_error flags p = Some fl -> fl < 1 / 2 ->
  0 < h -> (1 <= order)%Z -> resolved omega svd order h bs ->
  forall a e, (a < 3)%nat -> (1 <= Z.of_nat (degree e) <= order)%Z ->
    sum_over (fun t => comp (w_phi (snd t)) a * bvol (fst t) * mono e (bvec (fst t))) (combine bs (own nbrs p wt))
    = if is_exp e (unit_exp a) then 1 else 0.
Proof.
  intros omega svd order x v hs dmg nbrs flags old code wt fs p X h bs fl HG HA Hf HF Hh Ho HR a e Ha He.
  pose proof HA as (js & Hn & _). apply weights_from_spec in HG as (_ & _ & _ & HS). destruct (HS p js Hn) as (fl' & Hf' & D). cbn [Nat.add] in *.
  change (T RN) with R in *. rewrite Hf in Hf'. injection Hf' as <-. destruct D as [(_ & A & _)|(A & _)]; [|lra]. eapply fresh_moments; eauto.
Qed.
Print Assumptions C77_moments.

(** When the decomposition is one and the bonds tell the polynomials apart, no singular value is thrown away. *)
Theorem C77_margin : forall omega svd order h bs u w v,
  svd (gram omega h (powers order) bs) = (u, w, v) -> is_svd (length (powers order)) (gram omega h (powers order) bs) u w v ->
  spread omega order h bs -> resolved omega svd order h bs.
Proof. exact spread_resolved. Qed.
Print Assumptions C77_margin.

(** After any history of accepted evaluations in which changes of bond damage show in the
    point damage, the weights are those of the current bond damage. *)
Theorem C77_fresh : forall omega svd order x v hs nbrs s0 d0 es s dN dNP1 dmg u vel s1 Fs Gs,
  ba_initialize (N:=RN) omega svd order x v hs nbrs = Ok s0 ->
  steps_run omega svd order x v hs nbrs es (s0, d0) = Ok (s, dN) ->
  ba_precompute (N:=RN) omega svd order x v hs nbrs dN dNP1 dmg u vel s = Ok (s1, Fs, Gs) ->
  reported nbrs d0 (repeat 0 (num_bonds nbrs)) (es ++ [(dNP1, dmg, u, vel)]) ->
  fresh omega svd order x v hs nbrs dmg (s_wt s1).
Proof.
  intros omega svd order x v hs nbrs s0 d0 es s dN dNP1 dmg u vel s1 Fs Gs HI HS HP HR.
  destruct (initialize_fresh _ _ _ _ _ _ _ _ HI) as (A & B & _). destruct (steps_fresh _ _ _ _ _ _ _ _ _ _ _ _ _ _ A B HS HR) as (C & _ & dmg' & D & E & _).
  apply all_fresh_iff. exact (proj1 (proj2 (precompute_fresh _ _ _ _ _ _ _ _ _ _ _ _ _ _ _ _ _ HP C D E))).
Qed.
Print Assumptions C77_fresh.

(** Bonds that break and stay broken, with the mean as the damage of a point, are such a history. *)
Theorem C77_reported : forall nbrs es dN dmgN,
  length dmgN = num_bonds nbrs -> (forall k, is01 (nth k dmgN 0)) ->
  Forall (fun js => (Z.of_nat (length js) < 1000000000000000)%Z) nbrs ->
  (forall p, (p < length nbrs)%nat -> nth p dN 0 = mean_damage nbrs p dmgN) ->
  breaking nbrs dmgN es -> reported nbrs dN dmgN es.
Proof. exact breaking_reported. Qed.
Print Assumptions C77_reported.

(** Polynomial displacements and velocities up to the order are differentiated exactly. *)
Theorem C77_gradient : forall omega svd order x v hs nbrs s0 d0 es s dN dNP1 dmg u vel s1 Fs Gs p X h bs js,
  ba_initialize (N:=RN) omega svd order x v hs nbrs = Ok s0 ->
  steps_run omega svd order x v hs nbrs es (s0, d0) = Ok (s, dN) ->
  ba_precompute (N:=RN) omega svd order x v hs nbrs dN dNP1 dmg u vel s = Ok (s1, Fs, Gs) ->
  reported nbrs d0 (repeat 0 (num_bonds nbrs)) (es ++ [(dNP1, dmg, u, vel)]) ->
  nth_error nbrs p = Some js -> around x v hs dmg nbrs p X h bs -> 0 < h -> (1 <= order)%Z -> resolved omega svd order h bs ->
  (forall q, displaced x u p js X q -> (forall i, (i < 3)%nat -> degree_upto order (q i)) ->
     exists F, nth_error Fs p = Some F /\ eq3 (ent F) (fun i c => kron i c + slope (q i) c)) /\
  (forall q, displaced x vel p js X q -> (forall i, (i < 3)%nat -> degree_upto order (q i)) ->
     exists G, nth_error Gs p = Some G /\ eq3 (ent G) (fun i c => slope (q i) c)).
Proof.
  intros omega svd order x v hs nbrs s0 d0 es s dN dNP1 dmg u vel s1 Fs Gs p X h bs js HI HS HP HR Hn HA Hh Ho HRes.
  destruct (initialize_fresh _ _ _ _ _ _ _ _ HI) as (A & B & _). destruct (steps_fresh _ _ _ _ _ _ _ _ _ _ _ _ _ _ A B HS HR) as (C & _ & dmg' & D & E & _).
  destruct (precompute_fresh _ _ _ _ _ _ _ _ _ _ _ _ _ _ _ _ _ HP C D E) as (_ & [_ FR] & HF & HG & _). specialize (FR p js Hn). split; intros q HD Hq.
  - destruct (fresh_gradient _ _ _ _ _ _ _ _ _ _ _ _ _ _ _ _ _ _ HA Hn FR Hh Ho HRes HF HD Hq) as (F & H1 & H2). exists F. split; [exact H1|]. intros i c Hi Hc. rewrite (H2 i c Hi Hc). f_equal. ij i c Hi Hc; reflexivity.
  - destruct (fresh_gradient _ _ _ _ _ _ _ _ _ _ _ _ _ _ _ _ _ _ HA Hn FR Hh Ho HRes HG HD Hq) as (F & H1 & H2). exists F. split; [exact H1|]. intros i c Hi Hc. rewrite (H2 i c Hi Hc).
    transitivity (0 + slope (q i) c); [f_equal; ij i c Hi Hc; reflexivity|ring].
Qed.
Print Assumptions C77_gradient.

(** In particular an affine deformation is recovered at every order. *)
Theorem C77_affine : forall omega svd order x v hs nbrs s0 d0 es s dN dNP1 dmg u vel s1 Fs Gs p X h bs js A b,
  ba_initialize (N:=RN) omega svd order x v hs nbrs = Ok s0 ->
  steps_run omega svd order x v hs nbrs es (s0, d0) = Ok (s, dN) ->
  ba_precompute (N:=RN) omega svd order x v hs nbrs dN dNP1 dmg u vel s = Ok (s1, Fs, Gs) ->
  reported nbrs d0 (repeat 0 (num_bonds nbrs)) (es ++ [(dNP1, dmg, u, vel)]) ->
  nth_error nbrs p = Some js -> around x v hs dmg nbrs p X h bs -> 0 < h -> (1 <= order)%Z -> resolved omega svd order h bs ->
  moved_by A b x u (p :: js) ->
  exists F, nth_error Fs p = Some F /\ eq3 (ent F) A.
Proof.
  intros omega svd order x v hs nbrs s0 d0 es s dN dNP1 dmg u vel s1 Fs Gs p X h bs js A b HI HS HP HR Hn HA Hh Ho HRes HM.
  set (q := fun i : nat => [(image A X i + comp b i - comp X i, (0, 0, 0)%nat); (A i 0%nat - kron i 0, unit_exp 0); (A i 1%nat - kron i 1, unit_exp 1); (A i 2%nat - kron i 2, unit_exp 2)]).
  destruct (proj1 (C77_gradient _ _ _ _ _ _ _ _ _ _ _ _ _ _ _ _ _ _ _ _ _ _ _ _ HI HS HP HR Hn HA Hh Ho HRes) q) as (F & H1 & H2).
  - intros j XP UP Hj HX HU i Hi. assert (In j (p :: js)) as Hj' by (destruct Hj as [->|Hj]; [now left|now right]). pose proof (HM j XP UP Hj' HX HU i Hi) as E.
    unfold poly_at, q. rewrite !so_cons, so_nil. cbn [fst snd unit_exp mono]. destruct X as [X1 X2 X3], XP as [P1 P2 P3], UP as [U1 U2 U3], b as [b1 b2 b3].
    unfold image, sum3 in *. i3 i Hi; cbn in E |- *; to_R; change (T RN) with R in *; lra.
  - intros i Hi. unfold degree_upto, q. repeat constructor; cbn; lia.
  - exists F. split; [exact H1|]. intros i c Hi Hc. rewrite (H2 i c Hi Hc). unfold slope, q. rewrite !so_cons, so_nil. cbn [fst snd]. ij i c Hi Hc; cbn; unfold kron; cbn; ring.
Qed.
Print Assumptions C77_affine.

(** No evaluation fails on data of the right length, whatever the positions. *)
Theorem C77_runs : forall omega svd order x v hs nbrs,
  bonds_fit (length x) nbrs -> (length x <= length v)%nat -> (length nbrs <= length hs)%nat ->
  (exists s, ba_initialize (N:=RN) omega svd order x v hs nbrs = Ok s /\ length (s_wt s) = num_bonds nbrs /\ length (s_flags s) = length nbrs) /\
  (forall dN dNP1 dmg u vel s, length u = length x -> length vel = length x ->
     (length nbrs <= length dN)%nat -> (length nbrs <= length dNP1)%nat -> (num_bonds nbrs <= length dmg)%nat ->
     length (s_wt s) = num_bonds nbrs -> length (s_flags s) = length nbrs ->
     exists s1 Fs Gs, ba_precompute (N:=RN) omega svd order x v hs nbrs dN dNP1 dmg u vel s = Ok (s1, Fs, Gs) /\
       length (s_wt s1) = num_bonds nbrs /\ length (s_flags s1) = length nbrs /\ length Fs = length nbrs).
Proof.
  intros omega svd order x v hs nbrs HB Hv Hh. split; [now apply initialize_total|]. intros. now apply precompute_total.
Qed.
Print Assumptions C77_runs.

(** ** Bond level gradient *)

(** It maps the bond to the deformed bond, agrees with the mean of the two ends across it,
    and is the only tensor that does; both ends of the bond get the same one. *)
Theorem C77_bond_level : forall (F FP : M3 RN) (xi d : V3 RN), vdot xi xi <> 0 ->
  bond_level (average (ent F) (ent FP)) xi d (ent (bond_gradient (mean F FP) xi d)) /\
  (forall G, bond_level (average (ent F) (ent FP)) xi d G -> eq3 G (ent (bond_gradient (mean F FP) xi d))) /\
  bond_gradient (mean FP F) (vscale (N:=RN) (-1) xi) (vscale (N:=RN) (-1) d) = bond_gradient (mean F FP) xi d.
Proof.
  intros F FP xi d H. assert (L : bond_level (average (ent F) (ent FP)) xi d (ent (bond_gradient (mean F FP) xi d))).
  { eapply bond_level_ext; [apply mean_average|]. now apply bond_gradient_level. }
  split; [exact L|]. split; [intros G HG; eapply bond_level_unique; eauto|].
  clear L. destruct F as [f0 f1 f2 f3 f4 f5 f6 f7 f8], FP as [g0 g1 g2 g3 g4 g5 g6 g7 g8], xi as [x y z], d as [d0 d1 d2]. unfold vdot in H. cbn [vx vy vz] in H. to_R. change (T RN) with R in *.
  apply M3_ext. intros i j Hi Hj. ij i j Hi Hj; cbn; to_R; change (T RN) with R; field; repeat split; try exact H; intros E; apply H; rewrite <- E; ring.
Qed.
Print Assumptions C77_bond_level.

(** A homogeneous deformation is recovered at the bonds. *)
Theorem C77_bond_affine : forall (F FP : M3 RN) (xi d : V3 RN) A, vdot xi xi <> 0 -> eq3 (ent F) A -> eq3 (ent FP) A ->
  (forall i, (i < 3)%nat -> comp d i = image A xi i) -> eq3 (ent (bond_gradient (mean F FP) xi d)) A.
Proof.
  intros F FP xi d A H H1 H2 Hd. intros i j Hi Hj. symmetry. apply (proj1 (proj2 (C77_bond_level F FP xi d H))); auto. split.
  - intros k Hk. symmetry. auto.
  - intros t _ k Hk. unfold image, sum3, average. rewrite !(H1 k), !(H2 k) by lia. field.
Qed.
Print Assumptions C77_bond_affine.

(** ** Broken bonds *)

(** A broken bond has no influence and no weight, and where its other end is and how large
    that is makes no difference to the weights of the other bonds. *)
Theorem C77_broken : forall omega svd order x x' v v' hs hs' dmg nbrs flags flags' old old' code code' wt wt' fs fs' p X h bs bs' fl fl',
  gradient_weights (N:=RN) omega svd order x v hs dmg nbrs flags old = Ok (code, wt, fs) ->
  gradient_weights (N:=RN) omega svd order x' v' hs' dmg nbrs flags' old' = Ok (code', wt', fs') ->
  nth_error flags p = Some fl -> fl < 1 / 2 -> nth_error flags' p = Some fl' -> fl' < 1 / 2 -> 0 < h ->
  around x v hs dmg nbrs p X h bs -> around x' v' hs' dmg nbrs p X h bs' ->
  Forall2 (fun b b' => b = b' \/ (bdmg b = 1 /\ bdmg b' = 1)) bs bs' ->
  own nbrs p wt = own nbrs p wt' /\
  (forall n b, nth_error bs n = Some b -> bdmg b = 1 -> nth_error (own nbrs p wt) n = Some (Bw (N:=RN) 0 vzero)).
Proof.
  intros omega svd order x x' v v' hs hs' dmg nbrs flags flags' old old' code code' wt wt' fs fs' p X h bs bs' fl fl' HG HG' Hf HF Hf' HF' Hh HA HA' F2.
  pose proof HA as (js & Hn & _).
  apply weights_from_spec in HG as (_ & _ & _ & HS), HG' as (_ & _ & _ & HS'). destruct (HS p js Hn) as (g & Hg & D), (HS' p js Hn) as (g' & Hg' & D'). cbn [Nat.add] in *.
  change (T RN) with R in *. rewrite Hf in Hg. injection Hg as <-. rewrite Hf' in Hg'. injection Hg' as <-. destruct D as [(_ & A & _)|(A & _)]; [|lra]. destruct D' as [(_ & A' & _)|(A' & _)]; [|lra].
  split.
  - pose proof (weights_broken omega svd order x x' v v' hs hs' dmg nbrs p X h bs bs' js Hn Hh HA HA' F2) as E. rewrite A, A' in E. now injection E.
  - intros n b Hb H1. rewrite (point_weights_ok omega svd order x v hs dmg nbrs p X h bs js HA Hn) in A by lra. injection A as <-. rewrite nth_error_map, Hb. cbn [option_map]. f_equal. now apply bweight_broken.
Qed.
Print Assumptions C77_broken.

(** ** Where it fails *)

(** Weights are refreshed only while the point damage is above that of the last step.  A
    bond broken in one trial of a step and whole in the next keeps the weight zero. *)
Theorem C77_trial_refuted : forall omega svd order x v hs nbrs dN d1 d2 dmg1 dmg2 u1 u2 vel1 vel2 s s1 s2 F1 G1 F2 G2 p js n X h bs1 bs2 xi vj fl,
  ba_precompute (N:=RN) omega svd order x v hs nbrs dN d1 dmg1 u1 vel1 s = Ok (s1, F1, G1) ->
  ba_precompute (N:=RN) omega svd order x v hs nbrs dN d2 dmg2 u2 vel2 s1 = Ok (s2, F2, G2) ->
  nth_error nbrs p = Some js -> nth_error (s_flags s) p = Some fl -> 0 < h ->
  nth p dN 0 + 1 / 1000000000000000 < nth p d1 0 -> nth p d2 0 <= nth p dN 0 ->
  around x v hs dmg1 nbrs p X h bs1 -> nth_error bs1 n = Some (xi, vj, 1) ->
  around x v hs dmg2 nbrs p X h bs2 -> nth_error bs2 n = Some (xi, vj, 0) -> omega (vlen xi) h <> 0 ->
  nth_error (own nbrs p (s_wt s2)) n = Some (Bw (N:=RN) 0 vzero) /\ ~ fresh omega svd order x v hs nbrs dmg2 (s_wt s2).
Proof.
  intros omega svd order x v hs nbrs dN d1 d2 dmg1 dmg2 u1 u2 vel1 vel2 s s1 s2 F1 G1 F2 G2 p js n X h bs1 bs2 xi vj fl H1 H2 Hn Hfl Hh D1 D2 A1 B1 A2 B2 Hom.
  destruct (proj1 (precompute_point _ _ _ _ _ _ _ _ _ _ _ _ _ _ _ _ _ _ _ H1 Hn Hfl) D1) as [P1 Q1].
  pose proof (proj2 (precompute_point _ _ _ _ _ _ _ _ _ _ _ _ _ _ _ _ _ _ _ H2 Hn Q1) ltac:(lra) ltac:(lra)) as E.
  rewrite (point_weights_ok omega svd order x v hs dmg1 nbrs p X h bs1 js A1 Hn) in P1 by lra. injection P1 as P1.
  assert (K : nth_error (own nbrs p (s_wt s2)) n = Some (Bw (N:=RN) 0 vzero)).
  { rewrite E, <- P1, nth_error_map, B1. cbn [option_map]. f_equal. now apply bweight_broken. }
  split; [exact K|]. intros FR. apply all_fresh_iff in FR as [_ FR]. specialize (FR p js Hn).
  rewrite (point_weights_ok omega svd order x v hs dmg2 nbrs p X h bs2 js A2 Hn) in FR by lra. injection FR as FR. rewrite <- FR, nth_error_map, B2 in K. cbn [option_map] in K. injection K as K _.
  unfold weight_of, bvec, bdmg in K. cbn [fst snd] in K. apply Hom. change (T RN) with R in *. change (ofZ (n:=RN) 0) with 0 in K. lra.
Qed.
Print Assumptions C77_trial_refuted.

(** When the bonds of a point lie in a plane, every deformation that fixes the plane gives
    the unit tensor, whatever it does across the plane; and no neighbourhood is ever refused. *)
Theorem C77_flat_refuted : forall omega svd order x v hs dmg nbrs flags old code wt fs u Fs p js X U nrm A b,
  gradient_weights (N:=RN) omega svd order x v hs dmg nbrs flags old = Ok (code, wt, fs) ->
  deformation_gradients (N:=RN) v u wt nbrs = Ok Fs ->
  nth_error nbrs p = Some js -> nth_error x p = Some X -> nth_error u p = Some U ->
  (forall j, In j js -> exists XP, nth_error x j = Some XP /\ vdot nrm (vsub XP X) = 0) ->
  (forall t, vdot nrm t = 0 -> forall i, (i < 3)%nat -> image A t i = comp t i) ->
  moved_by A b x u (p :: js) ->
  code = 0%Z /\ exists F, nth_error Fs p = Some F /\ eq3 (ent F) kron.
Proof.
  intros omega svd order x v hs dmg nbrs flags old code wt fs u Fs p js X U nrm A b HG HD Hn HX HU HP HAf HM.
  apply weights_from_spec in HG as (-> & _). split; [reflexivity|].
  destruct (gradient_still v u wt nbrs mone Fs p js U HD Hn HU) as (F & H1 & H2).
  - intros j UP Hj HUP. destruct (HP j Hj) as (XP & HXP & HO). pose proof (HAf _ HO) as E.
    assert (C : forall i, (i < 3)%nat -> comp UP i = comp U i).
    { intros i Hi. pose proof (HM j XP UP (or_intror Hj) HXP HUP i Hi) as E1. pose proof (HM p X U (or_introl eq_refl) HX HU i Hi) as E2. pose proof (E i Hi) as E3.
      unfold image, sum3 in *. destruct X as [X1 X2 X3], XP as [P1 P2 P3], UP as [U1 U2 U3], U as [V1 V2 V3], b as [b1 b2 b3].
      i3 i Hi; cbn in E1, E2, E3 |- *; to_R; change (T RN) with R in *; lra. }
    destruct UP as [U1 U2 U3], U as [V1 V2 V3]. f_equal; [apply (C 0%nat)|apply (C 1%nat)|apply (C 2%nat)]; lia.
  - exists F. split; [exact H1|]. intros i c Hi Hc. rewrite (H2 i c Hi Hc). ij i c Hi Hc; reflexivity.
Qed.
Print Assumptions C77_flat_refuted.

(** An accuracy order below one is accepted and makes every deformation gradient the unit tensor. *)
Theorem C77_order_refuted : forall omega svd order x v hs dmg nbrs flags old code wt fs u Fs p js fl, (order < 1)%Z ->
  gradient_weights (N:=RN) omega svd order x v hs dmg nbrs flags old = Ok (code, wt, fs) ->
  deformation_gradients (N:=RN) v u wt nbrs = Ok Fs ->
  nth_error nbrs p = Some js -> nth_error flags p = Some fl -> fl < 1 / 2 ->
  code = 0%Z /\ exists F, nth_error Fs p = Some F /\ eq3 (ent F) kron.
Proof.
  intros omega svd order x v hs dmg nbrs flags old code wt fs u Fs p js fl Ho HG HD Hn Hf HF.
  apply weights_from_spec in HG as (-> & _ & _ & HS). split; [reflexivity|]. destruct (HS p js Hn) as (g & Hg & D). cbn [Nat.add] in *.
  change (T RN) with R in *. rewrite Hf in Hg. injection Hg as <-. destruct D as [(_ & A & _)|(A & _)]; [|lra]. apply order_zero in A; auto.
  destruct (gradient_flatline v u wt nbrs mone Fs p js HD Hn A) as (F & H1 & H2). exists F. split; [exact H1|]. intros i c Hi Hc. rewrite (H2 i c Hi Hc). ij i c Hi Hc; reflexivity.
Qed.
Print Assumptions C77_order_refuted.

(** ** The hypotheses can be met: six neighbours, one on each side *)
Definition ex_x : list (V3 RN) := map (fun t => v3 (N:=RN) (fst (fst t)) (snd (fst t)) (snd t))
  [(0, 0, 0); (1, 0, 0); (-1, 0, 0); (0, 1, 0); (0, -1, 0); (0, 0, 1); (0, 0, -1)].
Definition ex_v : list R := repeat 1 7.
Definition ex_nbrs : list (list nat) := [[1; 2; 3; 4; 5; 6]%nat].
Definition ex_om (_ _ : R) : R := 1.
Definition ex_one : list (list R) := [[1; 0; 0]; [0; 1; 0]; [0; 0; 1]].
Definition ex_svd (_ : list (list R)) : list (list R) * list R * list (list R) := (ex_one, [2; 2; 2], ex_one).
Definition ex_bonds (d : R) : list bond3 :=
  [(v3 (N:=RN) 1 0 0, 1, d); (v3 (N:=RN) (-1) 0 0, 1, 0); (v3 (N:=RN) 0 1 0, 1, 0); (v3 (N:=RN) 0 (-1) 0, 1, 0); (v3 (N:=RN) 0 0 1, 1, 0); (v3 (N:=RN) 0 0 (-1), 1, 0)].

Lemma ex_around : forall d, around ex_x ex_v [1] [d; 0; 0; 0; 0; 0] ex_nbrs 0 (v3 (N:=RN) 0 0 0) 1 (ex_bonds d).
Proof.
  intros d. exists [1; 2; 3; 4; 5; 6]%nat. repeat (split; [reflexivity|]). intros n j Hn.
  assert (V : forall a b c : R, vsub (N:=RN) (v3 (N:=RN) a b c) (v3 (N:=RN) 0 0 0) = v3 (N:=RN) a b c) by (intros; unfold vsub; cbn; f_equal; to_R; lra).
  do 6 (destruct n as [|n]; [cbn in Hn; injection Hn as <-; do 3 eexists; repeat (split; [reflexivity|]); rewrite V; reflexivity|]). destruct n; discriminate.
Qed.
Lemma ex_gram : gram ex_om 1 (powers 1) (ex_bonds 0) = [[2; 0; 0]; [0; 2; 0]; [0; 0; 2]].
Proof.
  unfold gram, ex_bonds, weight_of, ex_om, sum_over. change (powers 1) with [(1, 0, 0); (0, 1, 0); (0, 0, 1)]%nat. cbn.
  repeat (apply f_equal2; [repeat (apply f_equal2; [field|]); reflexivity|]). reflexivity.
Qed.
Example C77_met : resolved ex_om ex_svd 1 1 (ex_bonds 0) /\ spread ex_om 1 1 (ex_bonds 0).
Proof.
  split.
  - exists ex_one, [2; 2; 2], ex_one. split; [reflexivity|]. split.
    + rewrite ex_gram. change (length (powers 1)) with 3%nat. unfold is_svd, square, sum_to, sum_over.
      split; [|split; [|split; [|split; [|split; [|split; [|split]]]]]]; try (split; [reflexivity|repeat constructor]); try reflexivity;
        try (intros i j Hi Hj; ij i j Hi Hj; cbn; lra). repeat constructor; lra.
    + repeat constructor; lra.
  - unfold spread. change (powers 1) with [(1, 0, 0); (0, 1, 0); (0, 0, 1)]%nat. intros z. unfold sum_to, sum_over, ex_bonds, weight_of, ex_om, Rsqr. cbn. intros Hz. lra.
Qed.


Lemma ex_fit : bonds_fit (length ex_x) ex_nbrs.
Proof. split; [cbn; lia|]. repeat constructor. Qed.
(** from the start, with one bond breaking in the step; the displacement is any affine one *)
Example C77_run : forall u vel, length u = 7%nat -> length vel = 7%nat -> exists s0 s1 Fs Gs,
  ba_initialize (N:=RN) ex_om ex_svd 1 ex_x ex_v [1] ex_nbrs = Ok s0 /\
  ba_precompute (N:=RN) ex_om ex_svd 1 ex_x ex_v [1] ex_nbrs [0] [1 / 6] [1; 0; 0; 0; 0; 0] u vel s0 = Ok (s1, Fs, Gs) /\
  breaking ex_nbrs (repeat 0 (num_bonds ex_nbrs)) [([1 / 6], [1; 0; 0; 0; 0; 0], u, vel)].
Proof.
  intros u vel Hu Hv. destruct (C77_runs ex_om ex_svd 1 ex_x ex_v [1] ex_nbrs ex_fit) as [(s0 & HI & L1 & L2) HP]; [cbn; lia|cbn; lia|].
  destruct (HP [0] [1 / 6] [1; 0; 0; 0; 0; 0] u vel s0) as (s1 & Fs & Gs & E & _); auto; try (cbn; lia).
  exists s0, s1, Fs, Gs. split; [exact HI|]. split; [exact E|]. split; [reflexivity|]. split; [|split; [|exact Logic.I]].
  - intros k. do 6 (destruct k as [|k]; [cbn; unfold is01; lra|]). destruct k; cbn; unfold is01; lra.
  - intros p Hp. destruct p as [|p]; [|cbn in Hp; lia]. unfold mean_damage, own, sum_over. cbn. lra.
Qed.
Example C77_trial_met : exists s s1 s2 F1 G1 F2 G2, let u := repeat (vzero (N:=RN)) 7 in
  ba_precompute (N:=RN) ex_om ex_svd 1 ex_x ex_v [1] ex_nbrs [0] [1 / 6] [1; 0; 0; 0; 0; 0] u u s = Ok (s1, F1, G1) /\
  ba_precompute (N:=RN) ex_om ex_svd 1 ex_x ex_v [1] ex_nbrs [0] [0] [0; 0; 0; 0; 0; 0] u u s1 = Ok (s2, F2, G2) /\
  ~ fresh ex_om ex_svd 1 ex_x ex_v [1] ex_nbrs [0; 0; 0; 0; 0; 0] (s_wt s2).
Proof.
  set (u := repeat (vzero (N:=RN)) 7). destruct (C77_runs ex_om ex_svd 1 ex_x ex_v [1] ex_nbrs ex_fit) as [(s0 & HI & L1 & L2) HP]; [cbn; lia|cbn; lia|].
  destruct (HP [0] [1 / 6] [1; 0; 0; 0; 0; 0] u u s0) as (s1 & F1 & G1 & E1 & L3 & L4 & _); auto; try (cbn; lia).
  destruct (HP [0] [0] [0; 0; 0; 0; 0; 0] u u s1) as (s2 & F2 & G2 & E2 & _); auto; try (cbn; lia).
  exists s0, s1, s2, F1, G1, F2, G2. split; [exact E1|]. split; [exact E2|].
  destruct (s_flags s0) as [|fl r] eqn:Ef; [discriminate|].
  refine (proj2 (C77_trial_refuted _ _ _ _ _ _ _ _ _ _ _ _ _ _ _ _ _ _ _ _ _ _ _ 0%nat _ 0%nat _ 1 _ _ _ _ fl E1 E2 eq_refl _ ltac:(lra) _ _ (ex_around 1) eq_refl (ex_around 0) eq_refl _)).
  - now rewrite Ef.
  - cbn. lra.
  - cbn. lra.
  - unfold ex_om. lra.
Qed.
