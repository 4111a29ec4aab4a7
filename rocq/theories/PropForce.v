(** * Pairwise force kernels: C08 - C12

    Everything here is over the real numbers, for arbitrary clouds, neighbour lists
    (symmetric or not, with or without repeated points), histories and constants.
    In the reals the kernels' quotients are total functions with an unspecified value at
    zero; the conservation theorems hold whatever that value is.  In binary64 a bond
    whose deformed ends coincide yields NaN: see C08_coincident_ends_binary64_refuted. *)
From Coq Require Import Reals Lra Lia SpecFloat.
From Verif Require Import Base Num ModelNeigh SpecDamage ModelForce SpecForce ProofForce ProofKernels ProofFrame ProofMaterial.
Local Open Scope R_scope.
Local Notation vec := (V3 RN).

(** ** C08: a broken bond carries no force *)

(** The force density of a bond with damage 1 is zero: for every point data, every
    configuration and every material constant. *)
Theorem C08_lps_broken_bond_is_force_free : forall omega K MU h al dT x y v m theta dmg part d p k j fb s,
  nth_error dmg k = Some 1 -> bond _ _ (lps (N:=RN) omega K MU h al dT x y v m theta dmg part) d p k j = Ok (fb, s) -> fb = vzero.
Proof. exact lps_broken. Qed.
Print Assumptions C08_lps_broken_bond_is_force_free.

Theorem C08_bond_based_broken_bond_is_force_free : forall K h pl ht x y v dmg d p k j fb s,
  nth_error dmg k = Some 1 -> bond _ _ (bond_based (N:=RN) K h pl ht x y v dmg) d p k j = Ok (fb, s) -> fb = vzero.
Proof. exact bb_broken. Qed.
Print Assumptions C08_bond_based_broken_bond_is_force_free.

Theorem C08_viscoelastic_broken_bond_is_force_free : forall ex K MU lam tau dt x yN y v m t0 t1 dmg edb d p k j fb s,
  nth_error dmg k = Some 1 -> bond _ _ (visco (N:=RN) ex K MU lam tau dt x yN y v m t0 t1 dmg edb) d p k j = Ok (fb, s) -> fb = vzero.
Proof. exact visco_broken. Qed.
Print Assumptions C08_viscoelastic_broken_bond_is_force_free.

Theorem C08_elastic_plastic_broken_bond_is_force_free : forall K MU sigma h pl x y v m theta dmg edp lam d p k j fb s,
  nth_error dmg k = Some 1 -> bond _ _ (elastic_plastic (N:=RN) K MU sigma h pl x y v m theta dmg edp lam) d p k j = Ok (fb, s) -> fb = vzero.
Proof. exact ep_broken. Qed.
Print Assumptions C08_elastic_plastic_broken_bond_is_force_free.

Theorem C08_hardening_broken_bond_is_force_free : forall up K MU H sigma h x y v m theta dmg scf edp lam d p k j fb s,
  nth_error dmg k = Some 1 -> bond _ _ (hardening (N:=RN) up K MU H sigma h x y v m theta dmg scf edp lam) d p k j = Ok (fb, s) -> fb = vzero.
Proof. exact hard_broken. Qed.
Print Assumptions C08_hardening_broken_bond_is_force_free.

Theorem C08_linear_lps_broken_bond_is_force_free : forall omega K MU h x y v m theta dmg part st d p k j fb s,
  nth_error dmg k = Some 1 -> bond _ _ (linear_lps (N:=RN) omega K MU h x y v m theta dmg part st) d p k j = Ok (fb, s) -> fb = vzero.
Proof. exact linear_broken. Qed.
Print Assumptions C08_linear_lps_broken_bond_is_force_free.

(** A point all of whose bonds are broken (its own and those of others to it) keeps the
    force it had. *)
Theorem C08_lps_cut_off_point_is_untouched : forall omega K MU h al dT n nbrs x y v m theta dmg f i,
  lps_inputs (N:=RN) n nbrs x y v m theta dmg dT None -> length f = n -> cut_off nbrs dmg i ->
  exists f' out, run_kernel (lps (N:=RN) omega K MU h al dT x y v m theta dmg None) nbrs f = Ok (f', out) /\ nth_error f' i = nth_error f i.
Proof. exact lps_cut_off. Qed.
Print Assumptions C08_lps_cut_off_point_is_untouched.

Theorem C08_bond_based_cut_off_point_is_untouched : forall K h pl ht n nbrs x y v dmg f i,
  bb_inputs (N:=RN) n nbrs x y v dmg -> length f = n -> cut_off nbrs dmg i ->
  exists f' out, run_kernel (bond_based (N:=RN) K h pl ht x y v dmg) nbrs f = Ok (f', out) /\ nth_error f' i = nth_error f i.
Proof. exact bb_cut_off. Qed.
Print Assumptions C08_bond_based_cut_off_point_is_untouched.

Theorem C08_viscoelastic_cut_off_point_is_untouched : forall ex K MU lam tau dt n nbrs x yN y v m t0 t1 dmg edb f i,
  visco_inputs (N:=RN) n nbrs x yN y v m t0 t1 dmg edb -> length f = n -> cut_off nbrs dmg i ->
  exists f' out, run_kernel (visco (N:=RN) ex K MU lam tau dt x yN y v m t0 t1 dmg edb) nbrs f = Ok (f', out) /\ nth_error f' i = nth_error f i.
Proof. exact visco_cut_off. Qed.
Print Assumptions C08_viscoelastic_cut_off_point_is_untouched.

Theorem C08_elastic_plastic_cut_off_point_is_untouched : forall K MU sigma h pl n nbrs x y v m theta dmg edp lam f i,
  ep_inputs (N:=RN) n nbrs x y v m theta dmg edp lam -> length f = n -> cut_off nbrs dmg i ->
  exists f' out, run_kernel (elastic_plastic (N:=RN) K MU sigma h pl x y v m theta dmg edp lam) nbrs f = Ok (f', out) /\ nth_error f' i = nth_error f i.
Proof. exact ep_cut_off. Qed.
Print Assumptions C08_elastic_plastic_cut_off_point_is_untouched.

Theorem C08_hardening_cut_off_point_is_untouched : forall up K MU H sigma h n nbrs x y v m theta dmg scf edp lam f i,
  ep_inputs (N:=RN) n nbrs x y v m theta dmg edp lam -> per_point (N:=RN) nbrs scf -> length f = n -> cut_off nbrs dmg i ->
  exists f' out, run_kernel (hardening (N:=RN) up K MU H sigma h x y v m theta dmg scf edp lam) nbrs f = Ok (f', out) /\ nth_error f' i = nth_error f i.
Proof. exact hard_cut_off. Qed.
Print Assumptions C08_hardening_cut_off_point_is_untouched.

(** Forces (and dilatations) do not depend on how the ends of broken bonds move relative
    to one another: two configurations that agree on every unbroken bond give the same
    forces. *)
Theorem C08_lps_ignores_broken_bonds : forall omega K MU h al dT n nbrs x y v m theta dmg y' f,
  lps_inputs (N:=RN) n nbrs x y v m theta dmg dT None -> same_but_broken nbrs dmg y y' -> length f = n ->
  exists f' out out', run_kernel (lps (N:=RN) omega K MU h al dT x y v m theta dmg None) nbrs f = Ok (f', out) /\ run_kernel (lps (N:=RN) omega K MU h al dT x y' v m theta dmg None) nbrs f = Ok (f', out').
Proof. exact lps_ignores. Qed.
Print Assumptions C08_lps_ignores_broken_bonds.

Theorem C08_bond_based_ignores_broken_bonds : forall K h pl ht n nbrs x y v dmg y' f,
  bb_inputs (N:=RN) n nbrs x y v dmg -> same_but_broken nbrs dmg y y' -> length f = n ->
  exists f' out out', run_kernel (bond_based (N:=RN) K h pl ht x y v dmg) nbrs f = Ok (f', out) /\ run_kernel (bond_based (N:=RN) K h pl ht x y' v dmg) nbrs f = Ok (f', out').
Proof. exact bb_ignores. Qed.
Print Assumptions C08_bond_based_ignores_broken_bonds.

Theorem C08_viscoelastic_ignores_broken_bonds : forall ex K MU lam tau dt n nbrs x yN y v m t0 t1 dmg edb yN' y' f,
  visco_inputs (N:=RN) n nbrs x yN y v m t0 t1 dmg edb -> same_but_broken nbrs dmg yN yN' -> same_but_broken nbrs dmg y y' -> length f = n ->
  exists f' out out', run_kernel (visco (N:=RN) ex K MU lam tau dt x yN y v m t0 t1 dmg edb) nbrs f = Ok (f', out) /\ run_kernel (visco (N:=RN) ex K MU lam tau dt x yN' y' v m t0 t1 dmg edb) nbrs f = Ok (f', out').
Proof. exact visco_ignores. Qed.
Print Assumptions C08_viscoelastic_ignores_broken_bonds.

Theorem C08_elastic_plastic_ignores_broken_bonds : forall K MU sigma h pl n nbrs x y v m theta dmg edp lam y' f,
  ep_inputs (N:=RN) n nbrs x y v m theta dmg edp lam -> same_but_broken nbrs dmg y y' -> length f = n ->
  exists f' out out', run_kernel (elastic_plastic (N:=RN) K MU sigma h pl x y v m theta dmg edp lam) nbrs f = Ok (f', out) /\ run_kernel (elastic_plastic (N:=RN) K MU sigma h pl x y' v m theta dmg edp lam) nbrs f = Ok (f', out').
Proof. exact ep_ignores. Qed.
Print Assumptions C08_elastic_plastic_ignores_broken_bonds.

Theorem C08_hardening_ignores_broken_bonds : forall up K MU H sigma h n nbrs x y v m theta dmg scf edp lam y' f,
  ep_inputs (N:=RN) n nbrs x y v m theta dmg edp lam -> per_point (N:=RN) nbrs scf -> same_but_broken nbrs dmg y y' -> length f = n ->
  exists f' out out', run_kernel (hardening (N:=RN) up K MU H sigma h x y v m theta dmg scf edp lam) nbrs f = Ok (f', out) /\ run_kernel (hardening (N:=RN) up K MU H sigma h x y' v m theta dmg scf edp lam) nbrs f = Ok (f', out').
Proof. exact hard_ignores. Qed.
Print Assumptions C08_hardening_ignores_broken_bonds.

Theorem C08_dilatation_ignores_broken_bonds : forall omega h al dT x y y' v dmg nbV m nbrs th,
  same_but_broken nbrs dmg y y' ->
  dilatations (dilatation (N:=RN) omega h al dT x y v dmg nbV m) 0 0 nbrs = Ok th ->
  dilatations (dilatation (N:=RN) omega h al dT x y' v dmg nbV m) 0 0 nbrs = Ok th.
Proof. exact dil_ignores. Qed.
Print Assumptions C08_dilatation_ignores_broken_bonds.


(** Two points joined by a broken bond and a third joined by intact bonds; the first
    point flies away.  The hypotheses hold and the configurations differ. *)
Definition nb3 : list (list nat) := [[1]; [2]; [1]]%nat.
Definition x3 : list vec := [v3 (N:=RN) 0 0 0; v3 (N:=RN) 1 0 0; v3 (N:=RN) 2 0 0].
Definition y3 : list vec := [v3 (N:=RN) 0 0 0; v3 (N:=RN) 2 0 0; v3 (N:=RN) 4 0 0].
Definition y3' : list vec := [v3 (N:=RN) (-7) 5 0; v3 (N:=RN) 2 0 0; v3 (N:=RN) 4 0 0].
Example C08_concrete :
  same_but_broken nb3 [1; 0; 0] y3 y3' /\ y3 <> y3' /\ cut_off nb3 [1; 0; 0] 0%nat /\
  lps_inputs (N:=RN) 3 nb3 x3 y3 [1; 1; 1] [1; 1; 1] [0; 0; 0] [1; 0; 0] None None.
Proof.
  assert (Hb : forall p k j, bond_at nb3 p k j -> (p = 0 /\ k = 0 /\ j = 1 \/ p = 1 /\ k = 1 /\ j = 2 \/ p = 2 /\ k = 2 /\ j = 1)%nat).
  { intros p k j (js & n & H1 & H2 & ->). destruct p as [|[|[|p]]]; simpl in H1; [..|destruct p; discriminate];
      injection H1 as <-; (destruct n as [|n]; [|destruct n; discriminate]); injection H2 as <-; cbn; lia. }
  split; [|split; [|split]].
  - split; [reflexivity|]. intros p k j H Hk. destruct (Hb p k j H) as [(-> & -> & ->)|[(-> & -> & ->)|(-> & -> & ->)]].
    + simpl in Hk. congruence.
    + intros Y YP Y' YP' H1 H2 H3 H4. simpl in *. congruence.
    + intros Y YP Y' YP' H1 H2 H3 H4. simpl in *. congruence.
  - intros C. injection C as C _. lra.
  - intros p k j H Hi. destruct (Hb p k j H) as [(-> & -> & ->)|[(-> & -> & ->)|(-> & -> & ->)]]; simpl; auto; lia.
  - repeat split; try reflexivity; simpl; auto; repeat constructor.
Qed.

(** In binary64 the statement fails when the deformed ends of the broken bond coincide:
    0 * 0 / 0 is NaN, and it is added to the force of both ends.  (y of both points is
    the origin, damage 1, all other data 1 and the reference points 1 apart.) *)
Definition f0 : spec_float := fofZ 0.
Definition f1 : spec_float := fofZ 1.
Definition nan_run : list spec_float :=
  match run_kernel (lps (N:=FN) (fun _ _ => f1) f1 f1 f1 f1 None
      [v3 (N:=FN) f0 f0 f0; v3 (N:=FN) f1 f0 f0] [v3 (N:=FN) f0 f0 f0; v3 (N:=FN) f0 f0 f0]
      [f1; f1] [f1; f1] [f1; f1] [f1] None) [[1]; []]%nat [v3 (N:=FN) f0 f0 f0; v3 (N:=FN) f0 f0 f0] with
  | Ok (f, _) => map (@vx FN) f
  | _ => []
  end.
Theorem C08_coincident_ends_binary64_refuted : nan_run = [S754_nan; S754_nan].
Proof. vm_compute. reflexivity. Qed.
Print Assumptions C08_coincident_ends_binary64_refuted.

(** ** C09: linear momentum *)

Theorem C09_lps_momentum : forall omega K MU h al dT n nbrs x y v m theta dmg f,
  lps_inputs (N:=RN) n nbrs x y v m theta dmg dT None -> length f = n ->
  exists f' out, run_kernel (lps (N:=RN) omega K MU h al dT x y v m theta dmg None) nbrs f = Ok (f', out) /\ length f' = n /\
    momentum v f' = momentum v f /\ (f = repeat vzero n -> momentum v f' = vzero).
Proof. exact lps_linear. Qed.
Print Assumptions C09_lps_momentum.

Theorem C09_bond_based_momentum : forall K h pl ht n nbrs x y v dmg f,
  bb_inputs (N:=RN) n nbrs x y v dmg -> length f = n ->
  exists f' out, run_kernel (bond_based (N:=RN) K h pl ht x y v dmg) nbrs f = Ok (f', out) /\ length f' = n /\
    momentum v f' = momentum v f /\ (f = repeat vzero n -> momentum v f' = vzero).
Proof. exact bb_linear. Qed.
Print Assumptions C09_bond_based_momentum.

Theorem C09_viscoelastic_momentum : forall ex K MU lam tau dt n nbrs x yN y v m t0 t1 dmg edb f,
  visco_inputs (N:=RN) n nbrs x yN y v m t0 t1 dmg edb -> length f = n ->
  exists f' out, run_kernel (visco (N:=RN) ex K MU lam tau dt x yN y v m t0 t1 dmg edb) nbrs f = Ok (f', out) /\ length f' = n /\
    momentum v f' = momentum v f /\ (f = repeat vzero n -> momentum v f' = vzero).
Proof. exact visco_linear. Qed.
Print Assumptions C09_viscoelastic_momentum.

Theorem C09_elastic_plastic_momentum : forall K MU sigma h pl n nbrs x y v m theta dmg edp lam f,
  ep_inputs (N:=RN) n nbrs x y v m theta dmg edp lam -> length f = n ->
  exists f' out, run_kernel (elastic_plastic (N:=RN) K MU sigma h pl x y v m theta dmg edp lam) nbrs f = Ok (f', out) /\ length f' = n /\
    momentum v f' = momentum v f /\ (f = repeat vzero n -> momentum v f' = vzero).
Proof. exact ep_linear. Qed.
Print Assumptions C09_elastic_plastic_momentum.

Theorem C09_hardening_momentum : forall up K MU H sigma h n nbrs x y v m theta dmg scf edp lam f,
  ep_inputs (N:=RN) n nbrs x y v m theta dmg edp lam -> per_point (N:=RN) nbrs scf -> length f = n ->
  exists f' out, run_kernel (hardening (N:=RN) up K MU H sigma h x y v m theta dmg scf edp lam) nbrs f = Ok (f', out) /\ length f' = n /\
    momentum v f' = momentum v f /\ (f = repeat vzero n -> momentum v f' = vzero).
Proof. exact hard_linear. Qed.
Print Assumptions C09_hardening_momentum.

(** Partial volume kernels (bond-wise volumes): momentum is conserved when the bond-wise
    volumes of the two ends are in the ratio of the cell volumes ... *)
Theorem C09_partial_volume_momentum_when_balanced : forall omega K MU h al dT n nbrs x y v m theta dmg selfV nbV f,
  lps_inputs (N:=RN) n nbrs x y v m theta dmg dT (Some (selfV, nbV)) -> length f = n ->
  (forall p k j, bond_at nbrs p k j -> nth p v 0 * nth k nbV 0 = nth j v 0 * nth k selfV 0) ->
  exists f' out, run_kernel (lps (N:=RN) omega K MU h al dT x y v m theta dmg (Some (selfV, nbV))) nbrs f = Ok (f', out) /\
    momentum v f' = momentum v f /\ moment v y f' = moment v y f.
Proof. exact pv_conserves. Qed.
Print Assumptions C09_partial_volume_momentum_when_balanced.


(** ... but in general not: one bond whose own end has half the volume. *)
Definition ones (_ _ : R) : R := 1.
Lemma vlen_x : forall a b, a <= b -> vlen (vsub (v3 (N:=RN) b 0 0) (v3 (N:=RN) a 0 0)) = b - a.
Proof.
  intros a b H. unfold vlen, vdot, vsub. cbn. to_R.
  replace ((b - a) * (b - a) + (0 - 0) * (0 - 0) + (0 - 0) * (0 - 0)) with (Rsqr (b - a)) by (unfold Rsqr; ring).
  apply sqrt_Rsqr. lra.
Qed.
Definition pv_run := run_kernel (lps (N:=RN) ones 1 0 1 0 None
      [v3 (N:=RN) 0 0 0; v3 (N:=RN) 1 0 0] [v3 (N:=RN) 0 0 0; v3 (N:=RN) 2 0 0] [1; 1] [1; 1] [1; 1] [0] (Some ([/ 2], [1]))) [[1]; []]%nat
      [vzero; vzero].
Theorem C09_partial_volume_momentum_refuted :
  lps_inputs (N:=RN) 2 [[1]; []]%nat [v3 (N:=RN) 0 0 0; v3 (N:=RN) 1 0 0] [v3 (N:=RN) 0 0 0; v3 (N:=RN) 2 0 0] [1; 1] [1; 1] [1; 1] [0]
    None (Some ([/ 2], [1])) /\
  exists f' out, pv_run = Ok (f', out) /\ momentum [1; 1] f' <> vzero.
Proof.
  split.
  - repeat split; try reflexivity; simpl; auto; repeat constructor.
  - unfold pv_run, run_kernel. cbn [point_loop bond_loop pre bond vols lps bind at_ub nth_error opt_at bond_volumes Nat.add length].
    rewrite !vlen_x by lra. unfold add_at, sub_at, upd_ub. cbn [at_ub nth_error bind upd].
    eexists _, _. split; [reflexivity|]. intros C. apply (f_equal (@vx RN)) in C. revert C.
    unfold lps_t, ones, thermal. cbn. to_R. intros C. lra.
Qed.
Print Assumptions C09_partial_volume_momentum_refuted.

(** The hypotheses are met by a cloud with non-zero forces. *)
Example C09_concrete :
  lps_inputs (N:=RN) 2 [[1]; [0]]%nat [v3 (N:=RN) 0 0 0; v3 (N:=RN) 1 0 0] [v3 (N:=RN) 0 0 0; v3 (N:=RN) 2 0 0] [1; 3] [3; 1] [3; 1] [0; 0] None None /\
  exists f' out, run_kernel (lps (N:=RN) ones 1 0 1 0 None [v3 (N:=RN) 0 0 0; v3 (N:=RN) 1 0 0] [v3 (N:=RN) 0 0 0; v3 (N:=RN) 2 0 0]
      [1; 3] [3; 1] [3; 1] [0; 0] None) [[1]; [0]]%nat [vzero; vzero] = Ok (f', out) /\
    exists a, nth_error f' 0 = Some a /\ vx a = 18.
Proof.
  split.
  - repeat split; try reflexivity; simpl; auto; repeat constructor.
  - unfold run_kernel. cbn [point_loop bond_loop pre bond vols lps bind at_ub nth_error opt_at bond_volumes cell_volumes Nat.add length].
    assert (S1 : vlen (vsub (v3 (N:=RN) 0 0 0) (v3 (N:=RN) 1 0 0)) = 1).
    { unfold vlen, vdot, vsub. cbn. to_R. replace ((0 - 1) * (0 - 1) + (0 - 0) * (0 - 0) + (0 - 0) * (0 - 0)) with (Rsqr 1) by (unfold Rsqr; ring). apply sqrt_Rsqr. lra. }
    assert (S2 : vlen (vsub (v3 (N:=RN) 0 0 0) (v3 (N:=RN) 2 0 0)) = 2).
    { unfold vlen, vdot, vsub. cbn. to_R. replace ((0 - 2) * (0 - 2) + (0 - 0) * (0 - 0) + (0 - 0) * (0 - 0)) with (Rsqr 2) by (unfold Rsqr; ring). apply sqrt_Rsqr. lra. }
    rewrite S1, S2, !vlen_x by lra. unfold add_at, sub_at, upd_ub. cbn [at_ub nth_error bind upd].
    eexists _, _. split; [reflexivity|]. eexists. split; [reflexivity|].
    unfold lps_t, ones, thermal. cbn. to_R. lra.
Qed.

(** ** C10: angular momentum, about the deformed positions *)

Theorem C10_lps_moment : forall omega K MU h al dT n nbrs x y v m theta dmg f,
  lps_inputs (N:=RN) n nbrs x y v m theta dmg dT None -> length f = n ->
  exists f' out, run_kernel (lps (N:=RN) omega K MU h al dT x y v m theta dmg None) nbrs f = Ok (f', out) /\ length f' = n /\
    moment v y f' = moment v y f /\ (f = repeat vzero n -> moment v y f' = vzero).
Proof. exact lps_angular. Qed.
Print Assumptions C10_lps_moment.

Theorem C10_bond_based_moment : forall K h pl ht n nbrs x y v dmg f,
  bb_inputs (N:=RN) n nbrs x y v dmg -> length f = n ->
  exists f' out, run_kernel (bond_based (N:=RN) K h pl ht x y v dmg) nbrs f = Ok (f', out) /\ length f' = n /\
    moment v y f' = moment v y f /\ (f = repeat vzero n -> moment v y f' = vzero).
Proof. exact bb_angular. Qed.
Print Assumptions C10_bond_based_moment.

Theorem C10_viscoelastic_moment : forall ex K MU lam tau dt n nbrs x yN y v m t0 t1 dmg edb f,
  visco_inputs (N:=RN) n nbrs x yN y v m t0 t1 dmg edb -> length f = n ->
  exists f' out, run_kernel (visco (N:=RN) ex K MU lam tau dt x yN y v m t0 t1 dmg edb) nbrs f = Ok (f', out) /\ length f' = n /\
    moment v y f' = moment v y f /\ (f = repeat vzero n -> moment v y f' = vzero).
Proof. exact visco_angular. Qed.
Print Assumptions C10_viscoelastic_moment.

Theorem C10_elastic_plastic_moment : forall K MU sigma h pl n nbrs x y v m theta dmg edp lam f,
  ep_inputs (N:=RN) n nbrs x y v m theta dmg edp lam -> length f = n ->
  exists f' out, run_kernel (elastic_plastic (N:=RN) K MU sigma h pl x y v m theta dmg edp lam) nbrs f = Ok (f', out) /\ length f' = n /\
    moment v y f' = moment v y f /\ (f = repeat vzero n -> moment v y f' = vzero).
Proof. exact ep_angular. Qed.
Print Assumptions C10_elastic_plastic_moment.

Theorem C10_hardening_moment : forall up K MU H sigma h n nbrs x y v m theta dmg scf edp lam f,
  ep_inputs (N:=RN) n nbrs x y v m theta dmg edp lam -> per_point (N:=RN) nbrs scf -> length f = n ->
  exists f' out, run_kernel (hardening (N:=RN) up K MU H sigma h x y v m theta dmg scf edp lam) nbrs f = Ok (f', out) /\ length f' = n /\
    moment v y f' = moment v y f /\ (f = repeat vzero n -> moment v y f' = vzero).
Proof. exact hard_angular. Qed.
Print Assumptions C10_hardening_moment.

(** The linearised solid's forces act along the reference bonds: its moment vanishes
    about the reference positions. *)
Theorem C10_linear_lps_moment_about_reference : forall omega K MU h n nbrs x y v m theta dmg st f,
  lps_inputs (N:=RN) n nbrs x y v m theta dmg None None -> opt_ok (per_bond (N:=RN) nbrs) st -> length f = n ->
  exists f' out, run_kernel (linear_lps (N:=RN) omega K MU h x y v m theta dmg None st) nbrs f = Ok (f', out) /\
    momentum v f' = momentum v f /\ moment v x f' = moment v x f.
Proof. exact linear_conserves. Qed.
Print Assumptions C10_linear_lps_moment_about_reference.


(** ** C11: frame indifference *)

Theorem C11_dilatation_unchanged : forall omega h al dT x y v dmg nbV m nbrs Q c th, orthogonal Q ->
  dilatations (dilatation (N:=RN) omega h al dT x y v dmg nbV m) 0 0 nbrs = Ok th ->
  dilatations (dilatation (N:=RN) omega h al dT x (map (move Q c) y) v dmg nbV m) 0 0 nbrs = Ok th.
Proof. exact dil_frame. Qed.
Print Assumptions C11_dilatation_unchanged.

Theorem C11_lps_force_rotates : forall omega K MU h al dT n nbrs x y v m theta dmg Q c f, orthogonal Q ->
  lps_inputs (N:=RN) n nbrs x y v m theta dmg dT None -> length f = n ->
  exists f' out out', run_kernel (lps (N:=RN) omega K MU h al dT x y v m theta dmg None) nbrs f = Ok (f', out) /\
    run_kernel (lps (N:=RN) omega K MU h al dT x (map (move Q c) y) v m theta dmg None) nbrs (map (rotate Q) f) = Ok (map (rotate Q) f', out').
Proof. exact lps_frame. Qed.
Print Assumptions C11_lps_force_rotates.

Theorem C11_bond_based_force_rotates : forall K h pl ht n nbrs x y v dmg Q c f, orthogonal Q ->
  bb_inputs (N:=RN) n nbrs x y v dmg -> length f = n ->
  exists f' out out', run_kernel (bond_based (N:=RN) K h pl ht x y v dmg) nbrs f = Ok (f', out) /\
    run_kernel (bond_based (N:=RN) K h pl ht x (map (move Q c) y) v dmg) nbrs (map (rotate Q) f) = Ok (map (rotate Q) f', out').
Proof. exact bb_frame. Qed.
Print Assumptions C11_bond_based_force_rotates.

Theorem C11_viscoelastic_force_rotates : forall ex K MU lam tau dt n nbrs x yN y v m t0 t1 dmg edb Q0 c0 Q c f, orthogonal Q0 -> orthogonal Q ->
  visco_inputs (N:=RN) n nbrs x yN y v m t0 t1 dmg edb -> length f = n ->
  exists f' out out', run_kernel (visco (N:=RN) ex K MU lam tau dt x yN y v m t0 t1 dmg edb) nbrs f = Ok (f', out) /\
    run_kernel (visco (N:=RN) ex K MU lam tau dt x (map (move Q0 c0) yN) (map (move Q c) y) v m t0 t1 dmg edb) nbrs (map (rotate Q) f) = Ok (map (rotate Q) f', out') /\
    new_edb (N:=RN) out' = new_edb (N:=RN) out.
Proof. exact visco_frame. Qed.
Print Assumptions C11_viscoelastic_force_rotates.

Theorem C11_elastic_plastic_force_rotates : forall K MU sigma h pl n nbrs x y v m theta dmg edp lam Q c f, orthogonal Q ->
  ep_inputs (N:=RN) n nbrs x y v m theta dmg edp lam -> length f = n ->
  exists f' out out', run_kernel (elastic_plastic (N:=RN) K MU sigma h pl x y v m theta dmg edp lam) nbrs f = Ok (f', out) /\
    run_kernel (elastic_plastic (N:=RN) K MU sigma h pl x (map (move Q c) y) v m theta dmg edp lam) nbrs (map (rotate Q) f) = Ok (map (rotate Q) f', out') /\
    new_lambda out' = new_lambda out /\ new_edp (N:=RN) out' = new_edp (N:=RN) out.
Proof. exact ep_frame. Qed.
Print Assumptions C11_elastic_plastic_force_rotates.

Theorem C11_hardening_force_rotates : forall up K MU H sigma h n nbrs x y v m theta dmg scf edp lam Q c f, orthogonal Q ->
  ep_inputs (N:=RN) n nbrs x y v m theta dmg edp lam -> per_point (N:=RN) nbrs scf -> length f = n ->
  exists f' out out', run_kernel (hardening (N:=RN) up K MU H sigma h x y v m theta dmg scf edp lam) nbrs f = Ok (f', out) /\
    run_kernel (hardening (N:=RN) up K MU H sigma h x (map (move Q c) y) v m theta dmg scf edp lam) nbrs (map (rotate Q) f) = Ok (map (rotate Q) f', out') /\
    new_lambda out' = new_lambda out /\ new_edp (N:=RN) out' = new_edp (N:=RN) out.
Proof. exact hard_frame. Qed.
Print Assumptions C11_hardening_force_rotates.

(** A body moved rigidly from its reference configuration. *)
Theorem C11_rigid_motion_no_dilatation : forall omega h al x v dmg nbV m n nbrs Q c, orthogonal Q ->
  cloud_ok (N:=RN) n nbrs x x v -> per_bond (N:=RN) nbrs dmg -> opt_ok (per_bond (N:=RN) nbrs) nbV -> per_point (N:=RN) nbrs m ->
  dilatations (dilatation (N:=RN) omega h al None x (map (move Q c) x) v dmg nbV m) 0 0 nbrs = Ok (repeat 0 (length nbrs)).
Proof. exact dil_rigid0. Qed.
Print Assumptions C11_rigid_motion_no_dilatation.

Theorem C11_lps_rigid_motion_no_force : forall omega K MU h al n nbrs x v m dmg Q c f, orthogonal Q ->
  lps_inputs (N:=RN) n nbrs x x v m (repeat 0 (length nbrs)) dmg None None -> length f = n ->
  exists out, run_kernel (lps (N:=RN) omega K MU h al None x (map (move Q c) x) v m (repeat 0 (length nbrs)) dmg None) nbrs f = Ok (f, out).
Proof. exact lps_rigid_ok. Qed.
Print Assumptions C11_lps_rigid_motion_no_force.

Theorem C11_bond_based_rigid_motion_no_force : forall K h pl ht n nbrs x v dmg Q c f, orthogonal Q ->
  bb_inputs (N:=RN) n nbrs x x v dmg -> length f = n ->
  exists out, run_kernel (bond_based (N:=RN) K h pl ht x (map (move Q c) x) v dmg) nbrs f = Ok (f, out).
Proof. exact bb_rigid_ok. Qed.
Print Assumptions C11_bond_based_rigid_motion_no_force.

Theorem C11_viscoelastic_rigid_motion_no_force : forall ex K MU lam tau dt n nbrs x v m dmg Q0 c0 Q c f, orthogonal Q0 -> orthogonal Q ->
  visco_inputs (N:=RN) n nbrs x x x v m (repeat 0 (length nbrs)) (repeat 0 (length nbrs)) dmg (repeat 0 (num_bonds nbrs)) -> length f = n ->
  exists out, run_kernel (visco (N:=RN) ex K MU lam tau dt x (map (move Q0 c0) x) (map (move Q c) x) v m (repeat 0 (length nbrs)) (repeat 0 (length nbrs)) dmg (repeat 0 (num_bonds nbrs))) nbrs f = Ok (f, out).
Proof. exact visco_rigid_ok. Qed.
Print Assumptions C11_viscoelastic_rigid_motion_no_force.

Theorem C11_elastic_plastic_rigid_motion_no_force : forall K MU sigma h pl n nbrs x v m dmg lam Q c f, orthogonal Q ->
  ep_inputs (N:=RN) n nbrs x x v m (repeat 0 (length nbrs)) dmg (repeat 0 (num_bonds nbrs)) lam -> length f = n ->
  exists out, run_kernel (elastic_plastic (N:=RN) K MU sigma h pl x (map (move Q c) x) v m (repeat 0 (length nbrs)) dmg (repeat 0 (num_bonds nbrs)) lam) nbrs f = Ok (f, out).
Proof. exact ep_rigid_ok. Qed.
Print Assumptions C11_elastic_plastic_rigid_motion_no_force.

Theorem C11_hardening_rigid_motion_no_force : forall up K MU H sigma h n nbrs x v m dmg scf lam Q c f, orthogonal Q ->
  ep_inputs (N:=RN) n nbrs x x v m (repeat 0 (length nbrs)) dmg (repeat 0 (num_bonds nbrs)) lam -> per_point (N:=RN) nbrs scf -> length f = n ->
  exists out, run_kernel (hardening (N:=RN) up K MU H sigma h x (map (move Q c) x) v m (repeat 0 (length nbrs)) dmg scf (repeat 0 (num_bonds nbrs)) lam) nbrs f = Ok (f, out).
Proof. exact hard_rigid_ok. Qed.
Print Assumptions C11_hardening_rigid_motion_no_force.


(** A quarter turn about z is such a rotation. *)
Example C11_concrete :
  orthogonal (Rot (v3 (N:=RN) 0 1 0) (v3 (N:=RN) (-1) 0 0) (v3 (N:=RN) 0 0 1)) /\
  rotate (Rot (v3 (N:=RN) 0 1 0) (v3 (N:=RN) (-1) 0 0) (v3 (N:=RN) 0 0 1)) (v3 (N:=RN) 1 2 3) = v3 (N:=RN) (-2) 1 3.
Proof. split; [repeat split; cbn; to_R; ring|]. apply v3_ext; cbn; to_R; ring. Qed.

(** ** C12: weighted volume and dilatation *)

Theorem C12_weighted_volume : forall omega x v h p js X nb, nth_error x p = Some X -> looks_up x v js nb ->
  weightedVolume (N:=RN) omega x v h p js = Ok (weighted_volume omega h X nb).
Proof. exact wv_ok. Qed.
Print Assumptions C12_weighted_volume.

Theorem C12_weighted_volume_nonneg : forall (omega : R -> R -> R) h X nb, (forall d, 0 <= omega d h) -> Forall (fun pv => 0 <= snd pv) nb ->
  0 <= weighted_volume omega h X nb.
Proof. exact wv_nonneg. Qed.
Print Assumptions C12_weighted_volume_nonneg.

Theorem C12_weighted_volume_positive : forall (omega : R -> R -> R) h X nb, (forall d, 0 <= omega d h) -> Forall (fun pv => 0 <= snd pv) nb ->
  (exists pv, In pv nb /\ 0 < snd pv /\ 0 < dist X (fst pv) /\ 0 < omega (dist X (fst pv)) h) ->
  0 < weighted_volume omega h X nb.
Proof. exact wv_pos. Qed.
Print Assumptions C12_weighted_volume_positive.

(** Isotropic expansion of an undamaged neighbourhood, with the weighted volume the
    kernel computes: dilatation 3e. *)
Theorem C12_isotropic_expansion_dilatation : forall omega h al x v dmg e c m p k js M, -1 <= e ->
  (forall n j, nth_error js n = Some j -> nth_error dmg (k + n) = Some 0) ->
  weightedVolume (N:=RN) omega x v h p js = Ok M -> nth_error m p = Some M -> M <> 0 ->
  dilatation (N:=RN) omega h al None x (map (expand e c) x) v dmg None m p k js = Ok (3 * e).
Proof. exact dil_calibrated. Qed.
Print Assumptions C12_isotropic_expansion_dilatation.

(** ... and every bond of the point then carries the force density
    3 K theta omega zeta / m along the bond: the shear modulus does not matter. *)
Theorem C12_pressure_depends_on_bulk_modulus_only : forall omega K MU h al x v m theta dmg e c p k j X XP M, -1 <= e -> M <> 0 ->
  nth_error x p = Some X -> nth_error x j = Some XP -> nth_error dmg k = Some 0 ->
  bond _ _ (lps (N:=RN) omega K MU h al None x (map (expand e c) x) v m theta dmg None) (X, expand e c X, M, 3 * e, None) p k j
  = Ok (along (N:=RN) (3 * K * (3 * e) * omega (dist X XP) h * dist X XP / M)
          (vsub (expand e c XP) (expand e c X)) ((1 + e) * dist X XP), tt).
Proof. exact pressure_bond. Qed.
Print Assumptions C12_pressure_depends_on_bulk_modulus_only.


(** One neighbour at distance 2 with volume 3: m = 12, and an expansion by 10 percent
    gives dilatation 0.3. *)
Example C12_concrete :
  weightedVolume (N:=RN) ones [v3 (N:=RN) 0 0 0; v3 (N:=RN) 2 0 0] [1; 3] 4 0 [1%nat] = Ok 12 /\
  dilatation (N:=RN) ones 4 0 None [v3 (N:=RN) 0 0 0; v3 (N:=RN) 2 0 0]
    (map (expand (/ 10) vzero) [v3 (N:=RN) 0 0 0; v3 (N:=RN) 2 0 0]) [1; 3] [0] None [12] 0 0 [1%nat] = Ok (3 * / 10).
Proof.
  assert (E : weightedVolume (N:=RN) ones [v3 (N:=RN) 0 0 0; v3 (N:=RN) 2 0 0] [1; 3] 4 0 [1%nat] = Ok 12).
  { unfold weightedVolume. cbn. unfold ones. f_equal. to_R. ring. }
  split; [exact E|]. apply (dil_calibrated ones 4 0 _ _ [0] (/ 10) vzero [12] 0 0 [1%nat] 12); auto; try lra.
  intros [|[|n]] j; simpl; intros; congruence.
Qed.
