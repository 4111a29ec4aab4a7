(** * Proofs about nonlocal diffusion *)
From Coq Require Import Reals Lra Lia Permutation.
From Verif Require Import Base Num ProofDamage ModelNeigh ModelForce ModelBlock ModelScalar ModelDiffusion SpecDamage SpecForce SpecGlobal SpecDiffusion ProofData ProofForce ProofKernels ProofGlobal ProofContact ProofContact2 ProofContact3 ProofPlastic.
Local Open Scope R_scope.
Local Notation vec := (V3 RN).

(** ** fluid flow *)
Lemma nth_upd (l : list R) i b l' k : upd l i b = Some l' -> nth k l' 0 = if Nat.eqb i k then b else nth k l 0.
Proof.
  intros U. pose proof (upd_error_eq _ _ _ _ _ k U) as E. destruct (Nat.eqb_spec i k) as [<-|Ne].
  - apply nth_error_nth. exact E.
  - destruct (nth_error l k) as [a|] eqn:Ek; [rewrite (nth_error_nth _ _ _ E); symmetry; now apply nth_error_nth|].
    rewrite (nth_overflow l') by (now apply nth_error_None). symmetry. apply nth_overflow. now apply nth_error_None.
Qed.
Lemma total_upd v (f f' : list R) i a b : nth_error f i = Some a -> upd f i b = Some f' -> total v f' = total v f + nth i v 0 * (b - a).
Proof.
  intros Ha U. unfold total. rewrite (upd_len _ _ _ _ _ U).
  assert (Li : (i < length f)%nat) by (apply nth_error_Some; congruence).
  rewrite <- (Rsum_pick (fun i => nth i v 0 * (b - a)) i (length f) 0) by lia. rewrite <- Rsum_plus. f_equal. apply map_ext. intros k.
  rewrite (nth_upd _ _ _ _ k U). destruct (Nat.eqb_spec i k) as [<-|]; [|ring]. rewrite (nth_error_nth _ _ 0 Ha). ring.
Qed.
Lemma plus_ok (f : list R) i a v : (i < length f)%nat -> exists f', plus_at (N:=RN) f i a = Ok f' /\ length f' = length f /\ total v f' = total v f + nth i v 0 * a.
Proof.
  intros Li. unfold plus_at. destruct (at_ub_lt (A:=T RN) f i Li) as [b E]. rewrite E. cbn [bind]. unfold upd_ub. destruct (upd_lt (T RN) f i (Rplus b a) Li) as [f' U]. exists f'. apply at_ub_Ok in E.
  split; [change (add (n:=RN) b a) with (b + a); now rewrite U|]. split; [now apply upd_len in U|]. rewrite (total_upd v f f' i b _ E U). ring.
Qed.
Lemma minus_ok (f : list R) i a v : (i < length f)%nat -> exists f', minus_at (N:=RN) f i a = Ok f' /\ length f' = length f /\ total v f' = total v f - nth i v 0 * a.
Proof.
  intros Li. unfold minus_at. destruct (at_ub_lt (A:=T RN) f i Li) as [b E]. rewrite E. cbn [bind]. unfold upd_ub. destruct (upd_lt (T RN) f i (Rminus b a) Li) as [f' U]. exists f'. apply at_ub_Ok in E.
  split; [change (sub (n:=RN) b a) with (b - a); now rewrite U|]. split; [now apply upd_len in U|]. rewrite (total_upd v f f' i b _ E U). ring.
Qed.
Lemma upd_id (f : list R) i a : nth_error f i = Some a -> upd f i a = Some f.
Proof. revert i. induction f as [|b f IH]; intros [|i] H; try discriminate; cbn in *; [congruence|]. now rewrite (IH i H). Qed.
Lemma plus_zero (f : list R) i a f' : a = 0 -> plus_at (N:=RN) f i a = Ok f' -> f' = f.
Proof.
  intros -> H. unfold plus_at in H. apply bind_Ok in H as (b & E & H). apply at_ub_Ok in E. unfold upd_ub in H. change (add (n:=RN) b 0) with (b + 0) in H. rewrite Rplus_0_r, (upd_id _ _ _ E : upd (A:=T RN) f i b = Some f) in H. congruence.
Qed.
Lemma minus_zero (f : list R) i a f' : a = 0 -> minus_at (N:=RN) f i a = Ok f' -> f' = f.
Proof.
  intros -> H. unfold minus_at in H. apply bind_Ok in H as (b & E & H). apply at_ub_Ok in E. unfold upd_ub in H. change (sub (n:=RN) b 0) with (b - 0) in H. rewrite Rminus_0_r, (upd_id _ _ _ E : upd (A:=T RN) f i b = Some f) in H. congruence.
Qed.

Ltac li := change (T RN) with R in *; lia.

Section Flow.
  Context (expf : R -> R) (c : fluid RN) (y : list vec) (pr v dmg : list R) (deltaT : option (list R)) (n : nat).
  Lemma flow_bonds_ok Y P mu self p : length y = n -> length pr = n -> length v = n -> nth_error v p = Some self -> forall js k f,
    Forall (fun j => (j < n)%nat) js -> length f = n -> (k + length js <= length dmg)%nat ->
    exists f', flow_bonds (N:=RN) expf c y pr v dmg Y P mu self p k js f = Ok f' /\ length f' = n /\ total v f' = total v f.
  Proof.
    intros Ly Lp Lv Hs. assert (Lpn : (p < n)%nat) by (rewrite <- Lv; apply nth_error_Some; congruence).
    induction js as [|j js IH]; intros k f Hj Lf Lk; [exists f; auto|]. apply Forall_cons_iff in Hj as (J1 & J2). cbn [flow_bonds]. cbn [length] in Lk.
    destruct (at_ub_lt (A:=T RN) v j) as [vj Ev]; [li|]. rewrite Ev. cbn [bind].
    destruct (at_ub_lt (A:=T RN) pr j) as [PN Ep]; [li|]. rewrite Ep. cbn [bind].
    destruct (at_ub_lt y j) as [YP Ey]; [li|]. rewrite Ey. cbn [bind].
    destruct (at_ub_lt (A:=T RN) dmg k) as [b Ed]; [li|]. rewrite Ed. cbn [bind].
    set (q := flux (N:=RN) expf c mu b (vsub YP Y) (sub PN P)). clearbody q.
    destruct (plus_ok f p (q * vj) v) as (f1 & E1 & L1 & T1); [li|]. change (mul (n:=RN) q vj) with (q * vj). rewrite E1. cbn [bind].
    destruct (minus_ok f1 j (q * self) v) as (f2 & E2 & L2 & T2); [li|]. change (mul (n:=RN) q self) with (q * self). rewrite E2. cbn [bind].
    destruct (IH (1 + k)%nat f2 J2) as (f' & E & L & TT); [li|cbn; li|]. exists f'. split; [exact E|]. split; [exact L|].
    rewrite TT, T2, T1. apply at_ub_Ok in Ev. rewrite (nth_error_nth _ _ 0 Ev), (nth_error_nth _ _ 0 Hs). change (T RN) with R in *. ring.
  Qed.
  Lemma flow_points_ok : length y = n -> length pr = n -> length v = n -> forall nbrs p k f,
    Forall (Forall (fun j => (j < n)%nat)) nbrs -> (p + length nbrs <= n)%nat -> (k + num_bonds nbrs <= length dmg)%nat ->
    opt_ok (fun l => (p + length nbrs <= length l)%nat) deltaT -> length f = n ->
    exists f', flow_points (N:=RN) expf c y pr v dmg deltaT p k nbrs f = Ok f' /\ length f' = n /\ total v f' = total v f.
  Proof.
    intros Ly Lp Lv. induction nbrs as [|js nbrs IH]; intros p k f Hj Hp Hk Ho Lf; [exists f; auto|]. apply Forall_cons_iff in Hj as (J1 & J2). cbn [flow_points].
    cbn [length] in *. assert (Hk' : (k + length js + num_bonds nbrs <= length dmg)%nat) by (unfold num_bonds in *; cbn in Hk; lia).
    destruct (at_ub_lt (A:=T RN) v p) as [self Ev]; [li|]. rewrite Ev. cbn [bind].
    destruct (at_ub_lt y p) as [Y Ey]; [li|]. rewrite Ey. cbn [bind].
    destruct (at_ub_lt (A:=T RN) pr p) as [P Ep]; [li|]. rewrite Ep. cbn [bind].
    assert (Hd : exists dT, opt_at (N:=RN) deltaT p = Ok dT).
    { destruct deltaT as [l|]; cbn in *; [|eauto]. destruct (at_ub_lt l p) as [t Et]; [li|]. rewrite Et. cbn [bind]. eauto. }
    destruct Hd as (dT & Ed). rewrite Ed. cbn [bind]. apply at_ub_Ok in Ev.
    destruct (flow_bonds_ok Y P (viscosity_at (N:=RN) expf c dT) self p Ly Lp Lv Ev js k f J1 Lf) as (f1 & E1 & L1 & T1); [li|]. rewrite E1. cbn [bind].
    destruct (IH (1 + p)%nat (length js + k)%nat f1 J2) as (f' & E & L & TT); try li; [|exists f'; split; [exact E|split; [exact L|congruence]]].
    destruct deltaT; cbn in *; [lia|exact I].
  Qed.
  (** no flow without a difference of pressures *)
  Lemma flux_still mu b d e : e = 0 -> flux (N:=RN) expf c mu b d e = 0.
  Proof. intros ->. unfold flux. cbv zeta. to_R. apply Rmult_0_r. Qed.
  Lemma flow_bonds_still Y P mu self p : (forall j a, nth_error pr j = Some a -> a = P) -> forall js k f f',
    flow_bonds (N:=RN) expf c y pr v dmg Y P mu self p k js f = Ok f' -> f' = f.
  Proof.
    intros HP. induction js as [|j js IH]; intros k f f' H; cbn [flow_bonds] in H; [congruence|].
    apply bind_Ok in H as (vj & _ & H). apply bind_Ok in H as (PN & Ep & H). apply at_ub_Ok in Ep. apply HP in Ep. apply bind_Ok in H as (YP & _ & H). apply bind_Ok in H as (b & _ & H).
    assert (Q : flux (N:=RN) expf c mu b (vsub YP Y) (sub PN P) = 0) by (apply flux_still; rewrite Ep; to_R; apply Rminus_eq_0).
    cbv zeta in H. rewrite Q in H. apply bind_Ok in H as (f1 & E1 & H). apply bind_Ok in H as (f2 & E2 & H).
    apply plus_zero in E1; [|to_R; ring]. apply minus_zero in E2; [|to_R; ring]. subst f1 f2. eauto.
  Qed.
  Lemma flow_points_still P : (forall j a, nth_error pr j = Some a -> a = P) -> forall nbrs p k f f',
    flow_points (N:=RN) expf c y pr v dmg deltaT p k nbrs f = Ok f' -> f' = f.
  Proof.
    intros HP. induction nbrs as [|js nbrs IH]; intros p k f f' H; cbn [flow_points] in H; [congruence|].
    apply bind_Ok in H as (self & _ & H). apply bind_Ok in H as (Y & _ & H). apply bind_Ok in H as (P' & Ep & H). apply at_ub_Ok in Ep. apply HP in Ep. subst P'. apply bind_Ok in H as (dT & _ & H).
    apply bind_Ok in H as (f1 & E1 & H). apply (flow_bonds_still Y P _ self p HP) in E1. subst f1. eauto.
  Qed.
End Flow.

Lemma total_zero v n : total v (repeat 0 n) = 0.
Proof. unfold total. apply Rsum_zero. intros i _. rewrite nth_repeat. ring. Qed.
Lemma zeros (v : list R) : map (fun _ => ofZ (n:=RN) 0) v = repeat 0 (length v).
Proof. induction v; cbn; [reflexivity|]. now f_equal. Qed.

Lemma effective_value (c : fluid RN) (d : vec) : effective (N:=RN) c d = permeability c / 4 * (vlen d * vlen d).
Proof.
  assert (E : vlen d * vlen d = vdot d d).
  { unfold vlen. to_R. apply sqrt_sqrt. unfold vdot. to_R. generalize (vx d) (vy d) (vz d). cbn. intros a b e. nra. }
  rewrite E. unfold effective, nonlocal, vdot. cbn [seq fold_left component Nat.eqb]. to_R. generalize (vx d) (vy d) (vz d) (permeability c). cbn. intros. field.
Qed.

(** two points with one bond *)
Lemma two_point_flow (expf : R -> R) (c : fluid RN) (A B : vec) (P0 P1 V0 V1 d : R) :
  fluid_flow (N:=RN) expf c [A; B] [P0; P1] [V0; V1] [d] None [[1%nat]; []] =
  let q := flux (N:=RN) expf c (viscosity c) d (vsub B A) (P1 - P0) in Ok [0 + q * V1; 0 - q * V0].
Proof. reflexivity. Qed.

(** ** flux divergence *)
Section Divergence.
  Context (fin : R -> bool) (contribution : nat -> nat -> nat -> outcome R).
  Lemma div_at_sum i (g : nat -> R) : forall js k acc a, (forall j k, In j js -> contribution i j k = Ok (g j)) ->
    divergence_at (N:=RN) fin contribution i k js acc = Ok a -> a = acc + Rsum (map g js).
  Proof.
    induction js as [|j js IH]; intros k acc a H E; cbn [divergence_at map] in E |- *; [injection E as <-; rewrite Rsum_nil; symmetry; apply Rplus_0_r|].
    rewrite (H j k (or_introl eq_refl)) in E. cbn [bind] in E. destruct (fin (g j)); [|discriminate]. apply IH in E; [|intros; apply H; now right]. rewrite E, Rsum_cons. to_R. ring.
  Qed.
  Lemma div_sum (G : nat -> nat -> R) : forall nbrs i k fs,
    (forall i' js j k', nth_error nbrs i' = Some js -> In j js -> contribution (i + i') j k' = Ok (G (i + i')%nat j)) ->
    divergence (N:=RN) fin contribution i k nbrs = Ok fs -> fs = map (fun il => Rsum (map (G (fst il)) (snd il))) (combine (seq i (length nbrs)) nbrs).
  Proof.
    induction nbrs as [|js nbrs IH]; intros i k fs H E; cbn [divergence] in E; [injection E as <-; reflexivity|].
    apply bind_Ok in E as (a & Ea & E). apply bind_Ok in E as (r & Er & E). injection E as <-. cbn [length seq combine map fst snd]. f_equal.
    - apply (div_at_sum i (G i)) in Ea; [rewrite Ea; to_R; ring|]. intros j k' Hj. specialize (H 0%nat js j k' eq_refl Hj). now rewrite Nat.add_0_r in H.
    - apply (IH (S i)) in Er; [exact Er|]. intros i' js' j k' Hn Hj. specialize (H (S i') js' j k' Hn Hj). now replace (S i + i')%nat with (i + S i')%nat by lia.
  Qed.
  Lemma div_ok : (forall a, fin a = true) -> forall nbrs i k,
    (forall i' js j k', nth_error nbrs i' = Some js -> In j js -> exists a, contribution (i + i') j k' = Ok a) ->
    exists fs, divergence (N:=RN) fin contribution i k nbrs = Ok fs /\ length fs = length nbrs.
  Proof.
    intros Fin. induction nbrs as [|js nbrs IH]; intros i k H; cbn [divergence]; [exists []; auto|].
    assert (A : forall js' k acc, (forall j k', In j js' -> exists a, contribution i j k' = Ok a) -> exists a, divergence_at (N:=RN) fin contribution i k js' acc = Ok a).
    { induction js' as [|j js' IH']; intros k0 acc H'; cbn [divergence_at]; [eauto|]. destruct (H' j k0 (or_introl eq_refl)) as (a & Ea). rewrite Ea. cbn [bind]. rewrite Fin. apply IH'. intros; apply H'; now right. }
    destruct (A js k (ofZ (n:=RN) 0)) as (a & Ea); [intros j k' Hj; specialize (H 0%nat js j k' eq_refl Hj); now rewrite Nat.add_0_r in H|]. rewrite Ea. cbn [bind].
    destruct (IH (1 + i)%nat (length js + k)%nat) as (r & Er & Lr); [|rewrite Er; cbn [bind]; eexists; split; [reflexivity|cbn [length]; f_equal; exact Lr]].
    intros i' js' j k' Hn Hj. replace (1 + i + i')%nat with (i + S i')%nat by lia. eapply H; [exact Hn|exact Hj].
  Qed.
End Divergence.

Lemma share_sum (V : nat -> R) (g : nat -> nat -> R) (s : share) : (length (lists s) <= length (ids s))%nat ->
  Rsum (map (fun xf => V (fst xf) * snd xf) (combine (ids s)
    (map (fun il => Rsum (map (fun j => g (nth (fst il) (ids s) O) (nth j (ids s) O)) (snd il))) (combine (seq 0 (length (lists s))) (lists s))))) =
  Rsum (map (fun b => V (fst b) * g (fst b) (snd b)) (bonds s)).
Proof.
  intros L. unfold bonds. rewrite Rsum_concat, map_map.
  assert (Sc : forall a l, a * Rsum l = Rsum (map (fun x => a * x) l)) by (induction l as [|x l IHl]; cbn [map]; rewrite ?Rsum_nil, ?Rsum_cons, <- ?IHl; ring).
  transitivity (Rsum (map (fun il : nat * list nat => V (nth (fst il) (ids s) O) * Rsum (map (fun j => g (nth (fst il) (ids s) O) (nth j (ids s) O)) (snd il))) (combine (seq 0 (length (lists s))) (lists s)))).
  - f_equal. assert (Q : forall (ll : list (list nat)) a (idl : list nat), (length ll <= length idl)%nat -> (forall i, nth i idl O = nth (a + i) (ids s) O) ->
      map (fun xf : nat * R => V (fst xf) * snd xf) (combine idl (map (fun il => Rsum (map (fun j => g (nth (fst il) (ids s) O) (nth j (ids s) O)) (snd il))) (combine (seq a (length ll)) ll))) =
      map (fun il : nat * list nat => V (nth (fst il) (ids s) O) * Rsum (map (fun j => g (nth (fst il) (ids s) O) (nth j (ids s) O)) (snd il))) (combine (seq a (length ll)) ll)).
    { induction ll as [|l ll IH]; intros a idl Hl Hi; [destruct idl; reflexivity|]. destruct idl as [|x idl]; [cbn in Hl; lia|]. cbn [length seq combine map fst snd]. f_equal.
      - specialize (Hi 0%nat). cbn in Hi. rewrite Nat.add_0_r in Hi. now rewrite Hi.
      - apply (IH (S a)); [cbn in Hl; lia|]. intros i. specialize (Hi (S i)). cbn in Hi. now replace (S a + i)%nat with (a + S i)%nat by lia. }
    apply Q; [exact L|reflexivity].
  - f_equal. apply map_ext. intros [i l]. cbn [fst snd]. now rewrite Sc, !map_map.
Qed.

(** the bonds of the body, both directions *)
Lemma antisymmetric_sum (h : nat * nat -> R) (ss : list share) : mutual ss -> (forall a b, h (a, b) = - h (b, a)) -> Rsum (map h (all_bonds ss)) = 0.
Proof.
  intros M A. assert (E : Rsum (map h (all_bonds ss)) = -1 * Rsum (map h (all_bonds ss))); [|lra].
  rewrite (Rsum_perm _ _ (Permutation_map h M)) at 1. rewrite <- Rsum_neg, map_map. f_equal. apply map_ext. intros [a b]. cbn. rewrite (A b a). ring.
Qed.

Section Body.
  Context (V : nat -> R) (g : nat -> nat -> R) (contribution : share -> nat -> nat -> nat -> outcome R).
  Hypothesis known : forall s i j k, share_ok s -> (i < length (ids s))%nat -> (j < length (ids s))%nat ->
    contribution s i j k = Ok (g (nth i (ids s) O) (nth j (ids s) O)).
  Lemma in_share s i js j : share_ok s -> nth_error (lists s) i = Some js -> In j js -> (i < length (ids s))%nat /\ (j < length (ids s))%nat.
  Proof.
    intros (L & F) Hi Hj. split; [assert (i < length (lists s))%nat by (apply nth_error_Some; congruence); lia|]. rewrite Forall_forall in F. apply nth_error_In in Hi. specialize (F js Hi). rewrite Forall_forall in F. auto.
  Qed.
  Lemma share_run fin s fs : share_ok s -> divergence (N:=RN) fin (contribution s) 0 0 (lists s) = Ok fs ->
    fs = map (fun il => Rsum (map (fun j => g (nth (fst il) (ids s) O) (nth j (ids s) O)) (snd il))) (combine (seq 0 (length (lists s))) (lists s)).
  Proof.
    intros S E. apply (div_sum fin (contribution s) (fun i j => g (nth i (ids s) O) (nth j (ids s) O))) in E; [exact E|]. intros i js j k Hi Hj. destruct (in_share s i js j S Hi Hj). now apply known.
  Qed.
  Lemma body_sum fin ss fss : Forall share_ok ss -> mapM (fun s => divergence (N:=RN) fin (contribution s) 0 0 (lists s)) ss = Ok fss ->
    body_total V ss fss = Rsum (map (fun b => V (fst b) * g (fst b) (snd b)) (all_bonds ss)).
  Proof.
    intros F. unfold body_total, all_bonds. revert fss. induction F as [|s ss S F IH]; intros fss E; cbn [mapM] in E; [injection E as <-; reflexivity|].
    apply bind_Ok in E as (fs & E1 & E). apply bind_Ok in E as (r & E2 & E). injection E as <-. cbn [combine map concat fst snd]. rewrite map_app, Rsum_app, Rsum_cons, <- (IH r E2). f_equal.
    apply share_run in E1; [|exact S]. subst fs. apply share_sum, S.
  Qed.
  Lemma body_ok fin ss : (forall a, fin a = true) -> Forall share_ok ss -> exists fss, mapM (fun s => divergence (N:=RN) fin (contribution s) 0 0 (lists s)) ss = Ok fss.
  Proof.
    intros Fin F. induction F as [|s ss S F (r & IH)]; cbn [mapM]; [eauto|].
    destruct (div_ok fin (contribution s) Fin (lists s) 0 0) as (fs & E & _); [intros i js j k Hi Hj; destruct (in_share s i js j S Hi Hj); eexists; now apply known|]. rewrite E. cbn [bind]. rewrite IH. cbn [bind]. eauto.
  Qed.
End Body.

Lemma at_local {A} (g : nat -> A) s i : (i < length (ids s))%nat -> at_ub (local g s) i = Ok (g (nth i (ids s) O)).
Proof. intros L. unfold at_ub, local. rewrite (map_nth_error g i (ids s) (nth_error_nth' _ O L)). reflexivity. Qed.

Definition heat_pair (coef h : R) (X : nat -> vec) (T V : nat -> R) (a b : nat) : R :=
  coef * (6 / (PI * h * h * h * h * vlen (vsub (X a) (X b)))) * (T b - T a) * V b.
Lemma heat_known coef h X T V s i j k : (i < length (ids s))%nat -> (j < length (ids s))%nat ->
  heat (N:=RN) coef h (local X s) (local T s) (local V s) None i j k = Ok (heat_pair coef h X T V (nth i (ids s) O) (nth j (ids s) O)).
Proof. intros Li Lj. unfold heat. rewrite !(at_local X), !(at_local T), !(at_local V) by assumption. reflexivity. Qed.
Definition species_pair (coef : R) (X : nat -> vec) (T C V : nat -> R) (a b : nat) : R :=
  1 * (coef * (1 + 1 / 10000 * T a)) * ((C b - C a) / vlen (vsub (X a) (X b))) * V b.
Lemma species_known coef X T C V s i j k : (i < length (ids s))%nat -> (j < length (ids s))%nat ->
  species (N:=RN) coef (local X s) (local T s) (local C s) (local V s) i j k = Ok (species_pair coef X T C V (nth i (ids s) O) (nth j (ids s) O)).
Proof. intros Li Lj. unfold species. rewrite !(at_local X), !(at_local T), !(at_local C), !(at_local V) by assumption. reflexivity. Qed.
Lemma vlen_swap (a b : vec) : vlen (vsub a b) = vlen (vsub b a).
Proof. unfold vlen. to_R. f_equal. unfold vdot, vsub. cbn [vx vy vz]. to_R. generalize (vx a) (vy a) (vz a) (vx b) (vy b) (vz b). cbn. intros. ring. Qed.
Lemma heat_antisym coef h X T V a b : V a * heat_pair coef h X T V a b = - (V b * heat_pair coef h X T V b a).
Proof. unfold heat_pair. rewrite (vlen_swap (X b) (X a)). generalize (6 / (PI * h * h * h * h * vlen (vsub (X a) (X b)))). intros; ring. Qed.
Lemma species_antisym coef X T C V a b t : T a = t -> T b = t -> V a * species_pair coef X T C V a b = - (V b * species_pair coef X T C V b a).
Proof. intros Ha Hb. unfold species_pair. rewrite (vlen_swap (X b) (X a)), Ha, Hb. unfold Rdiv. generalize (/ vlen (vsub (X a) (X b))). intros; ring. Qed.


(** ** bond damage and the flow *)
Lemma flux_value (expf : R -> R) (c : fluid RN) mu dmg (d : vec) dP :
  flux (N:=RN) expf c mu dmg d dP =
  fluid_density c / mu * (4 / (PI * flow_horizon c * flow_horizon c)) *
  (damaged (N:=RN) expf c (permeability c / 4 * (vlen d * vlen d)) dmg / (vlen d * vlen d * vlen d * vlen d)) * dP.
Proof. unfold flux. cbv zeta. now rewrite effective_value. Qed.
Lemma logistic_less a s d1 d2 : 0 < a -> d1 < d2 -> 1 / (1 + exp (a * (d2 - s))) < 1 / (1 + exp (a * (d1 - s))).
Proof.
  intros Ha Hd. assert (E : exp (a * (d1 - s)) < exp (a * (d2 - s))) by (apply exp_increasing; nra).
  pose proof (exp_pos (a * (d1 - s))) as P1. pose proof (exp_pos (a * (d2 - s))) as P2. unfold Rdiv. rewrite !Rmult_1_l. apply Rinv_lt_contravar; nra.
Qed.
Lemma logistic_more a s d1 d2 : a <= 0 -> d1 <= d2 -> 1 / (1 + exp (a * (d1 - s))) <= 1 / (1 + exp (a * (d2 - s))).
Proof.
  intros Ha Hd. assert (E : exp (a * (d2 - s)) <= exp (a * (d1 - s))).
  { destruct (Req_dec (a * (d1 - s)) (a * (d2 - s))) as [->|Ne]; [right; reflexivity|]. left. apply exp_increasing. nra. }
  pose proof (exp_pos (a * (d1 - s))) as P1. pose proof (exp_pos (a * (d2 - s))) as P2. unfold Rdiv. rewrite !Rmult_1_l. apply Rinv_le_contravar; nra.
Qed.
Lemma factor_pos (c : fluid RN) mu (l : R) : 0 < fluid_density c -> 0 < mu -> 0 < flow_horizon c -> 0 < l ->
  0 < fluid_density c / mu * (4 / (PI * flow_horizon c * flow_horizon c)) * / (l * l * l * l).
Proof.
  intros H1 H2 H3 H4. assert (Q : forall r m h p q : R, 0 < r -> 0 < m -> 0 < h -> 0 < p -> 0 < q -> 0 < r / m * (4 / (p * h * h)) * / q).
  { intros r m h p q A B C D E. unfold Rdiv. apply Rmult_lt_0_compat; [|now apply Rinv_0_lt_compat]. apply Rmult_lt_0_compat; [apply Rmult_lt_0_compat; [exact A|now apply Rinv_0_lt_compat]|].
    apply Rmult_lt_0_compat; [lra|]. apply Rinv_0_lt_compat. apply Rmult_lt_0_compat; [now apply Rmult_lt_0_compat|exact C]. }
  refine (Q _ _ _ _ _ H1 H2 H3 PI_RGT_0 _). repeat (apply Rmult_lt_0_compat; [|exact H4]). exact H4.
Qed.

(** ** coincident points in binary64 *)
From Coq Require Import SpecFloat.
From Verif Require Import SpecContact.
Lemma nonfinite_mul_l a b : finite_number a = false -> finite_number (SFmul fprec femax a b) = false.
Proof. destruct a, b; try discriminate; reflexivity. Qed.
Lemma nonfinite_mul_r a b : finite_number b = false -> finite_number (SFmul fprec femax a b) = false.
Proof. destruct a, b; try discriminate; reflexivity. Qed.
Lemma mul_zero_cases a : SFmul fprec femax a (S754_zero false) = S754_nan \/ exists s, SFmul fprec femax a (S754_zero false) = S754_zero s.
Proof. destruct a; cbn; eauto. Qed.
Lemma div_by_zero b : b = S754_nan \/ (exists s, b = S754_zero s) -> finite_number (SFdiv fprec femax (fofZ 6) b) = false.
Proof. intros [->|(s & ->)]; [reflexivity|]. destruct s; vm_compute; reflexivity. Qed.
Lemma heat_coincident coef h (x : list (V3 FN)) temp v w i j k P a :
  finite_vector P -> nth_error x i = Some P -> nth_error x j = Some P -> heat (N:=FN) coef h x temp v w i j k = Ok a -> finite_number a = false.
Proof.
  intros F Hi Hj H. unfold heat in H. apply bind_Ok in H as (Ti & _ & H). apply bind_Ok in H as (X & EX & H). apply bind_Ok in H as (vj & _ & H). apply bind_Ok in H as (wk & _ & H).
  apply bind_Ok in H as (XP & EXP & H). apply bind_Ok in H as (Tj & _ & H). apply at_ub_Ok in EX, EXP. rewrite Hi in EX. rewrite Hj in EXP. injection EX as <-. injection EXP as <-. cbv zeta in H.
  rewrite (vsub_self P F) in H. change (vlen (v3 (N:=FN) (S754_zero false) (S754_zero false) (S754_zero false))) with (vlen zero3) in H. rewrite zero_len in H. injection H as <-.
  apply nonfinite_mul_l, nonfinite_mul_l, nonfinite_mul_r. apply div_by_zero. apply mul_zero_cases.
Qed.
Lemma div_at_finite {N : Num} (fin : N -> bool) contribution i : forall js k acc a n j, divergence_at fin contribution i k js acc = Ok a -> nth_error js n = Some j ->
  exists b, contribution i j (k + n)%nat = Ok b /\ fin b = true.
Proof.
  induction js as [|j' js IH]; intros k acc a n j H Hn; [now destruct n|]. cbn [divergence_at] in H. apply bind_Ok in H as (b & Eb & H). destruct (fin b) eqn:Fb; [|discriminate].
  destruct n as [|n]; cbn in Hn; [injection Hn as <-; exists b; rewrite Nat.add_0_r; auto|]. destruct (IH _ _ _ _ _ H Hn) as (b' & E & F). exists b'. split; [|exact F]. now replace (k + S n)%nat with (1 + k + n)%nat by lia.
Qed.
Lemma div_finite {N : Num} (fin : N -> bool) contribution : forall nbrs i0 k fs i js j, divergence fin contribution i0 k nbrs = Ok fs -> nth_error nbrs i = Some js -> In j js ->
  exists k' b, contribution (i0 + i)%nat j k' = Ok b /\ fin b = true.
Proof.
  induction nbrs as [|js' nbrs IH]; intros i0 k fs i js j H Hi Hj; [now destruct i|]. cbn [divergence] in H. apply bind_Ok in H as (a & Ea & H). apply bind_Ok in H as (r & Er & H).
  destruct i as [|i]; cbn in Hi.
  - injection Hi as ->. apply In_nth_error in Hj as (n & Hn). destruct (div_at_finite fin contribution i0 js k _ _ n j Ea Hn) as (b & E & F). exists (k + n)%nat, b. rewrite Nat.add_0_r. auto.
  - destruct (IH _ _ _ _ _ _ Er Hi Hj) as (k' & b & E & F). exists k', b. replace (i0 + S i)%nat with (1 + i0 + i)%nat by lia. auto.
Qed.

(** ** fluid flow in a moved body *)
Lemma flow_bonds_moved (expf : R -> R) c y y' pr v dmg Y Y' P mu self p : length y = length y' ->
  (forall j YP YP', at_ub y j = Ok YP -> at_ub y' j = Ok YP' -> vlen (vsub YP' Y') = vlen (vsub YP Y)) -> forall js k f,
  flow_bonds (N:=RN) expf c y' pr v dmg Y' P mu self p k js f = flow_bonds (N:=RN) expf c y pr v dmg Y P mu self p k js f.
Proof.
  intros L H. induction js as [|j js IH]; intros k f; cbn [flow_bonds]; [reflexivity|].
  destruct (at_ub v j); cbn [bind]; try reflexivity. destruct (at_ub pr j); cbn [bind]; try reflexivity.
  destruct (nth_error y j) as [YP|] eqn:E1; destruct (nth_error y' j) as [YP'|] eqn:E2.
  - unfold at_ub at 1 3. rewrite E1, E2. cbn [bind]. destruct (at_ub dmg k); cbn [bind]; try reflexivity. cbv zeta. rewrite !flux_value, (H j YP YP'); [|now apply at_ub_Ok|now apply at_ub_Ok].
    destruct (plus_at _ _ _); cbn [bind]; try reflexivity. destruct (minus_at _ _ _); cbn [bind]; try reflexivity. apply IH.
  - apply nth_error_None in E2. rewrite <- L in E2. apply nth_error_None in E2. congruence.
  - apply nth_error_None in E1. rewrite L in E1. apply nth_error_None in E1. congruence.
  - unfold at_ub. rewrite E1, E2. reflexivity.
Qed.
Lemma flow_points_moved (expf : R -> R) c y y' pr v dmg deltaT : length y = length y' ->
  (forall p j Y YP Y' YP', at_ub y p = Ok Y -> at_ub y j = Ok YP -> at_ub y' p = Ok Y' -> at_ub y' j = Ok YP' -> vlen (vsub YP' Y') = vlen (vsub YP Y)) -> forall nbrs p k f,
  flow_points (N:=RN) expf c y' pr v dmg deltaT p k nbrs f = flow_points (N:=RN) expf c y pr v dmg deltaT p k nbrs f.
Proof.
  intros L H. induction nbrs as [|js nbrs IH]; intros p k f; cbn [flow_points]; [reflexivity|].
  destruct (at_ub v p); cbn [bind]; try reflexivity.
  destruct (nth_error y p) as [Y|] eqn:E1; destruct (nth_error y' p) as [Y'|] eqn:E2.
  - unfold at_ub at 1 3. rewrite E1, E2. cbn [bind]. destruct (at_ub pr p); cbn [bind]; try reflexivity. destruct (opt_at deltaT p); cbn [bind]; try reflexivity.
    rewrite (flow_bonds_moved expf c y y' pr v dmg Y Y'); [|exact L|intros j YP YP' A B; refine (H p j Y YP Y' YP' _ A _ B); now apply at_ub_Ok]. destruct (flow_bonds _ _ _ _ _ _ _ _ _ _ _ _ _ _); cbn [bind]; try reflexivity. apply IH.
  - apply nth_error_None in E2. rewrite <- L in E2. apply nth_error_None in E2. congruence.
  - apply nth_error_None in E1. rewrite L in E1. apply nth_error_None in E1. congruence.
  - unfold at_ub. rewrite E1, E2. reflexivity.
Qed.
Lemma less_flow (k l4 e M g1 g2 dP V : R) : 0 < k * / l4 -> e < M -> g2 < g1 -> 0 < dP -> 0 < V ->
  0 + k * ((e + (M - e) * g2) / l4) * dP * V < 0 + k * ((e + (M - e) * g1) / l4) * dP * V.
Proof.
  intros H1 H2 H3 H4 H5. assert (Q : 0 < k * / l4 * dP * V) by (repeat (apply Rmult_lt_0_compat; [|assumption]); assumption).
  replace (0 + k * ((e + (M - e) * g2) / l4) * dP * V) with (k * / l4 * dP * V * (e + (M - e) * g2)) by (unfold Rdiv; ring).
  replace (0 + k * ((e + (M - e) * g1) / l4) * dP * V) with (k * / l4 * dP * V * (e + (M - e) * g1)) by (unfold Rdiv; ring). apply Rmult_lt_compat_l; [exact Q|]. nra.
Qed.
Lemma more_flow (k l4 e M g1 g2 dP V : R) : 0 < k * / l4 -> e <= M -> g1 <= g2 -> 0 <= dP -> 0 <= V ->
  0 + k * ((e + (M - e) * g1) / l4) * dP * V <= 0 + k * ((e + (M - e) * g2) / l4) * dP * V.
Proof.
  intros H1 H2 H3 H4 H5. assert (Q : 0 <= k * / l4 * dP * V) by (repeat (apply Rmult_le_pos; [|assumption]); lra).
  replace (0 + k * ((e + (M - e) * g2) / l4) * dP * V) with (k * / l4 * dP * V * (e + (M - e) * g2)) by (unfold Rdiv; ring).
  replace (0 + k * ((e + (M - e) * g1) / l4) * dP * V) with (k * / l4 * dP * V * (e + (M - e) * g1)) by (unfold Rdiv; ring). apply Rmult_le_compat_l; [exact Q|]. nra.
Qed.

(** ** the hottest point *)
Lemma Rsum_nonpos l : (forall a, In a l -> a <= 0) -> Rsum l <= 0.
Proof. induction l as [|a l IH]; intros H; [rewrite Rsum_nil; lra|]. rewrite Rsum_cons. pose proof (H a (or_introl eq_refl)). assert (Rsum l <= 0) by (apply IH; intros; apply H; now right). lra. Qed.
Lemma distinct_len (a b : vec) : a <> b -> 0 < vlen (vsub a b).
Proof.
  intros H. destruct (vlen_nonneg (vsub a b)) as [P|P]; [exact P|]. exfalso. apply H. symmetry in P. apply vlen_zero_iff in P.
  destruct a as [a1 a2 a3], b as [b1 b2 b3]. apply (f_equal (fun w => (vx w, vy w, vz w))) in P. cbn in P. injection P as P1 P2 P3. to_R. apply v3_ext; cbn; apply Rminus_diag_uniq; assumption.
Qed.
Lemma heat_pair_nonpos coef h X T V a b : 0 <= coef -> 0 < h -> 0 <= V b -> X a <> X b -> T b <= T a -> heat_pair coef h X T V a b <= 0.
Proof.
  intros H1 H2 H3 H4 H5. unfold heat_pair. pose proof (distinct_len _ _ H4) as L.
  assert (Q : forall c p l dt w : R, 0 <= c -> 0 < p -> 0 < l -> dt <= 0 -> 0 <= w -> c * (6 / (p * l)) * dt * w <= 0).
  { intros c p l dt w A B C D E. assert (0 <= c * (6 / (p * l)) * w); [|nra]. apply Rmult_le_pos; [|exact E]. apply Rmult_le_pos; [exact A|]. left. unfold Rdiv. apply Rmult_lt_0_compat; [lra|]. apply Rinv_0_lt_compat. nra. }
  apply Q; auto; [|lra]. repeat (apply Rmult_lt_0_compat; [|exact H2]). apply PI_RGT_0.
Qed.

Lemma nth_error_combine_some {A B} : forall i (a : list A) (b : list B) x y, nth_error a i = Some x -> nth_error b i = Some y -> nth_error (combine a b) i = Some (x, y).
Proof. induction i as [|i IH]; intros [|a0 a] [|b0 b] x y H1 H2; try discriminate; cbn in *; [congruence|auto]. Qed.
