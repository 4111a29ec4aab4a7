(** * Sums over bonds *)
From Coq Require Import Reals Lra Lia.
From Verif Require Import Base Num ModelNeigh SpecDamage ModelForce SpecForce ModelCorr SpecCorr ModelBondAssoc SpecBondAssoc SpecBondForce
  ProofData ProofDamage ProofForce ProofKernels ProofCorr ProofCorr2 ProofCorr3 ProofCorr4 ProofTangent ProofBondAssoc ProofBondAssoc2 ProofBondAssoc3 ProofBondAssoc4.
Local Open Scope R_scope.
Local Notation vec := (V3 RN).
Local Notation ten := (M3 RN).

(** ** both halves of a bond *)
Fixpoint idx (j : nat) (js : list nat) : nat := match js with [] => 0%nat | a :: r => if Nat.eqb a j then 0%nat else S (idx j r) end.
Lemma idx_nth : forall js m, NoDup js -> (m < length js)%nat -> idx (nth m js 0%nat) js = m.
Proof.
  induction js as [|a js IH]; intros m ND H; [cbn in H; lia|]. inversion ND; subst. destruct m as [|m]; cbn [nth idx]; [now rewrite Nat.eqb_refl|].
  cbn [length] in H. destruct (Nat.eqb_spec a (nth m js 0%nat)) as [E|_]; [|f_equal; apply IH; auto; lia]. exfalso. apply H2. rewrite E. apply nth_In. lia.
Qed.
Lemma nth_idx : forall js j, In j js -> nth_error js (idx j js) = Some j.
Proof. induction js as [|a js IH]; intros j H; [destruct H|]. cbn [idx]. destruct (Nat.eqb_spec a j) as [->|N]; [reflexivity|]. cbn. apply IH. destruct H; [contradiction|auto]. Qed.
Definition mem (j : nat) (l : list nat) : bool := existsb (Nat.eqb j) l.
Lemma mem_iff : forall j l, mem j l = true <-> In j l.
Proof. intros j l. unfold mem. rewrite existsb_exists. split; [intros (x & H & E); apply Nat.eqb_eq in E; congruence|]. intros H. exists j. split; [auto|apply Nat.eqb_refl]. Qed.
Lemma so_members : forall (g : nat -> R) n l, NoDup l -> Forall (fun j => (j < n)%nat) l -> sum_over g l = sum_to n (fun j => if mem j l then g j else 0).
Proof.
  intros g n. induction l as [|a l IH]; intros ND F; [unfold sum_to; cbn [mem existsb]; symmetry; apply so_0; auto|]. inversion ND as [|? ? NI ND']; subst. inversion F as [|? ? F1 F2]; subst. rewrite so_cons, IH by auto. unfold sum_to.
  rewrite <- (so_seq_one n g a 0) by lia. rewrite <- so_add. apply so_ext. intros j _. change (mem j (a :: l)) with (Nat.eqb j a || mem j l)%bool.
  destruct (Nat.eqb_spec j a) as [->|N]; cbn [orb]; [|ring]. destruct (mem a l) eqn:E; [apply mem_iff in E; contradiction|ring].
Qed.
Definition mate (nbrs : list (list nat)) (j p : nat) : nat := (offset nbrs j + idx p (nth j nbrs []))%nat.
Lemma bond_at_lt : forall nbrs p m, (p < length nbrs)%nat -> (m < length (nth p nbrs []))%nat -> bond_at nbrs p (offset nbrs p + m) (nth m (nth p nbrs []) 0%nat).
Proof. intros nbrs p m Hp Hm. exists (nth p nbrs []), m. split; [apply nth_error_nth'; auto|]. split; [apply nth_error_nth'; auto|auto]. Qed.
Lemma bond_at_parts : forall nbrs p k j, bond_at nbrs p k j -> (p < length nbrs)%nat /\ exists m, (m < length (nth p nbrs []))%nat /\ k = (offset nbrs p + m)%nat /\ j = nth m (nth p nbrs []) 0%nat.
Proof.
  intros nbrs p k j (js & m & H1 & H2 & H3). split; [apply nth_error_Some; congruence|]. exists m. rewrite (nth_error_nth _ _ _ H1). split; [apply nth_error_Some; congruence|]. split; [auto|]. symmetry. now apply nth_error_nth.
Qed.
Lemma mate_bond : forall nbrs p k j, mutual nbrs -> bond_at nbrs p k j -> bond_at nbrs j (mate nbrs j p) p /\ mate nbrs p j = k.
Proof.
  intros nbrs p k j (ND & FB & MU) H. destruct (bond_at_parts _ _ _ _ H) as (Hp & m & Hm & -> & ->).
  assert (IN : In (nth m (nth p nbrs []) 0%nat) (nth p nbrs [])) by (apply nth_In; auto). set (j := nth m (nth p nbrs []) 0%nat) in *.
  assert (Hj : (j < length nbrs)%nat). { rewrite Forall_forall in FB. specialize (FB (nth p nbrs []) (nth_In _ _ Hp)). rewrite Forall_forall in FB. auto. }
  split.
  - exists (nth j nbrs []), (idx p (nth j nbrs [])). split; [now apply nth_error_nth'|]. split; [|reflexivity]. apply nth_idx. now apply MU.
  - unfold mate. f_equal. apply idx_nth; auto. rewrite Forall_forall in ND. apply ND. now apply nth_In.
Qed.
Lemma mate_unique : forall nbrs p k k' j, mutual nbrs -> bond_at nbrs p k j -> bond_at nbrs p k' j -> k = k'.
Proof. intros nbrs p k k' j M H H'. rewrite <- (proj2 (mate_bond _ _ _ _ M H)), <- (proj2 (mate_bond _ _ _ _ M H')). auto. Qed.

Lemma total_ext : forall nbrs f g, (forall p k j, bond_at nbrs p k j -> f p k j = g p k j) -> total nbrs f = total nbrs g.
Proof.
  intros nbrs f g H. unfold total, sum_to. apply so_ext. intros p Hp. apply in_seq in Hp. apply so_ext. intros m Hm. apply in_seq in Hm. apply H, bond_at_lt; lia.
Qed.
Lemma total_add : forall nbrs f g, total nbrs (fun p k j => f p k j + g p k j) = total nbrs f + total nbrs g.
Proof. intros. unfold total, sum_to. rewrite <- so_add. apply so_ext. intros p _. apply so_add. Qed.
Lemma total_mul : forall nbrs c f, total nbrs (fun p k j => c * f p k j) = c * total nbrs f.
Proof. intros. unfold total, sum_to. rewrite <- so_mul. apply so_ext. intros p _. apply so_mul. Qed.
Lemma total_members : forall nbrs f, mutual nbrs ->
  total nbrs f = sum_to (length nbrs) (fun p => sum_to (length nbrs) (fun j => if mem j (nth p nbrs []) then f p (mate nbrs p j) j else 0)).
Proof.
  intros nbrs f (ND & FB & MU). unfold total. unfold sum_to at 1. unfold sum_to at 2. apply so_ext. intros p Hp. apply in_seq in Hp.
  assert (IN : In (nth p nbrs []) nbrs) by (apply nth_In; lia). rewrite Forall_forall in ND, FB. specialize (ND _ IN). specialize (FB _ IN).
  rewrite <- (so_members (fun j => f p (mate nbrs p j) j) (length nbrs) (nth p nbrs []) ND FB). rewrite (so_nth _ _ 0%nat). apply so_ext. intros m Hm. apply in_seq in Hm.
  unfold mate. rewrite idx_nth by (auto; lia). reflexivity.
Qed.
Lemma total_swap : forall nbrs f, mutual nbrs -> total nbrs f = total nbrs (fun p k j => f j (mate nbrs j p) p).
Proof.
  intros nbrs f M. rewrite !total_members by auto. unfold sum_to. rewrite so_swap. apply so_ext. intros p _. apply so_ext. intros j _.
  destruct M as (_ & _ & MU). destruct (mem p (nth j nbrs [])) eqn:E1, (mem j (nth p nbrs [])) eqn:E2; auto.
  - apply mem_iff in E1. apply MU, mem_iff in E1. congruence.
  - apply mem_iff in E2. apply MU, mem_iff in E2. congruence.
Qed.
(** both orders together *)
Lemma total_half : forall nbrs f, mutual nbrs -> total nbrs f = total nbrs (fun p k j => 1 / 2 * (f p k j + f j (mate nbrs j p) p)).
Proof. intros nbrs f M. rewrite total_mul, total_add, <- (total_swap nbrs f M). lra. Qed.

(** ** what a kernel adds up to *)
Fixpoint total_from (f : nat -> nat -> nat -> R) (p k : nat) (nbrs : list (list nat)) : R :=
  match nbrs with [] => 0 | js :: r => sum_to (length js) (fun m => f p (k + m)%nat (nth m js 0%nat)) + total_from f (S p) (length js + k) r end.
Lemma total_from_eq : forall f nbrs p k, total_from f p k nbrs = sum_to (length nbrs) (fun q => sum_to (length (nth q nbrs [])) (fun m => f (p + q)%nat (k + (offset nbrs q + m))%nat (nth m (nth q nbrs []) 0%nat))).
Proof.
  intros f. induction nbrs as [|js r IH]; intros p k; [reflexivity|]. cbn [total_from]. rewrite IH. unfold sum_to at 4. cbn [length seq]. rewrite so_cons, <- seq_shift, so_map. f_equal.
  - cbn [nth]. unfold sum_to. apply so_ext. intros m _. change (offset (js :: r) 0) with 0%nat. now rewrite Nat.add_0_r.
  - unfold sum_to. apply so_ext. intros q _. cbn [nth]. apply so_ext. intros m _. rewrite offset_S. f_equal; lia.
Qed.
Lemma total_total_from : forall nbrs f, total nbrs f = total_from f 0 0 nbrs.
Proof. intros. rewrite total_from_eq. reflexivity. Qed.

Section Run.
  Context {D Sx : Type} (K : kernel RN D Sx) (g : nat -> vec -> R) (h : nat -> nat -> nat -> R).
  Hypothesis Ha : forall i, additive (g i).
  Lemma bond_loop_sum : forall nbrs p js d, nth_error nbrs p = Some js ->
    (forall k j fb s vn vs, bond_at nbrs p k j -> bond _ _ K d p k j = Ok (fb, s) -> vols _ _ K p k j = Ok (vn, vs) -> g p (vmulr fb vn) - g j (vmulr fb vs) = h p k j) ->
    forall post pre_js, js = pre_js ++ post -> forall f f' ss, bond_loop K d p (offset nbrs p + length pre_js) post f = Ok (f', ss) ->
    gsum g 0 f' = gsum g 0 f + sum_to (length post) (fun m => h p (offset nbrs p + length pre_js + m)%nat (nth m post 0%nat)).
  Proof.
    intros nbrs p js d Hn H. induction post as [|j post IH]; intros pre_js E f f' ss HL; simpl in HL.
    - injection HL as <- _. unfold sum_to. cbn. ring.
    - apply bind_Ok in HL as [[fb s] [Eb HL]]. apply bind_Ok in HL as [[vn vs] [Ev HL]]. apply bind_Ok in HL as [f1 [E1 HL]]. apply bind_Ok in HL as [f2 [E2 HL]].
      apply bind_Ok in HL as [[f3 ss'] [E3 HL]]. injection HL as <- _.
      assert (Hb : bond_at nbrs p (offset nbrs p + length pre_js) j) by (exists js, (length pre_js); subst js; rewrite nth_app_here; auto).
      assert (E3' : bond_loop K d p (offset nbrs p + length (pre_js ++ [j])) post f2 = Ok (f3, ss')) by (rewrite app_length; cbn; replace (offset nbrs p + (length pre_js + 1))%nat with (S (offset nbrs p + length pre_js)) by lia; auto).
      rewrite (IH (pre_js ++ [j]) ltac:(subst; now rewrite <- app_assoc) _ _ _ E3'), (gsum_sub g _ _ _ _ (Ha j) E2), (gsum_add g _ _ _ _ (Ha p) E1).
      unfold sum_to. cbn [length seq]. rewrite so_cons, <- seq_shift, so_map. cbn [nth]. rewrite Nat.add_0_r, <- (H _ _ _ _ _ _ Hb Eb Ev). rewrite app_length. cbn [length].
      match goal with |- _ + ?a - ?b + ?c = _ + (_ + ?e) => replace e with c; [ring|] end. apply so_ext. intros m _. f_equal. lia.
  Qed.
  Lemma run_sum : forall nbrs,
    (forall p js d, nth_error nbrs p = Some js -> pre _ _ K p (offset nbrs p) js = Ok d -> forall k j fb s vn vs, bond_at nbrs p k j -> bond _ _ K d p k j = Ok (fb, s) -> vols _ _ K p k j = Ok (vn, vs) ->
       g p (vmulr fb vn) - g j (vmulr fb vs) = h p k j) ->
    forall f f' out, run_kernel K nbrs f = Ok (f', out) -> gsum g 0 f' = gsum g 0 f + total nbrs h.
  Proof.
    intros nbrs H f f' out HR. rewrite total_total_from.
    assert (G : forall todo done, nbrs = done ++ todo -> forall f f' out, point_loop K (length done) (num_bonds done) todo f = Ok (f', out) -> gsum g 0 f' = gsum g 0 f + total_from h (length done) (num_bonds done) todo).
    { clear HR f f' out. induction todo as [|js todo IH]; intros done E f f' out HL; simpl in HL.
      - injection HL as <- _. cbn. ring.
      - apply bind_Ok in HL as [d [Ed HL]]. apply bind_Ok in HL as [[f1 ss] [E1 HL]]. apply bind_Ok in HL as [[f2 r] [E2 HL]]. injection HL as <- _.
        assert (Hp : nth_error nbrs (length done) = Some js) by (rewrite E; apply nth_app_here).
        assert (Ho : offset nbrs (length done) = num_bonds done) by (rewrite E; apply offset_app). rewrite <- Ho in Ed.
        assert (E1' : bond_loop K d (length done) (offset nbrs (length done) + length (@nil nat)) js f = Ok (f1, ss)) by (cbn [length]; rewrite Nat.add_0_r, Ho; auto).
        rewrite <- (Nat.add_1_r (length done)) in E2.
        assert (E2' : point_loop K (length (done ++ [js])) (num_bonds (done ++ [js])) todo f1 = Ok (f2, r)).
        { rewrite app_length, num_bonds_app. cbn [length]. replace (num_bonds done + num_bonds [js])%nat with (length js + num_bonds done)%nat by (unfold num_bonds; simpl; lia). auto. }
        rewrite (IH (done ++ [js]) ltac:(subst; now rewrite <- app_assoc) _ _ _ E2'), (bond_loop_sum nbrs (length done) js d Hp (H _ _ _ Hp Ed) js [] eq_refl _ _ _ E1').
        cbn [total_from length]. rewrite app_length, num_bonds_app, Ho, !Nat.add_0_r. cbn [length]. replace (num_bonds done + num_bonds [js])%nat with (length js + num_bonds done)%nat by (unfold num_bonds; simpl; lia).
        rewrite Nat.add_1_r. ring. }
    exact (G nbrs [] eq_refl f f' out HR).
  Qed.
End Run.
Lemma gsum_sum : forall g (f : list vec) i, gsum g i f = sum_to (length f) (fun m => g (i + m)%nat (at3 f m)).
Proof.
  intros g. induction f as [|a f IH]; intros i; [reflexivity|]. cbn [gsum length]. rewrite IH. unfold sum_to. cbn [seq]. rewrite so_cons, <- seq_shift, so_map. cbn. rewrite Nat.add_0_r. f_equal.
  apply so_ext. intros m _. f_equal. lia.
Qed.
