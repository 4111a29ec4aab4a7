(** * Proofs about the contact search: all processors, histories *)
From Coq Require Import Reals ZArith Lia Sorting.Sorted Permutation.
From Verif Require Import Base Num ModelNeigh ModelBlock ModelScalar ModelTree ModelFilter ModelParallel ModelContactSearch.
From Verif Require Import SpecGeom SpecTree SpecBlock SpecParallel SpecContactSearch ProofData ProofBlock ProofNeigh ProofContactSearch PropParallel.
Local Open Scope Z_scope.

Definition ids_of (p : processor RN) : list Z := map (fun i => Z.of_nat (ModelParallel.gid p i)) (seq 0 (owned p)).
Lemma ids_nth p i g : nth_error (ids_of p) i = Some g <-> (i < owned p)%nat /\ g = Z.of_nat (ModelParallel.gid p i).
Proof.
  unfold ids_of. split.
  - intros H. assert (Li : (i < length (map (fun i => Z.of_nat (ModelParallel.gid p i)) (seq 0 (owned p))))%nat) by (apply nth_error_Some; congruence).
    rewrite map_length, seq_length in Li. split; [exact Li|]. rewrite (map_nth_error _ i (seq 0 (owned p)) (d := i)) in H; [congruence|].
    rewrite (nth_error_nth' _ 0%nat) by (now rewrite seq_length). now rewrite seq_nth.
  - intros (Li & ->). apply map_nth_error with (f := fun i => Z.of_nat (ModelParallel.gid p i)). rewrite (nth_error_nth' _ 0%nat) by (now rewrite seq_length). now rewrite seq_nth.
Qed.
Lemma ids_len p : length (ids_of p) = owned p. Proof. unfold ids_of. now rewrite map_length, seq_length. Qed.

Section Rows.
  Context (cur : list cproc) (nbrs : list (list (list Z))) (KA : keep_all cur nbrs).
  Lemma concat_place : forall (ls : list (list Z)) q q' a b i j g, NoDup (concat ls) -> nth_error ls q = Some a -> nth_error ls q' = Some b ->
    nth_error a i = Some g -> nth_error b j = Some g -> q = q' /\ i = j.
  Proof.
    induction ls as [|l ls IH]; intros [|q] [|q'] a b i j g N Ha Hb Hi Hj; try discriminate; cbn in *.
    - injection Ha as ->. injection Hb as <-. split; [reflexivity|]. apply (proj1 (NoDup_nth_error a)); [eapply NoDup_app_l; eauto|apply nth_error_Some; congruence|congruence].
    - exfalso. injection Ha as ->. eapply NoDup_app_disj; [exact N|eapply nth_error_In; exact Hi|]. apply in_concat. exists b. split; eapply nth_error_In; eauto.
    - exfalso. injection Hb as ->. eapply NoDup_app_disj; [exact N|eapply nth_error_In; exact Hj|]. apply in_concat. exists a. split; eapply nth_error_In; eauto.
    - destruct (IH q q' a b i j g) as (-> & ->); auto. eapply NoDup_app_r; eauto.
  Qed.
  Lemma row_fun g l l' : row cur nbrs g l -> row cur nbrs g l' -> l = l'.
  Proof.
    intros (q & p & ns & i & Hq & Hn & Hi & Hl) (q' & p' & ns' & i' & Hq' & Hn' & Hi' & Hl'). destruct KA as (_ & N).
    destruct (concat_place (map cp_owned cur) q q' (cp_owned p) (cp_owned p') i i' g N) as (-> & ->); auto; [now apply map_nth_error|now apply map_nth_error|]. congruence.
  Qed.
  Lemma row_in g l : row cur nbrs g l -> In g (concat (map cp_owned cur)).
  Proof. intros (q & p & ns & i & Hq & _ & Hi & _). apply in_concat. exists (cp_owned p). split; [apply in_map; eapply nth_error_In; eauto|eapply nth_error_In; eauto]. Qed.
  Lemma bonded_row g h : bonded cur nbrs g h <-> exists l, row cur nbrs g l /\ In h l.
  Proof. unfold bonded. reflexivity. Qed.

  Definition sources_counts := combine (map cp_owned cur) (map sizes nbrs).
  Definition sources_rows := combine (map (fun q => map fst (cp_bond q)) cur) (map (List.filter nonempty) nbrs).
  Lemma unbonded_in l found h : In h (unbonded l found) <-> In h found /\ ~ In h l.
  Proof.
    unfold unbonded. rewrite filter_In, Bool.negb_true_iff. split; intros (A & B); (split; [exact A|]).
    - intros C. apply existsb_In in C. congruence.
    - destruct (existsb (Z.eqb h) l) eqn:E; [|reflexivity]. exfalso. apply B. now apply existsb_In.
  Qed.
  Lemma all_len (gs found : list (list Z)) : length gs = length found -> length (unbonded_all gs found) = length gs.
  Proof. intros E. unfold unbonded_all. rewrite map_length, combine_length. lia. Qed.

  Lemma search_on_ok r p received tree found :
    NoDup (ids_of p) -> (forall g, In g (ids_of p) -> In g (concat (map cp_owned cur))) ->
    neighborhoods (N:=RN) [ByDefault false] (with_radius (N:=RN) r p) received tree = Ok found -> length found = owned p ->
    exists gs s, search_on (N:=RN) sources_counts sources_rows r p received tree = Ok s /\
      Forall2 (row cur nbrs) (ids_of p) gs /\ keeps (s_proc s) gs /\ cp_owned (s_proc s) = ids_of p /\
      Forall2 (names (cp_overlap (s_proc s))) (s_owned s) (ids_of p) /\
      exists ls, s_contacts s = flat_form ls /\
        Forall2 (Forall2 (names (cp_overlap (s_proc s)))) ls (unbonded_all gs (map (map Z.of_nat) found)).
  Proof.
    intros Nt Sub Hf Lf. destruct (target_rows cur nbrs KA (ids_of p) Sub) as (gs & F). exists gs.
    pose proof (Forall2_len _ _ _ _ _ F) as L. symmetry in L.
    unfold search_on. fold (ids_of p). unfold sources_counts. rewrite (target_counts cur nbrs KA (ids_of p) gs F). cbn [bind].
    unfold sources_rows. rewrite (target_elements cur nbrs KA (ids_of p) gs F). cbn [bind]. rewrite Hf. cbn [bind].
    set (fz := map (map Z.of_nat) found). assert (Lz : length fz = length (ids_of p)) by (unfold fz; rewrite map_length, ids_len; exact Lf).
    rewrite (contacts_ok cur nbrs (ids_of p) Nt gs F fz Lz). cbn [bind].
    set (cs := unbonded_all gs fz). assert (Lc : length cs = length (ids_of p)) by (unfold cs; rewrite all_len; lia).
    assert (Ec : map snd (combine (ids_of p) cs) = cs) by (clear -Lc; revert Lc; generalize (ids_of p) cs; intros t; induction t as [|a t IH]; intros [|c l] E; try discriminate; [reflexivity|]; cbn; f_equal; apply IH; cbn in E; lia).
    rewrite Ec, concat_nonempty.
    destruct (off_ids_ok (ids_of p) (concat gs) []) as (S1 & I1); [constructor|exact Nt|].
    destruct (off_ids_ok (ids_of p) (concat cs) (off_ids (ids_of p) (concat gs) []) S1 Nt) as (S2 & I2).
    set (gh := off_ids (ids_of p) (concat cs) (off_ids (ids_of p) (concat gs) [])) in *. set (ov := ids_of p ++ gh).
    assert (No : NoDup ov).
    { apply NoDup_app_intro; [exact Nt|now apply sorted_NoDup|]. intros x Hx C. apply I2 in C as [C|(_ & C)]; [|tauto]. apply I1 in C as [[]|(_ & C)]. tauto. }
    assert (Hgs : forall l x, In l gs -> In x l -> In x ov).
    { intros l x Hl Hx. apply in_or_app. destruct (in_dec Z.eq_dec x (ids_of p)) as [Y|Y]; [auto|]. right. apply I2. left. apply I1. right. split; [|exact Y]. apply in_concat. eauto. }
    assert (Hcs : forall l x, In l cs -> In x l -> In x ov).
    { intros l x Hl Hx. apply in_or_app. destruct (in_dec Z.eq_dec x (ids_of p)) as [Y|Y]; [auto|]. right. apply I2. right. split; [|exact Y]. apply in_concat. eauto. }
    rewrite (mapM_local ov (ids_of p) No) by (intros g Hg; apply in_or_app; now left). cbn [bind].
    rewrite (local_bonds_ok (ids_of p) gs ov Nt L No Hgs). cbn [bind]. rewrite (local_contacts_ok (ids_of p) cs ov Nt Lc). cbn [bind].
    eexists. split; [reflexivity|]. cbn [s_proc s_owned s_contacts cp_owned cp_overlap]. split; [exact F|].
    assert (W : forall ks, (forall l x, In l ks -> In x l -> In x ov) -> Forall2 (Forall2 (names ov)) (map (map (lid ov)) ks) ks).
    { induction ks as [|k ks IH]; intros H; cbn [map]; constructor; [apply lid_Forall2; [exact No|]; intros g Hg; eapply H; [now left|exact Hg]|]. apply IH. intros l x Hl Hx. eapply H; [right; exact Hl|exact Hx]. }
    split.
    { split; [exact No|]. split; [exists gh; reflexivity|]. split; [exact L|]. split; [reflexivity|]. exists (map (map (lid ov)) gs). split; [reflexivity|]. now apply W. }
    split; [reflexivity|]. split; [apply lid_Forall2; [exact No|]; intros g Hg; apply in_or_app; now left|].
    exists (map (map (lid ov)) cs). split; [reflexivity|]. now apply W.
  Qed.
End Rows.

Lemma sources_ok cur nbrs : keep_all cur nbrs -> mapM number_of_bonds cur = Ok (map sizes nbrs) /\ mapM bond_elements cur = Ok (map (List.filter nonempty) nbrs).
Proof.
  intros (F & _). split.
  - apply (mapM_all _ (fun p n => exists ns, keeps p ns /\ n = sizes ns)); [clear -F; induction F; cbn; constructor; eauto|]. intros p n _ (ns & K & ->). now apply number_ok.
  - apply (mapM_all _ (fun p n => exists ns, keeps p ns /\ n = List.filter nonempty ns)); [clear -F; induction F; cbn; constructor; eauto|]. intros p n _ (ns & K & ->). now apply rows_ok.
Qed.

Lemma nth_error_ext' : forall A (a b : list A), (forall n, nth_error a n = nth_error b n) -> a = b.
Proof.
  intros A. induction a as [|x a IH]; intros [|y b] H; [reflexivity|specialize (H 0%nat); discriminate|specialize (H 0%nat); discriminate|].
  f_equal; [specialize (H 0%nat); cbn in H; congruence|]. apply IH. intros n. exact (H (S n)).
Qed.

(** clouds with one radius *)
Lemma radius_point r ps rank i p : is_point ps rank i p -> is_point (map (with_radius (N:=RN) r) ps) rank i (with_radius (N:=RN) r p).
Proof. intros (A & B). split; [now apply map_nth_error|exact B]. Qed.
Lemma radius_back r ps rank i p' : is_point (map (with_radius (N:=RN) r) ps) rank i p' -> exists p, p' = with_radius (N:=RN) r p /\ is_point ps rank i p.
Proof.
  intros (A & B). rewrite nth_error_map in A. destruct (nth_error ps rank) as [p|] eqn:E; [|discriminate]. cbn in A. injection A as <-. exists p. split; [reflexivity|]. split; [exact E|exact B].
Qed.
Lemma default_filter x y (P : Prop) : unfiltered [ByDefault (N:=RN) false] P x y <-> ~ P.
Proof.
  split.
  - intros H C. destruct (H (ByDefault false)) as (A & _); [now left|]. apply A. auto.
  - intros H f [<-|[]]. split; [intros (C & _); auto|reflexivity].
Qed.
Lemma ids_nodup r t ps : distributed t (map (with_radius (N:=RN) r) ps) -> NoDup (concat (map ids_of ps)).
Proof.
  intros D. assert (Dif : forall r0 i p r' i' p', is_point ps r0 i p -> is_point ps r' i' p' -> ModelParallel.gid p i = ModelParallel.gid p' i' -> r0 = r' /\ i = i').
  { intros r0 i p r' i' p' A B E. eapply (gids_differ _ _ D); [apply radius_point, A|apply radius_point, B|exact E]. }
  clear D. assert (Q : forall k l, (forall q p, nth_error l q = Some p -> nth_error ps (k + q) = Some p) -> NoDup (concat (map ids_of l))).
  { intros k l. revert k. induction l as [|p l IH]; intros k H; cbn [map concat]; [constructor|]. apply NoDup_app_intro.
    - apply NoDup_nth_error. intros i j Li E. rewrite ids_len in Li. assert (Hi : nth_error (ids_of p) i = Some (Z.of_nat (ModelParallel.gid p i))) by (apply ids_nth; auto).
      rewrite Hi in E. symmetry in E. apply ids_nth in E as (Lj & E). apply Nat2Z.inj in E. pose proof (H 0%nat p eq_refl) as P. rewrite Nat.add_0_r in P.
      eapply (Dif k i p k j p); [split; auto|split; auto|exact E].
    - apply (IH (S k)). intros q p' Hq. replace (S k + q)%nat with (k + S q)%nat by lia. now apply H.
    - intros g Hg C. apply In_nth_error in Hg as (i & Hi). apply ids_nth in Hi as (Li & ->). apply in_concat in C as (m & Hm & Hg). apply in_map_iff in Hm as (p' & <- & Hp'). apply In_nth_error in Hp' as (q & Hq).
      apply In_nth_error in Hg as (j & Hj). apply ids_nth in Hj as (Lj & E). apply Nat2Z.inj in E. pose proof (H 0%nat p eq_refl) as P. rewrite Nat.add_0_r in P.
      pose proof (H (S q) p' Hq) as P'. assert (K : k = (k + S q)%nat) by (eapply (Dif k i p (k + S q)%nat j p'); [split; auto|split; auto|exact E]). lia. }
  apply (Q 0%nat). auto.
Qed.

Section Step.
  Context (r : R) (cur : list cproc) (nbrs : list (list (list Z))) (KA : keep_all cur nbrs).
  Context (t : cutting) (ps : list (processor RN)) (assign : range RN -> list nat) (AR : arrangement r cur t ps assign).

  Lemma sends_ok : exists sent, all_sends assign (length ps) 0 (map (with_radius (N:=RN) r) ps) = Ok sent.
  Proof. destruct AR as (D & A & _). rewrite <- (map_length (with_radius (N:=RN) r) ps) in A. destruct (C25_neighbors_partial t _ assign D A) as (sent & E & _). rewrite map_length in E. eauto. Qed.

  Context (target : list (processor RN * list (message RN) * zoltan_tree RN)) (AV : arrives r ps assign target).

  Lemma found_ok rank p received tree : nth_error target rank = Some (p, received, tree) ->
    nth_error ps rank = Some p /\
    exists found, neighborhoods (N:=RN) [ByDefault false] (with_radius (N:=RN) r p) received tree = Ok found /\ length found = owned p /\
    forall i l, nth_error found i = Some l -> NoDup l /\
      (forall g, In g l -> exists r' i' p', is_point ps r' i' p' /\ g = ModelParallel.gid p' i') /\
      forall r' i' p', is_point ps r' i' p' ->
        (In (ModelParallel.gid p' i') l -> ~ (r' = rank /\ i' = i) /\ (distance (at_x p' i') (at_x p i) <= r)%R) /\
        (~ (r' = rank /\ i' = i) -> (distance (at_x p' i') (at_x p i) < r)%R \/ (distance (at_x p' i') (at_x p i) <= r)%R /\ strictly_cut t (map (with_radius (N:=RN) r) ps) ->
          In (ModelParallel.gid p' i') l).
  Proof.
    intros Ht. destruct AV as (Ep & sent & Es & Av). assert (Hp : nth_error ps rank = Some p) by (rewrite <- Ep; now rewrite (map_nth_error _ _ _ Ht)). split; [exact Hp|].
    destruct (Av rank p received tree Ht) as (Pm & B). destruct AR as (D & A & _). pose proof A as A'. rewrite <- (map_length (with_radius (N:=RN) r) ps) in A'.
    destruct (C25_neighbors_partial t _ assign D A') as (sent' & Es' & K). rewrite map_length in Es'. rewrite Es in Es'. injection Es' as <-.
    destruct (K [ByDefault false] rank (with_radius (N:=RN) r p) received tree (map_nth_error _ _ _ Hp) Pm B) as (found & Ef & Lf & Kf). exists found. split; [exact Ef|]. split; [exact Lf|].
    intros i l Hl. destruct (Kf i l Hl) as (K1 & K2 & K3). split; [exact K1|].
    assert (In' : forall g, In g l -> exists r' i' p', is_point ps r' i' p' /\ g = ModelParallel.gid p' i' /\ (distance (at_x p' i') (at_x p i) <= r)%R /\ ~ (r' = rank /\ i' = i)).
    { intros g Hg. destruct (K2 g Hg) as (r' & i' & p2 & P & E & Ds & U). apply radius_back in P as (p' & -> & P). exists r', i', p'. split; [exact P|]. split; [exact E|]. split; [exact Ds|]. exact (proj1 (default_filter _ _ _) U). }
    split; [intros g Hg; destruct (In' g Hg) as (r' & i' & p' & P & E & _); eauto|].
    intros r' i' p' P. split.
    - intros Hg. destruct (In' _ Hg) as (r2 & i2 & p2 & P2 & E & Ds & U).
      destruct (gids_differ _ _ D _ _ _ _ _ _ (radius_point r _ _ _ _ P) (radius_point r _ _ _ _ P2) E) as (-> & ->). assert (p' = p2) as <- by (destruct P, P2; congruence). auto.
    - intros U [Ds|(Ds & T)].
      + apply (K3 r' i' (with_radius (N:=RN) r p') (radius_point r _ _ _ _ P)); [now apply Rlt_le|now apply default_filter|right; exact Ds].
      + destruct (C25_uniform t _ assign r D A' T) as (sent2 & Es2 & K').
        { intros r2 i2 p2 P2. apply radius_back in P2 as (p3 & -> & _). reflexivity. }
        rewrite map_length, Es in Es2. injection Es2 as <-.
        destruct (K' [ByDefault false] rank (with_radius (N:=RN) r p) received tree (map_nth_error _ _ _ Hp) Pm B) as (found' & Ef' & _ & Kf'). rewrite Ef in Ef'. injection Ef' as <-.
        destruct (Kf' i l Hl) as (_ & _ & X). apply (X r' i' (with_radius (N:=RN) r p') (radius_point r _ _ _ _ P)). split; [exact Ds|now apply default_filter].
  Qed.

  Lemma one_processor rank p received tree : nth_error target rank = Some (p, received, tree) ->
    exists gs s, search_on (N:=RN) (sources_counts cur nbrs) (sources_rows cur nbrs) r p received tree = Ok s /\
      Forall2 (row cur nbrs) (ids_of p) gs /\ keeps (s_proc s) gs /\ cp_owned (s_proc s) = ids_of p /\
      contacts_right r (bonded cur nbrs) (strictly_cut t (map (with_radius (N:=RN) r) ps)) ps rank p s.
  Proof.
    intros Ht. destruct (found_ok rank p received tree Ht) as (Hp & found & Ef & Lf & Kf). destruct AR as (D & A & Same).
    assert (Nt : NoDup (ids_of p)).
    { pose proof (ids_nodup r t ps D) as N. clear -N Hp. apply nth_error_In in Hp. induction ps as [|p' l IH]; [destruct Hp|]. cbn [map concat] in N. destruct Hp as [->|Hp]; [eapply NoDup_app_l; eauto|apply IH; [exact Hp|eapply NoDup_app_r; eauto]]. }
    assert (Sub : forall g, In g (ids_of p) -> In g (concat (map cp_owned cur))).
    { intros g Hg. apply In_nth_error in Hg as (i & Hi). apply ids_nth in Hi as (Li & ->). apply Same. exists rank, i, p. split; [split; auto|reflexivity]. }
    destruct (search_on_ok cur nbrs KA r p received tree found Nt Sub Ef Lf) as (gs & s & Es & F & Ks & Eo & Ow & ls & El & Fl).
    exists gs, s. split; [exact Es|]. split; [exact F|]. split; [exact Ks|]. split; [exact Eo|]. split; [exact (proj1 Ks)|]. split; [exact Ow|].
    exists ls. split; [exact El|]. pose proof (Forall2_len _ _ _ _ _ F) as L. rewrite ids_len in L.
    assert (Lc : length (unbonded_all gs (map (map Z.of_nat) found)) = owned p) by (rewrite all_len; rewrite ?map_length; lia).
    split; [rewrite (Forall2_len _ _ _ _ _ Fl); exact Lc|]. intros i l Hl.
    assert (Li : (i < owned p)%nat) by (rewrite <- Lc, <- (Forall2_len _ _ _ _ _ Fl); apply nth_error_Some; congruence).
    destruct (nth_error gs i) as [b|] eqn:Eb; [|apply nth_error_None in Eb; lia]. destruct (nth_error found i) as [fd|] eqn:Efd; [|apply nth_error_None in Efd; lia].
    assert (Ei : nth_error (unbonded_all gs (map (map Z.of_nat) found)) i = Some (unbonded b (map Z.of_nat fd))).
    { unfold unbonded_all. assert (Q : nth_error (combine gs (map (map Z.of_nat) found)) i = Some (b, map Z.of_nat fd)).
      { clear -Eb Efd. revert gs found Eb Efd. induction i as [|i IH]; intros [|x gs] [|y found] Eb Efd; try discriminate; cbn in *; [congruence|apply IH; auto]. }
      now rewrite (map_nth_error _ _ _ Q). }
    exists (unbonded b (map Z.of_nat fd)). split.
    { clear -Fl Hl Ei. revert i Hl Ei. induction Fl as [|x y ls ks H Fl IH]; intros [|i] Hl Ei; try discriminate; cbn in *; [congruence|eauto]. }
    destruct (Kf i fd Efd) as (N1 & N2 & N3).
    assert (Rb : row cur nbrs (Z.of_nat (ModelParallel.gid p i)) b).
    { assert (Hi : nth_error (ids_of p) i = Some (Z.of_nat (ModelParallel.gid p i))) by (apply ids_nth; auto). clear -F Hi Eb. revert i Hi Eb. generalize (Z.of_nat (ModelParallel.gid p 0)). intros _. revert F. generalize (ids_of p). intros t F.
      intros i. generalize (Z.of_nat (ModelParallel.gid p i)). intros g. revert i. induction F as [|x y t gs H F IH]; intros [|i] Hi Eb; try discriminate; cbn in *; [congruence|eauto]. }
    split; [|split].
    - unfold unbonded. apply NoDup_filter. clear -N1. induction N1; cbn; constructor; [|assumption]. intros C. apply in_map_iff in C as (y & E & C). apply Nat2Z.inj in E. now subst y.
    - intros h Hh. apply unbonded_in in Hh as (Hh & _). apply in_map_iff in Hh as (g & <- & Hg). destruct (N2 g Hg) as (r' & i' & p' & P & ->). eauto.
    - intros r' i' p' P candidate d. rewrite unbonded_in. destruct (N3 r' i' p' P) as (X & Y).
      assert (Nb : ~ In (Z.of_nat (ModelParallel.gid p' i')) b <-> ~ bonded cur nbrs (Z.of_nat (ModelParallel.gid p i)) (Z.of_nat (ModelParallel.gid p' i'))).
      { rewrite bonded_row. split; intros H C; apply H; [|eauto]. destruct C as (l' & Rl & Il). now rewrite (row_fun cur nbrs KA _ _ _ Rb Rl). }
      assert (Im : In (Z.of_nat (ModelParallel.gid p' i')) (map Z.of_nat fd) <-> In (ModelParallel.gid p' i') fd).
      { split; [intros H; apply in_map_iff in H as (y & E & H); apply Nat2Z.inj in E; now subst y|apply in_map]. }
      rewrite Im, Nb. split.
      + intros (Hf & Hb). destruct (X Hf). repeat split; auto.
      + intros (Ha & Hb) Hd. split; [apply Y; auto|exact Hb].
  Qed.

  Lemma mapM_index {A B} (f : A -> outcome B) (Q : nat -> B -> Prop) : forall l k, (forall i a, nth_error l i = Some a -> exists b, f a = Ok b /\ Q (k + i)%nat b) ->
    exists l', mapM f l = Ok l' /\ length l' = length l /\ forall i b, nth_error l' i = Some b -> Q (k + i)%nat b.
  Proof.
    induction l as [|a l IH]; intros k H; cbn [mapM]; [exists []; split; [reflexivity|]; split; [reflexivity|]; intros [|i] b; discriminate|].
    destruct (H 0%nat a eq_refl) as (b & E & Qb). rewrite E. cbn [bind]. destruct (IH (S k)) as (l' & E' & L' & K).
    { intros i a' Hi. destruct (H (S i) a' Hi) as (b' & Eb & Qb'). exists b'. split; [exact Eb|]. now replace (S k + i)%nat with (k + S i)%nat by lia. }
    rewrite E'. cbn [bind]. exists (b :: l'). split; [reflexivity|]. split; [cbn; lia|]. intros [|i] b' Hb; cbn in Hb; [injection Hb as <-; exact Qb|]. replace (k + S i)%nat with (S k + i)%nat by lia. eauto.
  Qed.

  Lemma step_ok frequency step : frequency <> 0 -> Z.rem step frequency = 0 ->
    exists new, rebalance_contact (N:=RN) frequency step r cur target = Ok (Some new) /\ length new = length ps /\
      (forall rank p s, nth_error ps rank = Some p -> nth_error new rank = Some s ->
         cp_owned (s_proc s) = ids_of p /\ contacts_right r (bonded cur nbrs) (strictly_cut t (map (with_radius (N:=RN) r) ps)) ps rank p s) /\
      exists nbrs', keep_all (map s_proc new) nbrs' /\ forall g l, row cur nbrs g l <-> row (map s_proc new) nbrs' g l.
  Proof.
    intros Hf Hs. unfold rebalance_contact. replace (frequency =? 0) with false by (symmetry; now apply Z.eqb_neq). rewrite Hs. cbn [Z.eqb negb].
    destruct (sources_ok cur nbrs KA) as (E1 & E2). rewrite E1. cbn [bind]. rewrite E2. cbn [bind]. fold (sources_counts cur nbrs). fold (sources_rows cur nbrs).
    assert (Lt : length target = length ps) by (destruct AV as (E & _); rewrite <- E; now rewrite map_length).
    destruct (mapM_index (fun x => let '(p, received, tree) := x in search_on (N:=RN) (sources_counts cur nbrs) (sources_rows cur nbrs) r p received tree)
      (fun rank s => exists p gs, nth_error ps rank = Some p /\ Forall2 (row cur nbrs) (ids_of p) gs /\ keeps (s_proc s) gs /\ cp_owned (s_proc s) = ids_of p /\
         contacts_right r (bonded cur nbrs) (strictly_cut t (map (with_radius (N:=RN) r) ps)) ps rank p s) target 0) as (new & En & Ln & Kn).
    { intros rank [[p received] tree] Hr. destruct (one_processor rank p received tree Hr) as (gs & s & Es & F & Ks & Eo & Cr). exists s. split; [exact Es|]. exists p, gs.
      split; [apply (found_ok rank p received tree Hr)|auto]. }
    rewrite En. cbn [bind]. exists new. split; [reflexivity|]. split; [lia|]. split.
    { intros rank p s Hp Hn. destruct (Kn rank s Hn) as (p' & gs & Hp' & _ & _ & Eo & Cr). cbn in Hp', Cr. rewrite Hp in Hp'. injection Hp' as <-. auto. }
    assert (Q : exists nbrs', Forall2 (fun s gs => keeps (s_proc s) gs /\ Forall2 (row cur nbrs) (cp_owned (s_proc s)) gs) new nbrs').
    { assert (Q' : forall s, In s new -> exists gs, keeps (s_proc s) gs /\ Forall2 (row cur nbrs) (cp_owned (s_proc s)) gs).
      { intros s Hin. apply In_nth_error in Hin as (rank & Hn). destruct (Kn rank s Hn) as (p & gs & _ & F & Ks & Eo & _). exists gs. rewrite Eo. auto. }
      clear -Q'. induction new as [|s new IH]; [exists []; constructor|]. destruct (Q' s (or_introl eq_refl)) as (gs & K). destruct IH as (nb & F); [intros; apply Q'; now right|]. exists (gs :: nb). now constructor. }
    destruct Q as (nbrs' & F). exists nbrs'.
    assert (Eow : map cp_owned (map s_proc new) = map ids_of ps).
    { apply nth_error_ext'. intros rank. rewrite map_map, !nth_error_map. destruct (nth_error new rank) as [s|] eqn:En'.
      - destruct (Kn rank s En') as (p & gs & Hp & _ & _ & Eo & _). cbn in Hp. rewrite Hp. cbn. f_equal. exact Eo.
      - apply nth_error_None in En'. replace (nth_error ps rank) with (@None (processor RN)); [reflexivity|]. symmetry. apply nth_error_None. lia. }
    destruct AR as (D & _ & Same).
    assert (KA' : keep_all (map s_proc new) nbrs').
    { split; [clear -F; induction F as [|s gs new nb (K & _) F IH]; cbn; constructor; auto|]. rewrite Eow. eapply ids_nodup; eauto. }
    split; [exact KA'|].
    assert (Back : forall g l, row (map s_proc new) nbrs' g l -> row cur nbrs g l).
    { intros g l (q & p & ns & i & Hq & Hn & Hi & Hl). rewrite nth_error_map in Hq. destruct (nth_error new q) as [s|] eqn:Es; [|discriminate]. cbn in Hq. injection Hq as <-.
      assert (Fr : Forall2 (row cur nbrs) (cp_owned (s_proc s)) ns).
      { clear -F Es Hn. revert q Es Hn. induction F as [|s' gs new nb (_ & K) F IH]; intros [|q] Es Hn; try discriminate; cbn in *; [congruence|eauto]. }
      clear -Fr Hi Hl. revert i Hi Hl. induction Fr as [|x y a b H Fr IH]; intros [|i] Hi Hl; try discriminate; cbn in *; [congruence|eauto]. }
    intros g l. split; [|apply Back]. intros Rw. pose proof (row_in cur nbrs g l Rw) as Ig. apply Same in Ig as (rank & i & p & P & ->).
    assert (Ig : In (Z.of_nat (ModelParallel.gid p i)) (concat (map cp_owned (map s_proc new)))).
    { rewrite Eow. apply in_concat. destruct P as (Pn & Pi). exists (ids_of p). split; [apply in_map; eapply nth_error_In; eauto|]. apply nth_error_In with (n := i). apply ids_nth. auto. }
    destruct (row_ex (map s_proc new) nbrs' KA' _ Ig) as (l' & Rl). now rewrite (row_fun cur nbrs KA _ _ _ Rw (Back _ _ Rl)).
  Qed.
End Step.

Lemma history_ok r start nbrs cur : keep_all start nbrs -> history r start cur ->
  exists nbrs', keep_all cur nbrs' /\ forall g l, row start nbrs g l <-> row cur nbrs' g l.
Proof.
  intros K0. induction 1 as [|cur t ps assign target f step new H IH AR AV E]; [exists nbrs; split; [exact K0|tauto]|].
  destruct IH as (nb & Kc & Rc).
  assert (Hf : f <> 0 /\ Z.rem step f = 0).
  { unfold rebalance_contact in E. destruct (Z.eqb_spec f 0); [discriminate|]. destruct (Z.eqb_spec (Z.rem step f) 0); [auto|discriminate]. }
  destruct (step_ok r cur nb Kc t ps assign AR target AV f step (proj1 Hf) (proj2 Hf)) as (new' & E' & _ & _ & nb' & K' & R'). rewrite E in E'. injection E' as <-.
  exists nb'. split; [exact K'|]. intros g l. rewrite Rc. apply R'.
Qed.
