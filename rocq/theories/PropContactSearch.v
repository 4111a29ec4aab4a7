(** * C30: the contact search *)
From Coq Require Import Reals ZArith Lia Lra Permutation Sorting.Sorted.
From Verif Require Import Base Num ModelNeigh ModelBlock ModelScalar ModelTree ModelFilter ModelParallel ModelContactSearch.
From Verif Require Import SpecGeom SpecTree SpecBlock SpecParallel SpecContactSearch ProofData ProofBlock ProofNeigh ProofContactSearch ProofContactSearch2 PropParallel.
Local Open Scope Z_scope.

(** After any number of searches, each over any new distribution of the points, every point is still
    owned by one processor, and has its first bond list, in the same order; the processor has every bonded point. *)
Theorem C30_bonds_kept (r : R) (start cur : list cproc) (nbrs : list (list (list Z))) :
  keep_all start nbrs -> history r start cur ->
  exists nbrs', keep_all cur nbrs' /\ (forall g l, bond_list start nbrs g l <-> bond_list cur nbrs' g l).
Proof. intros K H. exact (history_ok r start nbrs cur K H). Qed.
Print Assumptions C30_bonds_kept.

(** The search after any such history: it succeeds, and the lists are right with the bonds of the start.
    Points at a distance of exactly the radius are found if no two processors share a coordinate across the plane
    that separates them; missing from the full claim: such points otherwise ([C30_tie_refuted]). *)
Theorem C30_lists_partial (r : R) (start cur : list cproc) (nbrs : list (list (list Z)))
  (t : cutting) (ps : list (processor RN)) (assign : range RN -> list nat)
  (target : list (processor RN * list (message RN) * zoltan_tree RN)) (frequency step : Z) :
  keep_all start nbrs -> history r start cur -> arrangement r cur t ps assign -> arrives r ps assign target ->
  frequency <> 0 -> (frequency | step) ->
  exists new, rebalance_contact (N:=RN) frequency step r cur target = Ok (Some new) /\ length new = length ps /\
  forall rank p s, nth_error ps rank = Some p -> nth_error new rank = Some s ->
    cp_owned (s_proc s) = map (fun i => Z.of_nat (ModelParallel.gid p i)) (seq 0 (owned p)) /\
    contacts_right r (bonded start nbrs) (strictly_cut t (map (with_radius (N:=RN) r) ps)) ps rank p s.
Proof.
  intros K H AR AV Hf Hs. destruct (history_ok r start nbrs cur K H) as (nb & Kc & Rc).
  assert (Z.rem step frequency = 0) by (apply Z.rem_divide; auto).
  destruct (step_ok r cur nb Kc t ps assign AR target AV frequency step Hf H0) as (new & E & L & C & _). exists new. split; [exact E|]. split; [exact L|].
  intros rank p s Hp Hn. destruct (C rank p s Hp Hn) as (Eo & N1 & O & ls & El & Ll & Kl). split; [exact Eo|]. split; [exact N1|]. split; [exact O|]. exists ls. split; [exact El|]. split; [exact Ll|].
  intros i l Hl. destruct (Kl i l Hl) as (ids & F & Nd & Src & X). exists ids. split; [exact F|]. split; [exact Nd|]. split; [exact Src|].
  assert (B : forall g h, bonded cur nb g h <-> bonded start nbrs g h).
  { intros g h. split; intros (l' & R1 & I1); exists l'; (split; [apply Rc; exact R1|exact I1]). }
  intros r' i' p' P candidate d. destruct (X r' i' p' P) as (X1 & X2). cbv zeta in X1, X2. rewrite B in X1, X2. split; assumption.
Qed.
Print Assumptions C30_lists_partial.

(** Whatever the distribution, what is sent can be received: [arrives] can always be met. *)
Theorem C30_arrives (r : R) (cur : list cproc) (t : cutting) (ps : list (processor RN)) (assign : range RN -> list nat) :
  arrangement r cur t ps assign -> exists target, arrives r ps assign target.
Proof.
  intros AR. destruct (sends_ok r cur t ps assign AR) as (sent & E).
  set (mk := fun e : nat * processor RN => let got := addressed (N:=RN) (fst e) sent in (snd e, got, {| parts := seq 0 (length (overlap_x (snd e) got)); box := fun _ : range RN => seq 0 (length (overlap_x (snd e) got)) |})).
  exists (map mk (combine (seq 0 (length ps)) ps)). split.
  - rewrite map_map. unfold mk. cbn [fst snd]. generalize 0%nat. clear. induction ps as [|p ps IH]; intros k; cbn; [reflexivity|]. f_equal. apply IH.
  - exists sent. split; [exact E|]. intros rank p received tree Ht. rewrite nth_error_map in Ht. destruct (nth_error (combine (seq 0 (length ps)) ps) rank) as [[k q]|] eqn:Ec; [|discriminate]. cbn in Ht. injection Ht as <- <- <-.
    assert (k = rank) as ->.
    { assert (G : forall (l : list (processor RN)) a n, nth_error (combine (seq a (length l)) l) n = Some (k, q) -> k = (a + n)%nat).
      { clear. induction l as [|x l IH]; intros a n H; [destruct n; discriminate|]. destruct n as [|n]; cbn in H; [injection H as <- _; lia|]. apply IH in H. lia. }
      now apply G in Ec. }
    split; [apply Permutation_refl|]. apply all_bisects.
Qed.
Print Assumptions C30_arrives.

(** A point that on every axis is farther than the radius from the least coordinate of its processor, and at least
    as far from the greatest, is in no contact list of another processor, even if its distance is exactly the radius. *)
Theorem C30_tie_refuted (r : R) (cur : list cproc) (nbrs : list (list (list Z)))
  (t : cutting) (ps : list (processor RN)) (assign : range RN -> list nat)
  (target : list (processor RN * list (message RN) * zoltan_tree RN)) (frequency step : Z) :
  keep_all cur nbrs -> arrangement r cur t ps assign -> arrives r ps assign target -> frequency <> 0 -> (frequency | step) ->
  exists new, rebalance_contact (N:=RN) frequency step r cur target = Ok (Some new) /\
  forall rank s, nth_error new rank = Some s -> exists ls, s_contacts s = flat_form ls /\
  forall r' i' p', is_point ps r' i' p' -> r' <> rank ->
    (forall c, exists k m, (k < owned p')%nat /\ (m < owned p')%nat /\ (along c (at_x p' k) + r < along c (at_x p' i'))%R /\ (along c (at_x p' i') <= along c (at_x p' m) - r)%R) ->
    forall l ids, In l ls -> Forall2 (names (cp_overlap (s_proc s))) l ids -> ~ In (Z.of_nat (ModelParallel.gid p' i')) ids.
Proof.
  intros KA AR AV Hf Hs. assert (Hr : Z.rem step frequency = 0) by (apply Z.rem_divide; auto).
  unfold rebalance_contact. replace (frequency =? 0) with false by (symmetry; now apply Z.eqb_neq). rewrite Hr. cbn [Z.eqb negb].
  destruct (sources_ok cur nbrs KA) as (E1 & E2). rewrite E1. cbn [bind]. rewrite E2. cbn [bind]. fold (sources_counts cur nbrs). fold (sources_rows cur nbrs).
  destruct (mapM_index (fun x => let '(p, received, tree) := x in search_on (N:=RN) (sources_counts cur nbrs) (sources_rows cur nbrs) r p received tree)
    (fun rank s => exists ls, s_contacts s = flat_form ls /\
      forall r' i' p', is_point ps r' i' p' -> r' <> rank ->
    (forall c, exists k m, (k < owned p')%nat /\ (m < owned p')%nat /\ (along c (at_x p' k) + r < along c (at_x p' i'))%R /\ (along c (at_x p' i') <= along c (at_x p' m) - r)%R) ->
    forall l ids, In l ls -> Forall2 (names (cp_overlap (s_proc s))) l ids -> ~ In (Z.of_nat (ModelParallel.gid p' i')) ids) target 0) as (new & En & _ & Kn).
  2:{ rewrite En. cbn [bind]. exists new. split; [reflexivity|]. exact Kn. }
  intros rank [[p received] tree] Ht. change (0 + rank)%nat with rank.
  destruct (found_ok r cur t ps assign AR target AV rank p received tree Ht) as (Hp & found & Ef & Lf & _).
  destruct (one_processor r cur nbrs KA t ps assign AR target AV rank p received tree Ht) as (_ & s & Es & _).
  exists s. split; [exact Es|].
  destruct AV as (_ & sent & Esent & Av). destruct (Av rank p received tree Ht) as (Pm & B). destruct AR as (D & A & Same). pose proof A as A'. rewrite <- (map_length (with_radius (N:=RN) r) ps) in A'.
  destruct (C25_frame_refuted t _ assign D A') as (sent' & Es' & K). rewrite map_length, Esent in Es'. injection Es' as <-.
  destruct (K [ByDefault false] rank (with_radius (N:=RN) r p) received tree (map_nth_error _ _ _ Hp) Pm B) as (found' & Ef' & Kf). rewrite Ef in Ef'. injection Ef' as <-.
  assert (Nt : NoDup (ids_of p)).
  { pose proof (ids_nodup r t ps D) as Nd. clear -Nd Hp. apply nth_error_In in Hp. induction ps as [|q l IH]; [destruct Hp|]. cbn [map concat] in Nd. destruct Hp as [->|Hp]; [eapply NoDup_app_l; eauto|apply IH; [exact Hp|eapply NoDup_app_r; eauto]]. }
  assert (Sub : forall g, In g (ids_of p) -> In g (concat (map cp_owned cur))).
  { intros g Hg. apply In_nth_error in Hg as (i & Hi). apply ids_nth in Hi as (Li & ->). apply Same. exists rank, i, p. split; [split; auto|reflexivity]. }
  destruct (search_on_ok cur nbrs KA r p received tree found Nt Sub Ef Lf) as (gs & s' & Es2 & F & Ks & Eo & Ow & ls & El & Fl).
  rewrite Es in Es2. injection Es2 as <-. exists ls. split; [exact El|].
  intros r' i' p' P Nr Deep l ids Il Fi C.
  assert (Mh : max_horizon (with_radius (N:=RN) r p') = r).
  { assert (Hn : (0 <= r)%R) by exact (horizons_nonneg _ _ D _ _ _ (radius_point r _ _ _ _ P)).
    assert (Q : forall k, fold_left (fun (m : R) (_ : nat) => if Rltb m r then r else m) k r = r).
    { induction k as [|a k IH]; cbn [fold_left]; [reflexivity|]. assert (Rltb r r = false) as -> by (apply Rltb_false; lra). exact IH. }
    unfold max_horizon, with_radius. cbn [owned horizon]. destruct (owned p') as [|n] eqn:Eo'; [destruct P; lia|]. cbn [seq fold_left]. to_R.
    destruct (Rltb 0 r) eqn:E0; [apply Q|]. apply Rltb_false in E0. assert (r = 0%R) as Z0 by lra. pose proof (Q (seq 1 n)) as Q'. revert Q'. rewrite Z0. exact (fun x => x). }
  apply In_nth_error in Il as (i & Hl).
  assert (Ei : exists cs, nth_error (unbonded_all gs (map (map Z.of_nat) found)) i = Some cs /\ Forall2 (names (cp_overlap (s_proc s))) l cs).
  { clear -Fl Hl. revert i Hl. induction Fl as [|x y ls ks H Fl IH]; intros [|i] Hl; try discriminate; cbn in *; [injection Hl as <-; eauto|eauto]. }
  destruct Ei as (cs & Ec & Fc).
  assert (cs = ids) as ->.
  { clear -Fc Fi. revert ids Fi. induction Fc as [|a b l cs (H1 & H2) Fc IH]; intros ids Fi; inversion Fi as [|? ? ? ? (_ & H3)]; subst; [reflexivity|]. f_equal; [congruence|auto]. }
  unfold unbonded_all in Ec. rewrite nth_error_map in Ec. destruct (nth_error (combine gs (map (map Z.of_nat) found)) i) as [[b fz]|] eqn:Eb; [|discriminate]. cbn in Ec. injection Ec as <-.
  apply unbonded_in in C as (C & _). apply nth_error_In, in_combine_r, in_map_iff in Eb as (fd & <- & Ifd). apply in_map_iff in C as (g & Eg & C). apply Nat2Z.inj in Eg. subst g.
  refine (Kf r' i' (with_radius (N:=RN) r p') (radius_point r _ _ _ _ P) Nr _ fd Ifd C). rewrite Mh. exact Deep.
Qed.
Print Assumptions C30_tie_refuted.

(** ** Cases *)

(** The two points of [pair], 7 and 3, on two processors, with or without a bond between them. *)
Definition two (b : bool) : list cproc :=
  if b then [CProc [7] [7;3] [(7,1)] [1;1]; CProc [3] [3;7] [(3,1)] [1;1]] else [CProc [7] [7] [] [0]; CProc [3] [3] [] [0]].
Definition two_bonds (b : bool) : list (list (list Z)) := if b then [[[3]];[[7]]] else [[[]];[[]]].
Lemma two_keep b : keep_all (two b) (two_bonds b).
Proof.
  split; [|destruct b; cbn; repeat constructor; cbn; intuition discriminate].
  destruct b; cbn [two two_bonds]; repeat (apply Forall2_cons || apply Forall2_nil); (split; [cbn; repeat constructor; cbn; intuition discriminate|split; [cbn; eexists (_ :: _) + exists []; reflexivity|split; [reflexivity|split; [reflexivity|]]]]).
  - exists [[1]]. split; [reflexivity|]. repeat constructor; cbn; auto; lia.
  - exists [[1]]. split; [reflexivity|]. repeat constructor; cbn; auto; lia.
  - exists [[]]. split; [reflexivity|]. repeat constructor.
  - exists [[]]. split; [reflexivity|]. repeat constructor.
Qed.
Lemma two_arranged b : arrangement 1 (two b) half (pair 0 0) (drop half).
Proof.
  split; [exact (pair_distributed 1 1 ltac:(lra) ltac:(lra))|]. split; [exact (drop_assigns half 2 (Permutation_refl _))|].
  intros g. split.
  - intros H. assert (g = 7 \/ g = 3) as [->| ->] by (destruct b; cbn in H; intuition); [exists 0%nat, 0%nat, (single 7 (P3 0 0 0) 0)|exists 1%nat, 0%nat, (single 3 (P3 1 0 0) 0)]; (split; [split; [reflexivity|cbn; lia]|reflexivity]).
  - intros (rank & i & p & P & ->). apply pair_point in P as (-> & [(-> & ->)|(-> & ->)]); destruct b; cbn; auto.
Qed.
Lemma pair_cut : strictly_cut half (pair 1 1).
Proof.
  intros r i p r' i' p' H H' N c v Sep. apply pair_point in H as (-> & [(-> & ->)|(-> & ->)]); apply pair_point in H' as (-> & [(-> & ->)|(-> & ->)]); try congruence; cbn [at_x single].
  - destruct c; unfold along; cbn; [lra| |]; exfalso.
    + pose proof (Sep (P3 0 1 0) (P3 1 0 0)) as S. unfold along in S. cbn in S. specialize (S ltac:(left; split; [lra|reflexivity]) ltac:(right; split; [lra|reflexivity])). lra.
    + pose proof (Sep (P3 0 0 1) (P3 1 0 0)) as S. unfold along in S. cbn in S. specialize (S ltac:(left; split; [lra|reflexivity]) ltac:(right; split; [lra|reflexivity])). lra.
  - exfalso. pose proof (Sep (P3 1 1 1) (P3 0 0 0)) as S. unfold along in S. destruct c; cbn in S; specialize (S ltac:(right; split; [lra|reflexivity]) ltac:(left; split; [lra|reflexivity])); lra.
Qed.

(** Without a bond 7 has the contact neighbour 3, with a bond it has none. *)
Example C30_case (b : bool) : exists target, arrives 1 (pair 0 0) (drop half) target /\
  exists s0 s1, rebalance_contact (N:=RN) 5 10 1%R (two b) target = Ok (Some [s0; s1]) /\
    (b = true -> s_contacts s0 = [0]) /\
    (b = false -> exists k, s_contacts s0 = [1; k] /\ names (cp_overlap (s_proc s0)) k 3).
Proof.
  destruct (C30_arrives 1 _ half (pair 0 0) (drop half) (two_arranged b)) as (target & AV). exists target. split; [exact AV|].
  destruct (C30_lists_partial 1 (two b) (two b) (two_bonds b) half (pair 0 0) (drop half) target 5 10 (two_keep b) (no_search _ _) (two_arranged b) AV) as (new & E & L & K); [lia|exists 2; reflexivity|].
  destruct new as [|s0 [|s1 [|]]]; cbn in L; try lia. exists s0, s1. split; [exact E|].
  destruct (K 0%nat _ s0 eq_refl eq_refl) as (Eo & _ & _ & ls & El & Ll & Kl). cbn in Ll. destruct ls as [|l [|]]; cbn in Ll; try lia.
  destruct (Kl 0%nat l eq_refl) as (ids & F & Nd & Src & X).
  assert (P0 : is_point (pair 0 0) 0 0 (single 7 (P3 0 0 0) 0)) by (split; [reflexivity|cbn; lia]).
  assert (P1 : is_point (pair 0 0) 1 0 (single 3 (P3 1 0 0) 0)) by (split; [reflexivity|cbn; lia]).
  pose proof (X 0%nat 0%nat _ P0) as X0. pose proof (X 1%nat 0%nat _ P1) as X1. cbn [ModelParallel.gid single at_x] in X0, X1. cbv zeta in X0, X1. change (Z.of_nat 7) with 7 in *. change (Z.of_nat 3) with 3 in *.
  assert (Only : forall h, In h ids -> h = 3).
  { intros h Hh. destruct (Src h Hh) as (r' & i' & p' & P & ->). apply pair_point in P as (-> & [(-> & ->)|(-> & ->)]); cbn in Hh |- *; [|reflexivity]. exfalso. apply (proj1 X0) in Hh. tauto. }
  split.
  - intros ->. destruct ids as [|h ids]; [inversion F; subst l; exact El|]. exfalso. pose proof (Only h (or_introl eq_refl)) as ->. destruct (proj1 X1 (or_introl eq_refl)) as ((_ & Nb) & _). apply Nb.
    exists [3]. split; [|now left]. exists 0%nat. eexists _, _, 0%nat. repeat split; reflexivity.
  - intros ->. assert (I3 : In 3 ids).
    { apply X1; [|right; split; [rewrite (proj1 pair_distance); lra|exact pair_cut]]. split; [lia|]. intros (l' & (q & p & ns & i & Hq & Hn & Hi & Hl) & I). destruct q as [|[|q]]; cbn in Hq, Hn; [| |destruct q; discriminate]; injection Hq as <-; injection Hn as <-; destruct i as [|i]; cbn in Hl; [injection Hl as <-; destruct I|destruct i; discriminate|injection Hl as <-; destruct I|destruct i; discriminate]. }
    destruct ids as [|a ids]; [destruct I3|]. pose proof (Only a (or_introl eq_refl)) as ->. destruct ids as [|a ids]; [|exfalso; pose proof (Only a (or_intror (or_introl eq_refl))) as ->; inversion Nd as [|? ? Ni _]; apply Ni; now left].
    inversion F as [|k ? l' ? Hk F']; subst. inversion F'; subst. exists k. split; [exact El|exact Hk].
Qed.

(** The four points of [tied]: at distance 1 = the radius, but not in contact lists of one another's processor. *)
Definition four : list cproc := [CProc [0;1;2] [0;1;2] [] [0;0;0]; CProc [3] [3] [] [0]].
Example C30_tie_case : keep_all four [[[];[];[]];[[]]] /\ arrangement 1 four at_one tied (drop at_one) /\
  (exists target, arrives 1 tied (drop at_one) target) /\ (distance (P3 0 0 0) (P3 1 0 0) <= 1)%R /\
  exists p, is_point tied 0 0 p /\ at_x p 0 = P3 0 0 0 /\
  forall c, exists k m, (k < owned p)%nat /\ (m < owned p)%nat /\ (along c (at_x p k) + 1 < along c (at_x p 0))%R /\ (along c (at_x p 0) <= along c (at_x p m) - 1)%R.
Proof.
  destruct C25_frame_case as (D & Hz & Dist & _).
  assert (AR : arrangement 1 four at_one tied (drop at_one)).
  { split; [exact D|]. split; [exact (drop_assigns at_one 2 (Permutation_refl _))|]. intros g. split.
    - cbn [four map cp_owned concat app In]. intros [<-|[<-|[<-|[<-|[]]]]]; [exists 0%nat, 0%nat|exists 0%nat, 1%nat|exists 0%nat, 2%nat|exists 1%nat, 0%nat]; (eexists; split; [split; [reflexivity|cbn; lia]|reflexivity]).
    - intros (rank & i & p & (Hp & Li) & ->). destruct rank as [|[|rank]]; [| |destruct rank; discriminate]; cbn in Hp; injection Hp as <-; cbn in Li |- *; [destruct i as [|[|[|i]]]; [auto..|lia]|auto]. }
  split; [|split; [exact AR|split; [exact (C30_arrives 1 four at_one tied (drop at_one) AR)|split; [exact Dist|]]]].
  - split; [|cbn; repeat constructor; cbn; intuition discriminate]. repeat (apply Forall2_cons || apply Forall2_nil).
    + split; [cbn; repeat constructor; cbn; intuition discriminate|]. split; [exists []; reflexivity|]. split; [reflexivity|]. split; [reflexivity|]. exists [[];[];[]]. split; [reflexivity|]. repeat constructor.
    + split; [cbn; repeat constructor; cbn; intuition discriminate|]. split; [exists []; reflexivity|]. split; [reflexivity|]. split; [reflexivity|]. exists [[]]. split; [reflexivity|]. repeat constructor.
  - eexists. split; [split; [reflexivity|cbn; lia]|]. split; [reflexivity|]. intros c. exists 1%nat, 2%nat. cbn [owned at_x three]. split; [lia|]. split; [lia|]. destruct c; unfold along; cbn; lra.
Qed.
