(** * C25: the parallel neighbourhood search *)
From Coq Require Import Reals Lra Lia Psatz Sorting.Sorted Permutation.
From Verif Require Import Base Num ModelScalar ModelTree ModelFilter ModelParallel SpecGeom SpecTree SpecParallel ProofTree ProofTree2 ProofParallel ProofParallel2.
Local Open Scope R_scope.

(** For every cloud, every recursive bisection over any number of processors, every assignment of horizons and every
    order in which messages arrive, all processors finish; the list of a point holds, once, only points of the cloud within its horizon
    that no filter removes; it holds all such points of the same processor, and those of other processors
    that are also closer than their own horizon.  Missing from the property: points of other processors between the two
    horizons; see C25_variable_refuted. *)
Theorem C25_neighbors_partial (t : cutting) (ps : list (processor RN)) (assign : range RN -> list nat) :
  distributed t ps -> assigns t (length ps) assign ->
  exists sent, all_sends assign (length ps) 0 ps = Ok sent /\
  forall fs rank p received tr, nth_error ps rank = Some p -> Permutation received (addressed rank sent) -> bisects (overlap_x p received) tr ->
  exists lists, neighborhoods fs p received tr = Ok lists /\ length lists = owned p /\
  forall i l, nth_error lists i = Some l -> NoDup l /\
    (forall g, In g l -> exists r' i' p', is_point ps r' i' p' /\ g = gid p' i' /\ distance (at_x p' i') (at_x p i) <= horizon p i /\ unfiltered fs (r' = rank /\ i' = i) (at_x p i) (at_x p' i')) /\
    (forall r' i' p', is_point ps r' i' p' -> distance (at_x p' i') (at_x p i) <= horizon p i -> unfiltered fs (r' = rank /\ i' = i) (at_x p i) (at_x p' i') ->
       r' = rank \/ distance (at_x p' i') (at_x p i) < horizon p' i' -> In (gid p' i') l).
Proof.
  intros D A. destruct (exchange t ps assign D A) as (sent & Es & Ex). exists sent. split; [exact Es|]. intros fs rank p received tr Hp Pm B.
  destruct (Ex rank received Pm) as (got & -> & Ng & Ig). destruct D as [Rk Ne Reg Dif Hn So].
  destruct (lists_ok ps rank p got tr fs Hp Dif Hn) as (lists & El & Ll & Nl); [intros r i q G; apply Ig in G as (G & T & _); auto|exact Ng|exact B|].
  exists lists. split; [exact El|]. split; [exact Ll|]. intros i l H. destruct (Nl i l H) as (N1 & N2 & N3). split; [exact N1|]. split.
  - intros g G. destruct (N2 g G) as (r' & i' & p' & P & ->). exists r', i', p'. split; [exact P|]. split; [reflexivity|]. exact (proj2 (proj1 (N3 _ _ _ P) G)).
  - intros r' i' p' P Ds U W. apply (N3 _ _ _ P). split; [|auto]. destruct (Nat.eq_dec r' rank) as [->|Nr]; [now left|]. right. destruct W as [->|W]; [congruence|]. apply Ig. split; [exact P|].
    assert (Li : (i < owned p)%nat) by (rewrite <- Ll; apply nth_error_Some; congruence).
    apply (close_travels t ps assign (Build_distributed t ps Rk Ne Reg Dif Hn So) A rank i p r' i' p'); auto; [split; auto|now apply Rlt_le].
Qed.
Print Assumptions C25_neighbors_partial.

(** With one horizon for all points, and no two processors sharing points on a plane between them, every list holds exactly
    the points of the whole cloud within the horizon that no filter removes. *)
Theorem C25_uniform (t : cutting) (ps : list (processor RN)) (assign : range RN -> list nat) (h : R) :
  distributed t ps -> assigns t (length ps) assign -> strictly_cut t ps -> (forall r i p, is_point ps r i p -> horizon p i = h) ->
  exists sent, all_sends assign (length ps) 0 ps = Ok sent /\
  forall fs rank p received tr, nth_error ps rank = Some p -> Permutation received (addressed rank sent) -> bisects (overlap_x p received) tr ->
  exists lists, neighborhoods fs p received tr = Ok lists /\ length lists = owned p /\
  forall i l, nth_error lists i = Some l -> exact_neighbors ps fs rank i p l.
Proof.
  intros D A SC Hh. destruct (exchange t ps assign D A) as (sent & Es & Ex). exists sent. split; [exact Es|]. intros fs rank p received tr Hp Pm B.
  destruct (Ex rank received Pm) as (got & -> & Ng & Ig). destruct D as [Rk Ne Reg Dif Hn So].
  destruct (lists_ok ps rank p got tr fs Hp Dif Hn) as (lists & El & Ll & Nl); [intros r i q G; apply Ig in G as (G & T & _); auto|exact Ng|exact B|].
  exists lists. split; [exact El|]. split; [exact Ll|]. intros i l H. destruct (Nl i l H) as (N1 & N2 & N3). split; [exact N1|]. split; [exact N2|].
  intros r' i' p' P. rewrite (N3 _ _ _ P). split; [tauto|]. intros (Ds & U). split; [|auto]. destruct (Nat.eq_dec r' rank) as [->|Nr]; [now left|]. right. apply Ig. split; [exact P|].
  assert (Li : (i < owned p)%nat) by (rewrite <- Ll; apply nth_error_Some; congruence). assert (Pi : is_point ps rank i p) by (split; auto).
  apply (close_travels t ps assign (Build_distributed t ps Rk Ne Reg Dif Hn So) A rank i p r' i' p'); auto.
  eapply Rle_trans; [exact Ds|]. apply Req_le. etransitivity; [exact (Hh _ _ _ Pi)|symmetry; exact (Hh _ _ _ P)].
Qed.
Print Assumptions C25_uniform.

(** Where a point does not arrive: if the cube of its own horizon misses the region of another processor, no list of that
    processor holds it, however large the horizons there. *)
Theorem C25_variable_refuted (t : cutting) (ps : list (processor RN)) (assign : range RN -> list nat) :
  distributed t ps -> assigns t (length ps) assign -> assigns_only t assign ->
  exists sent, all_sends assign (length ps) 0 ps = Ok sent /\
  forall fs rank p received tr, nth_error ps rank = Some p -> Permutation received (addressed rank sent) -> bisects (overlap_x p received) tr ->
  exists lists, neighborhoods fs p received tr = Ok lists /\
  forall r' i' p', is_point ps r' i' p' -> r' <> rank -> (forall x, region t rank x -> ~ in_box (cube (N:=RN) (at_x p' i') (horizon p' i')) x) ->
    forall l, In l lists -> ~ In (gid p' i') l.
Proof.
  intros D A O. destruct (exchange t ps assign D A) as (sent & Es & Ex). exists sent. split; [exact Es|]. intros fs rank p received tr Hp Pm B.
  destruct (Ex rank received Pm) as (got & -> & Ng & Ig). destruct D as [Rk Ne Reg Dif Hn So].
  destruct (lists_ok ps rank p got tr fs Hp Dif Hn) as (lists & El & Ll & Nl); [intros r i q G; apply Ig in G as (G & T & _); auto|exact Ng|exact B|].
  exists lists. split; [exact El|]. intros r' i' p' P Nr Miss l Il G. apply In_nth_error in Il as (i & Il). destruct (Nl i l Il) as (_ & _ & N3). apply (proj1 (N3 _ _ _ P)), proj1 in G. destruct G as [G|G]; [congruence|].
  apply Ig in G as (_ & _ & _ & G). apply O in G as (x & X1 & X2); [exact (Miss x X2 X1)|].
  exists (at_x p' i'). apply near_box. rewrite dist_self. exact (Hn _ _ _ P).
Qed.
Print Assumptions C25_variable_refuted.

(** Where a point does not leave: a point that on every axis is farther than the largest local horizon from the least coordinate, and
    at least as far from the greatest, is in no list of any other processor. *)
Theorem C25_frame_refuted (t : cutting) (ps : list (processor RN)) (assign : range RN -> list nat) :
  distributed t ps -> assigns t (length ps) assign ->
  exists sent, all_sends assign (length ps) 0 ps = Ok sent /\
  forall fs rank p received tr, nth_error ps rank = Some p -> Permutation received (addressed rank sent) -> bisects (overlap_x p received) tr ->
  exists lists, neighborhoods fs p received tr = Ok lists /\
  forall r' i' p', is_point ps r' i' p' -> r' <> rank ->
    (forall c, exists k m, (k < owned p')%nat /\ (m < owned p')%nat /\ along c (at_x p' k) + max_horizon p' < along c (at_x p' i') /\ along c (at_x p' i') <= along c (at_x p' m) - max_horizon p') ->
    forall l, In l lists -> ~ In (gid p' i') l.
Proof.
  intros D A. destruct (exchange t ps assign D A) as (sent & Es & Ex). exists sent. split; [exact Es|]. intros fs rank p received tr Hp Pm B.
  destruct (Ex rank received Pm) as (got & -> & Ng & Ig). destruct D as [Rk Ne Reg Dif Hn So].
  destruct (lists_ok ps rank p got tr fs Hp Dif Hn) as (lists & El & Ll & Nl); [intros r i q G; apply Ig in G as (G & T & _); auto|exact Ng|exact B|].
  exists lists. split; [exact El|]. intros r' i' p' P Nr Deep l Il G. apply In_nth_error in Il as (i & Il). destruct (Nl i l Il) as (_ & _ & N3). apply (proj1 (N3 _ _ _ P)), proj1 in G. destruct G as [G|G]; [congruence|].
  apply Ig in G as (_ & _ & (c & F) & _). destruct (Deep c) as (k & m & Lk & Lm & Hk & Hm). destruct F as [F|F]; [specialize (F k Lk)|specialize (F m Lm)]; revert F Hk Hm; clear; to_R; intros; lra.
Qed.
Print Assumptions C25_frame_refuted.

(** A processor without points reads beyond its (empty) array of ids. *)
Theorem C25_empty_processor_refuted (p : processor RN) (assign : range RN -> list nat) (procs rank : nat) :
  owned p = 0%nat -> sorted_order (at_x p) (owned p) (by_axis p) -> sends assign procs rank p = UB.
Proof.
  intros Z S. unfold sends, frame_set, frame_along. destruct (S CompX) as (P & _). rewrite Z in P. cbn in P. apply Permutation_sym, Permutation_nil in P. rewrite P. reflexivity.
Qed.
Print Assumptions C25_empty_processor_refuted.

(** ** Cases *)

(** Dropping a box on a bisection, as Zoltan does: on both sides of a plane that it touches. *)
Fixpoint drop (t : cutting) (b : range RN) : list nat :=
  match t with
  | Whole r => [r]
  | Cut c v l r => (if Rleb (along c (low b)) v then drop l b else []) ++ (if Rleb v (along c (high b)) then drop r b else [])
  end.
Lemma drop_in t b q : In q (drop t b) -> In q (ranks t).
Proof. induction t as [r|c v l IHl r IHr]; cbn; [auto|]. rewrite !in_app_iff. destruct (Rleb _ v), (Rleb v _); cbn; tauto. Qed.
Lemma drop_once t b : NoDup (ranks t) -> NoDup (drop t b).
Proof.
  induction t as [r|c v l IHl r IHr]; cbn; [auto|]. intros D. apply nodup_app in D as (Dl & Dr & Dis). specialize (IHl Dl). specialize (IHr Dr).
  destruct (Rleb _ v), (Rleb v _); cbn; rewrite ?app_nil_r; auto; [|constructor].
  assert (Dis' : forall x, In x (drop l b) -> ~ In x (drop r b)) by (intros x X Y; apply drop_in in X, Y; eauto). revert IHl Dis'. generalize (drop l b). intros m. induction m as [|a m IH]; cbn; intros Dm Dis'; [exact IHr|].
  inversion Dm; subst. constructor; [rewrite in_app_iff; intros [I|I]; [tauto|]; now apply (Dis' a (or_introl eq_refl))|]. apply IH; auto.
Qed.
Lemma drop_assigns t n : Permutation (ranks t) (seq 0 n) -> assigns t n (drop t).
Proof.
  intros P b. split; [apply drop_once; eapply Permutation_NoDup; [apply Permutation_sym, P|apply seq_NoDup]|]. split.
  - intros q Q. apply drop_in, (Permutation_in _ P), in_seq in Q. lia.
  - intros q x _ B. clear P. induction t as [r|c v l IHl r IHr]; cbn; [auto|]. intros [(L & H)|(L & H)]; apply in_or_app; [left|right]; destruct (B c) as (B1 & B2).
    + assert (Rleb (along c (low b)) v = true) as -> by (apply Rleb_true; lra). auto.
    + assert (Rleb v (along c (high b)) = true) as -> by (apply Rleb_true; lra). auto.
Qed.
Lemma all_bisects (xs : list point) : bisects xs {| parts := seq 0 (length xs); box := fun _ => seq 0 (length xs) |}.
Proof.
  split; [apply Permutation_refl|]. intros b. cbn. split; [apply seq_NoDup|]. split; [intros q Q; apply in_seq in Q; lia|]. intros i x q X Q _. now apply nth_error_In in Q.
Qed.

Definition P3 (x y z : R) : point := v3 (N:=RN) x y z.
(** Two processors, a plane at x = 1/2: one point at the origin, one at (1,0,0). *)
Definition half : cutting := Cut CompX (/ 2) (Whole 0) (Whole 1).
Definition single (g : nat) (x : point) (h : R) : processor RN := {| owned := 1; gid := fun _ => g; at_x := fun _ => x; horizon := fun _ => h; by_axis := fun _ => [0%nat] |}.
Definition pair (h0 h1 : R) : list (processor RN) := [single 7 (P3 0 0 0) h0; single 3 (P3 1 0 0) h1].
Lemma pair_point h0 h1 r i p : is_point (pair h0 h1) r i p -> i = 0%nat /\ (r = 0%nat /\ p = single 7 (P3 0 0 0) h0 \/ r = 1%nat /\ p = single 3 (P3 1 0 0) h1).
Proof. intros (E & L). destruct r as [|[|r]]; cbn in E; [inversion E; subst; cbn in L; split; [lia|auto]|inversion E; subst; cbn in L; split; [lia|auto]|destruct r; discriminate]. Qed.
Lemma pair_distributed h0 h1 : 0 <= h0 -> 0 <= h1 -> distributed half (pair h0 h1).
Proof.
  intros H0 H1. constructor.
  - apply Permutation_refl.
  - intros p [<-|[<-|[]]]; cbn; lia.
  - intros r i p H. apply pair_point in H as (-> & [(-> & ->)|(-> & ->)]); cbn; [left|right]; unfold along; cbn; split; auto; lra.
  - intros r i p r' i' p' H H' E. apply pair_point in H as (-> & [(-> & ->)|(-> & ->)]); apply pair_point in H' as (-> & [(-> & ->)|(-> & ->)]); cbn in E; auto; discriminate.
  - intros r i p H. apply pair_point in H as (-> & [(-> & ->)|(-> & ->)]); auto.
  - intros p [<-|[<-|[]]] c; (split; [apply Permutation_refl|constructor; constructor]).
Qed.
Lemma pair_distance : distance (P3 1 0 0) (P3 0 0 0) = 1 /\ distance (P3 0 0 0) (P3 1 0 0) = 1.
Proof. split; unfold distance, vlen, vdot, vsub, P3; cbn [vx vy vz]; to_R; match goal with |- sqrt ?e = 1 => replace e with 1 by ring end; apply sqrt_1. Qed.

(** Both points find each other when the horizon of both is 1 (exactly their distance). *)
Example C25_case : exists sent, all_sends (drop half) 2 0 (pair 1 1) = Ok sent /\
  neighborhoods [ByDefault false] (single 7 (P3 0 0 0) 1) (addressed 0 sent) {| parts := [0;1]%nat; box := fun _ => [0;1]%nat |} = Ok [[3%nat]] /\
  neighborhoods [ByDefault false] (single 3 (P3 1 0 0) 1) (addressed 1 sent) {| parts := [0;1]%nat; box := fun _ => [0;1]%nat |} = Ok [[7%nat]].
Proof.
  assert (D := pair_distributed 1 1 ltac:(lra) ltac:(lra)). assert (A := drop_assigns half 2 (Permutation_refl _)).
  assert (SC : strictly_cut half (pair 1 1)).
  { intros r i p r' i' p' H H' N c v Sep. apply pair_point in H as (-> & [(-> & ->)|(-> & ->)]); apply pair_point in H' as (-> & [(-> & ->)|(-> & ->)]); try congruence; cbn [at_x single].
    - destruct c; unfold along; cbn; [lra| |]; exfalso.
      + pose proof (Sep (P3 0 1 0) (P3 1 0 0)) as S. unfold along in S. cbn in S. specialize (S ltac:(left; split; [lra|reflexivity]) ltac:(right; split; [lra|reflexivity])). lra.
      + pose proof (Sep (P3 0 0 1) (P3 1 0 0)) as S. unfold along in S. cbn in S. specialize (S ltac:(left; split; [lra|reflexivity]) ltac:(right; split; [lra|reflexivity])). lra.
    - exfalso. pose proof (Sep (P3 1 1 1) (P3 0 0 0)) as S. unfold along in S. destruct c; cbn in S; specialize (S ltac:(right; split; [lra|reflexivity]) ltac:(left; split; [lra|reflexivity])); lra. }
  destruct (C25_uniform half (pair 1 1) (drop half) 1 D A SC) as (sent & Es & H); [intros r i p Pt; apply pair_point in Pt as (-> & [(-> & ->)|(-> & ->)]); reflexivity|].
  exists sent. split; [exact Es|].
  assert (Sent : addressed (N:=RN) 0 sent = [(3%nat, P3 1 0 0)] /\ addressed (N:=RN) 1 sent = [(7%nat, P3 0 0 0)]).
  { destruct (exchange half (pair 1 1) (drop half) D A) as (s' & Es' & Ex). rewrite Es in Es'. inversion Es'; subst s'.
    assert (Tr : forall rank r p, (rank < 2)%nat -> r <> rank -> nth_error (pair 1 1) r = Some p -> travels (drop half) rank r 0 p).
    { intros rank r p L N E. destruct (nth_error (pair 1 1) rank) as [q|] eqn:Q; [|apply nth_error_None in Q; cbn in Q; lia].
      apply (close_travels half (pair 1 1) (drop half) D A rank 0%nat q r 0%nat p); [split; [exact Q|]|split; [exact E|]|exact N| |right; exact SC].
      - destruct rank as [|[|]]; cbn in Q; [inversion Q; cbn; lia..|lia].
      - destruct r as [|[|r]]; cbn in E; [inversion E; cbn; lia..|destruct r; discriminate].
      - destruct rank as [|[|]]; [| |lia]; (destruct r as [|[|r]]; [| |destruct r; discriminate]); cbn in E, Q; inversion E; inversion Q; subst; try congruence; cbn [at_x single horizon]; rewrite ?(proj1 pair_distance), ?(proj2 pair_distance); lra. }
    assert (Only : forall rank r p, nth_error (pair 1 1) r = Some p -> r <> rank -> (rank < 2)%nat -> (forall r', r' <> rank -> (r' < 2)%nat -> r' = r) -> addressed (N:=RN) rank sent = [note (r, 0%nat, p)]).
    { intros rank r p E N L U. destruct (Ex rank (addressed rank sent) (Permutation_refl _)) as (got & Eg & Dg & Ig). rewrite Eg.
      assert (G1 : In (r, 0%nat, p) got). { apply Ig. split; [|now apply Tr]. split; [exact E|]. destruct r as [|[|r]]; cbn in E; [inversion E; cbn; lia..|destruct r; discriminate]. }
      assert (G2 : forall s, In s got -> s = (r, 0%nat, p)). { intros ((r' & i') & p') I. apply Ig in I as (Pt & Nr & _). pose proof (proj1 Pt) as E'. apply pair_point in Pt as (-> & W). assert (r' = r) by (apply U; [exact Nr|destruct W as [(-> & _)|(-> & _)]; lia]). subst r'. rewrite E in E'. congruence. }
      destruct got as [|s got]; [destruct G1|]. rewrite (G2 s (or_introl eq_refl)). destruct got as [|s' got]; [reflexivity|]. exfalso. inversion Dg as [|? ? Ni _]; subst. apply Ni. rewrite (G2 s (or_introl eq_refl)), <- (G2 s' (or_intror (or_introl eq_refl))). now left. }
    split; [rewrite (Only 0%nat 1%nat (single 3 (P3 1 0 0) 1)); try reflexivity; try lia|rewrite (Only 1%nat 0%nat (single 7 (P3 0 0 0) 1)); try reflexivity; try lia]. }
  destruct Sent as (S0 & S1).
  assert (Fin : forall rank p g q r', nth_error (pair 1 1) rank = Some p -> is_point (pair 1 1) r' 0 q -> r' <> rank -> g = gid q 0 -> length (addressed (N:=RN) rank sent) = 1%nat -> owned p = 1%nat ->
    neighborhoods [ByDefault false] p (addressed rank sent) {| parts := [0;1]%nat; box := fun _ => [0;1]%nat |} = Ok [[g]]).
  { intros rank p g q r' Hp Hq Nr -> Len Ow. destruct (H [ByDefault false] rank p (addressed rank sent) {| parts := [0;1]%nat; box := fun _ => [0;1]%nat |} Hp (Permutation_refl _)) as (lists & El & Ll & Hl).
    { assert (L2 : length (overlap_x p (addressed rank sent)) = 2%nat) by (unfold overlap_x; rewrite app_length, !map_length, seq_length, Ow; exact (f_equal S Len)). pose proof (all_bisects (overlap_x p (addressed rank sent))) as B. rewrite L2 in B. exact B. }
    rewrite El. f_equal. rewrite Ow in Ll. destruct lists as [|l [|]]; cbn in Ll; try lia. f_equal. destruct (Hl 0%nat l eq_refl) as (Nd & Src & Ex).
    assert (Un : forall s x y, unfiltered [ByDefault false] s x y <-> ~ s). { intros s x y. split; [intros U S; destruct (U _ (or_introl eq_refl)) as (U1 & _); apply U1; auto|]. intros S f [<-|[]]. split; [tauto|reflexivity]. }
    assert (G1 : In (gid q 0) l). { apply (Ex r' 0%nat q Hq). split; [|apply Un; lia]. assert (Pp : is_point (pair 1 1) rank 0 p) by (split; [exact Hp|lia]). apply pair_point in Pp as (_ & [(-> & ->)|(-> & ->)]); apply pair_point in Hq as (_ & [(-> & ->)|(-> & ->)]); try congruence; cbn [at_x single horizon]; rewrite ?(proj1 pair_distance), ?(proj2 pair_distance); lra. }
    assert (G2 : forall x, In x l -> x = gid q 0). { intros x X. destruct (Src x X) as (r2 & i2 & p2 & P2 & ->). apply (proj1 (Ex _ _ _ P2)), proj2 in X. apply Un in X. assert (Pp : is_point (pair 1 1) rank 0 p) by (split; [exact Hp|lia]).
      apply pair_point in Pp as (_ & [(-> & ->)|(-> & ->)]); apply pair_point in Hq as (_ & [(-> & ->)|(-> & ->)]); apply pair_point in P2 as (-> & [(-> & ->)|(-> & ->)]); try congruence; tauto. }
    destruct l as [|a l]; [destruct G1|]. rewrite (G2 a (or_introl eq_refl)). f_equal. destruct l as [|b l]; [reflexivity|]. exfalso. inversion Nd as [|? ? Ni _]; subst. apply Ni. rewrite (G2 a (or_introl eq_refl)), <- (G2 b (or_intror (or_introl eq_refl))). now left. }
  split; [apply (Fin 0%nat _ 3%nat (single 3 (P3 1 0 0) 1) 1%nat)|apply (Fin 1%nat _ 7%nat (single 7 (P3 0 0 0) 1) 0%nat)]; try reflexivity; try lia; try (split; [reflexivity|cbn; lia]); [now rewrite S0|now rewrite S1].
Qed.

(** Points at distance 1; the point at the origin has horizon 2, but the other, with horizon 1/4, is not sent to it. *)
Example C25_variable_case : distributed half (pair 2 (/ 4)) /\ assigns half 2 (drop half) /\ assigns_only half (drop half) /\
  is_point (pair 2 (/ 4)) 1 0 (single 3 (P3 1 0 0) (/ 4)) /\ distance (P3 1 0 0) (P3 0 0 0) <= 2 /\
  (forall x, region half 0 x -> ~ in_box (cube (N:=RN) (P3 1 0 0) (/ 4)) x).
Proof.
  split; [apply pair_distributed; lra|]. split; [apply (drop_assigns half 2 (Permutation_refl _))|]. split; [|split; [split; [reflexivity|cbn; lia]|split; [rewrite (proj1 pair_distance); lra|]]].
  - intros b q (x & X) I. cbn [drop half] in I. pose proof (X CompX) as (X1 & X2). apply in_app_or in I as [I|I].
    + destruct (Rleb (along CompX (low b)) (/ 2)) eqn:E; [|destruct I]. apply Rleb_true in E. destruct I as [<-|[]]. exists (P3 (along CompX (low b)) (vy x) (vz x)). split; [|left; split; [exact E|reflexivity]].
      intros c. pose proof (X c) as Xc. destruct c; unfold along in *; cbn in *; lra.
    + destruct (Rleb (/ 2) (along CompX (high b))) eqn:E; [|destruct I]. apply Rleb_true in E. destruct I as [<-|[]]. exists (P3 (along CompX (high b)) (vy x) (vz x)). split; [|right; split; [exact E|reflexivity]].
      intros c. pose proof (X c) as Xc. destruct c; unfold along in *; cbn in *; lra.
  - intros x [(L & _)|(_ & H)] B; [|discriminate]. specialize (B CompX). unfold along in *. cbn in *. lra.
Qed.

(** One horizon, 1, for four points: a processor with points (0,0,0), (-2,-2,-2), (1,2,2) and one with (1,0,0), the plane at x = 1.
    The points (0,0,0) and (1,0,0) are at distance 1, but (0,0,0) does not leave its processor. *)
Definition at_one : cutting := Cut CompX 1 (Whole 0) (Whole 1).
Definition three (i : nat) : point := match i with 0%nat => P3 0 0 0 | 1%nat => P3 (-2) (-2) (-2) | _ => P3 1 2 2 end.
Definition tied : list (processor RN) :=
  [{| owned := 3; gid := fun i => i; at_x := three; horizon := fun _ => 1; by_axis := fun _ => [1;0;2]%nat |}; single 3 (P3 1 0 0) 1].
Example C25_frame_case : distributed at_one tied /\ (forall r i p, is_point tied r i p -> horizon p i = 1) /\
  distance (P3 0 0 0) (P3 1 0 0) <= 1 /\
  exists p, is_point tied 0 0 p /\ at_x p 0 = P3 0 0 0 /\
  forall c, exists k m, (k < owned p)%nat /\ (m < owned p)%nat /\ along c (at_x p k) + max_horizon p < along c (at_x p 0) /\ along c (at_x p 0) <= along c (at_x p m) - max_horizon p.
Proof.
  assert (Pt : forall r i p, is_point tied r i p -> r = 0%nat /\ nth_error tied 0 = Some p /\ (i < 3)%nat \/ r = 1%nat /\ p = single 3 (P3 1 0 0) 1 /\ i = 0%nat).
  { intros r i p (E & L). destruct r as [|[|r]]; [left|right|destruct r; discriminate]; cbn in E; inversion E; subst; cbn in L |- *; repeat split; lia. }
  split; [|split; [|split]].
  - constructor.
    + apply Permutation_refl.
    + intros p [<-|[<-|[]]]; cbn; lia.
    + intros r i p H. apply Pt in H as [(-> & E & L)|(-> & -> & ->)]; [left|right; split; [unfold along; cbn; lra|reflexivity]]. split; [|reflexivity]. cbn in E. inversion E; subst. cbn [at_x]. clear E; assert (Hr : forall j, (j < 3)%nat -> vx (three j) <= 1) by (intros [|[|[|j]]] J; [cbn; lra|cbn; lra|cbn; lra|lia]); exact (Hr i L).
    + intros r i p r' i' p' H H' E. apply Pt in H as [(-> & Ep & L)|(-> & -> & ->)]; apply Pt in H' as [(-> & Ep' & L')|(-> & -> & ->)]; [| | |auto]; cbn in *; try (inversion Ep; subst); try (inversion Ep'; subst); cbn in E; [split; [reflexivity|exact E]|lia|lia].
    + intros r i p H. apply Pt in H as [(-> & E & L)|(-> & -> & ->)]; [cbn in E; inversion E; subst|]; cbn; lra.
    + intros p [<-|[<-|[]]] c; [|split; [apply Permutation_refl|constructor; constructor]]. cbn [at_x owned by_axis]. split; [apply (Permutation_trans (perm_swap 0 1 [2])%nat), Permutation_refl|].
      repeat match goal with |- StronglySorted _ _ => constructor | |- Forall _ _ => constructor end; unfold coordinate; destruct c; cbn; lra.
  - intros r i p H. apply Pt in H as [(-> & E & L)|(-> & -> & ->)]; [cbn in E; inversion E; subst|]; reflexivity.
  - rewrite (proj2 pair_distance). lra.
  - eexists. split; [split; [reflexivity|cbn; lia]|]. split; [reflexivity|].
    assert (M : max_horizon {| owned := 3; gid := fun i => i; at_x := three; horizon := fun _ => 1; by_axis := fun _ => [1;0;2]%nat |} = 1).
    { unfold max_horizon. cbn [owned seq fold_left horizon]. to_R. assert (E1 : Rltb 0 1 = true) by (apply Rltb_true; lra). assert (E2 : Rltb 1 1 = false) by (apply Rltb_false; lra). rewrite E1, E2, E2. reflexivity. }
    match goal with |- context [max_horizon ?q] => replace (max_horizon q) with 1 by (symmetry; exact M) end.
    intros c. exists 1%nat, 2%nat. cbn [owned at_x three]. split; [lia|]. split; [lia|]. destruct c; unfold along; cbn; lra.
Qed.
