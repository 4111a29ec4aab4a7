(** * C72: the file of the apertures of the interfaces *)
From Coq Require Import Reals Lra.
From Verif Require Import Base Num ModelScalar ModelMesh ModelInterface ProofMesh ProofInterface SpecInterface.

Lemma sizes fs : polygons fs -> forallb (fun f => (if_count f =? 4)%nat || (if_count f =? 3)%nat)%bool fs = true.
Proof. intros P. apply forallb_forall. intros f I. unfold polygons in P. rewrite Forall_forall in P. destruct (P f I) as ([-> | ->] & _); reflexivity. Qed.
Lemma of_size_map {N : Num} k fs (g : iface -> N) : of_size k fs (map g fs) = map g (filter (fun f => if_count f =? k) fs).
Proof. unfold of_size. induction fs as [|f fs IH]; [reflexivity|]. cbn [map combine filter fst]. destruct (if_count f =? k)%nat; cbn [map snd]; now rewrite IH. Qed.
Lemma aperture_opening (c : config RN) f : aperture (N:=RN) (fst c) (snd c) f = opening c f.
Proof. reflexivity. Qed.

(** ** Every output holds the openings at the output before it, the first one zeros; quadrilaterals
    and triangles each in the order of the interfaces *)
Definition shown (prev : iface -> R) (h : list (config RN)) (k : nat) : iface -> R :=
  match k with O => prev | S k' => match nth_error h k' with Some c => opening c | None => prev end end.
Lemma write_spec fs : polygons fs -> forall h (prev : iface -> R), exists out, write_all (N:=RN) fs (map prev fs) h = Ok out /\ length out = length h /\
  forall k o, nth_error out k = Some o -> o = (map (shown prev h k) (quads fs), map (shown prev h k) (tris fs)).
Proof.
  intros P. induction h as [|c h IH]; intros prev; [exists []; split; [reflexivity|split; [reflexivity|intros [|k] o H; discriminate]]|].
  destruct (IH (opening c)) as (out & E & L & Q). exists ((map prev (quads fs), map prev (tris fs)) :: out). split; [|split; [exact (f_equal S L)|]].
  - cbn [write_all]. unfold write_apertures. rewrite (sizes fs P). cbn [bind fst snd]. change (map (aperture (N:=RN) (fst c) (snd c)) fs) with (map (opening c) fs). rewrite E. cbn [bind].
    pose proof (of_size_map (N:=RN) 4 fs prev) as A. pose proof (of_size_map (N:=RN) 3 fs prev) as B. change (T RN) with R in *. unfold quads, tris. rewrite A, B. reflexivity.
  - intros [|k] o H; cbn [nth_error] in H; [injection H as <-; reflexivity|]. rewrite (Q k o H). destruct k; [reflexivity|]. unfold shown. change (nth_error (c :: h) (S k)) with (nth_error h k).
    destruct (nth_error h k) eqn:En; [reflexivity|]. apply nth_error_None in En. assert (S k < length out) by (apply nth_error_Some; congruence). lia.
Qed.

Theorem C72_late fs (h : list (config RN)) : polygons fs -> exists out, aperture_history (N:=RN) fs h = Ok out /\ length out = length h /\
  forall k q t, nth_error out k = Some (q, t) -> Forall2 (late h k) (quads fs) q /\ Forall2 (late h k) (tris fs) t.
Proof.
  intros P. destruct (write_spec fs P h (fun _ => 0%R)) as (out & E & L & Q). exists out. split; [exact E|]. split; [exact L|]. intros k q t H.
  assert (K : forall l, Forall2 (late h k) l (map (shown (fun _ => 0%R) h k) l)).
  { assert (Kl : k < length h) by (rewrite <- L; apply nth_error_Some; congruence). induction l; constructor; [|assumption]. destruct k; [reflexivity|]. cbn [late shown].
    destruct (nth_error h k) as [c|] eqn:En; [exists c; auto|]. apply nth_error_None in En. lia. }
  apply Q in H. injection H as -> ->. auto.
Qed.
Print Assumptions C72_late.

(** ** So an output shows the openings at its own time exactly if none has changed since the output
    before (or, for the first, if all are zero). *)
Theorem C72_current_refuted fs (h : list (config RN)) out : polygons fs -> aperture_history (N:=RN) fs h = Ok out ->
  forall k q t, nth_error out k = Some (q, t) ->
    (Forall2 (current h k) (quads fs) q /\ Forall2 (current h k) (tris fs) t <-> forall f v, In f fs -> late h k f v -> current h k f v).
Proof.
  intros P E k q t H. destruct (C72_late fs h P) as (out' & E' & L & Q). replace out' with out in * by congruence. destruct (Q _ _ _ H) as (A & B). clear Q.
  assert (Fn : forall f v v', late h k f v -> late h k f v' -> v = v').
  { intros f v v' X Y. destruct k; cbn [late] in *; [congruence|]. destruct X as (c & X & ->), Y as (c' & Y & ->). congruence. }
  assert (K : forall l w, Forall2 (late h k) l w -> (Forall2 (current h k) l w <-> forall f v, In f l -> late h k f v -> current h k f v)).
  { intros l w F. induction F as [|f v l w X F IH]; [split; [intros _ f v []|constructor]|]. split.
    - intros G. inversion G as [|? ? ? ? G1 G2]; subst. intros f' v' [<-|I] Y; [rewrite (Fn _ _ _ Y X); exact G1|]. apply IH; assumption.
    - intros G. constructor; [apply G; [now left|exact X]|]. apply IH. intros; apply G; [now right|assumption]. }
  rewrite (K _ _ A), (K _ _ B). unfold quads, tris. split.
  - intros (G1 & G2) f v I X. unfold polygons in P. rewrite Forall_forall in P. destruct (P f I) as ([C|C] & _); [apply G1|apply G2]; try assumption; apply filter_In; rewrite C; auto.
  - intros G. split; intros f v I; apply filter_In in I; apply G; tauto.
Qed.
Print Assumptions C72_current_refuted.

(** ** The file lists the quadrilaterals, then the triangles, in the order of the values *)
Lemma stored_first f : if_count f <= length (if_nodes f) -> stored_nodes f = Ok (firstn (if_count f) (if_nodes f)).
Proof.
  intros L. unfold stored_nodes. rewrite mapO_ok with (g := fun k => nth k (firstn (if_count f) (if_nodes f)) 0%Z).
  - assert (E : length (firstn (if_count f) (if_nodes f)) = if_count f) by (rewrite firstn_length; lia).
    replace (seq 0 (if_count f)) with (seq 0 (length (firstn (if_count f) (if_nodes f)))) by now rewrite E. now rewrite map_nth_seq.
  - intros k I. apply in_seq in I. unfold at_ub. rewrite <- (firstn_skipn (if_count f) (if_nodes f)) at 1. rewrite nth_error_app1 by (rewrite firstn_length; lia).
    rewrite (nth_error_nth' _ 0%Z) by (rewrite firstn_length; lia). reflexivity.
Qed.
Theorem C72_blocks ids fs : polygons fs -> NoDup ids -> exists q t n, shell_blocks ids fs = Ok (q, t, n) /\
  Forall2 (fun f row => length row = 4 /\ forall k c p, nth_error (if_nodes f) k = Some c -> nth_error ids p = Some c -> k < 4 -> nth_error row k = Some (Z.of_nat p + 1)%Z) (quads fs) q /\
  Forall2 (fun f row => length row = 3 /\ forall k c p, nth_error (if_nodes f) k = Some c -> nth_error ids p = Some c -> k < 3 -> nth_error row k = Some (Z.of_nat p + 1)%Z) (tris fs) t.
Proof.
  intros P D. set (g := fun f => firstn (if_count f) (if_nodes f)).
  assert (M : mapO stored_nodes fs = Ok (map g fs)). { apply mapO_ok. intros f I. unfold polygons in P. rewrite Forall_forall in P. apply stored_first. now apply P. }
  assert (Fl : forall n, filter (fun ns : list Z => length ns =? n)%nat (map g fs) = map g (filter (fun f => if_count f =? n) fs)).
  { intros n. clear M. induction P as [|f fs (_ & L) P IH]; [reflexivity|]. cbn [map filter]. assert (E : length (g f) = if_count f) by (unfold g; rewrite firstn_length; lia). rewrite E. destruct (if_count f =? n)%nat; cbn [map]; now rewrite IH. }
  assert (Sum : length (quads fs) + length (tris fs) = length fs).
  { unfold quads, tris. clear M Fl. induction P as [|f fs (C & _) P IH]; [reflexivity|]. cbn [filter]. destruct C as [-> | ->]; cbn [Nat.eqb length]; lia. }
  unfold shell_blocks. rewrite M. cbn [bind]. rewrite !Fl, !map_length. fold (quads fs) (tris fs). rewrite Sum, Nat.eqb_refl. do 3 eexists. split; [reflexivity|].
  assert (Loc : forall p c, nth_error ids p = Some c -> local_node ids c = (Z.of_nat p + 1)%Z). { intros p c H. unfold local_node. now rewrite (lid_nth ids p c D H). }
  assert (Row : forall n l, (forall f, In f l -> if_count f = n /\ n <= length (if_nodes f)) ->
    Forall2 (fun f row => length row = n /\ forall k c p, nth_error (if_nodes f) k = Some c -> nth_error ids p = Some c -> k < n -> nth_error row k = Some (Z.of_nat p + 1)%Z) l (map (map (local_node ids)) (map g l))).
  { intros n l. induction l as [|f l IH]; intros H; [constructor|]. cbn [map]. constructor; [|apply IH; intros; apply H; now right]. destruct (H f (or_introl eq_refl)) as (C & L). unfold g. rewrite C.
    split; [rewrite map_length, firstn_length; lia|]. intros k c p Hc Hp K. rewrite nth_error_map. rewrite <- (firstn_skipn n (if_nodes f)), nth_error_app1 in Hc by (rewrite firstn_length; lia). rewrite Hc. cbn. now rewrite (Loc p c Hp). }
  unfold polygons in P. rewrite Forall_forall in P. split; apply Row; intros f I; apply filter_In in I; destruct I as (I & C); apply Nat.eqb_eq in C; destruct (P f I); split; lia.
Qed.
Print Assumptions C72_blocks.

(** ** The numbers of the shells in the file are those of the interfaces in the order found; with a
    triangle before a quadrilateral they belong to other shells. *)
Theorem C72_numbers_refuted ids fs l1 l2 l3 x y q t n : polygons fs -> fs = l1 ++ x :: l2 ++ y :: l3 -> if_count x = 3 -> if_count y = 4 -> shell_blocks ids fs = Ok (q, t, n) ->
  exists e f number, nth_error (quads fs ++ tris fs) e = Some f /\ nth_error n e = Some number /\ nth_error fs (number - 1) <> Some f.
Proof.
  intros P E X Y B.
  assert (Nn : n = seq 1 (length fs)). { unfold shell_blocks in B. destruct (mapO stored_nodes fs); cbn [bind] in B; try discriminate. destruct (_ =? _)%nat; [|discriminate]. congruence. }
  (* the element at the position of the first triangle: a quadrilateral in the file *)
  assert (Sum : forall l, polygons l -> length (quads l) + length (tris l) = length l).
  { unfold quads, tris. induction 1 as [|f l (C & _) Q IH]; [reflexivity|]. cbn [filter]. destruct C as [-> | ->]; cbn [Nat.eqb length]; lia. }
  pose proof (Sum fs P) as S0.
  set (e := length (quads fs) - 1).
  (* if all numbers agreed, the list would begin with its quadrilaterals *)
  assert (K : ~ (forall e f, nth_error (quads fs ++ tris fs) e = Some f -> nth_error fs e = Some f)).
  { intros H. assert (Eq : quads fs ++ tris fs = fs).
    { assert (Len : length (quads fs ++ tris fs) = length fs) by (rewrite app_length; exact S0). revert H Len. generalize (quads fs ++ tris fs) as u. generalize fs as w. clear. induction w as [|a w IH]; intros [|b u] H L; try discriminate; [reflexivity|].
      specialize (H 0 b eq_refl) as H0. injection H0 as ->. f_equal. apply IH; [intros e f G; exact (H (S e) f G)|cbn in L; lia]. }
    assert (T1 : exists u, fs = u ++ y :: l3 /\ In x u). { exists (l1 ++ x :: l2). rewrite <- app_assoc. split; [exact E|apply in_app_iff; right; now left]. }
    destruct T1 as (u & Eu & Ix). rewrite <- Eq in Eu.
    assert (Iy : forall (v w : list iface), (forall f, In f v -> if_count f = 4) -> (forall f, In f w -> if_count f = 3) -> forall u l, v ++ w = u ++ y :: l -> In x u -> False).
    { clear - X Y. intros v. induction v as [|a v IH]; intros w V W [|b u] l Eq I; try (destruct I; fail).
      - cbn in Eq. assert (In y w) by (rewrite Eq; right; apply in_app_iff; right; now left). apply W in H. lia.
      - injection Eq as -> Eq. destruct I as [->|I]; [specialize (V x (or_introl eq_refl)); lia|]. apply (IH w (fun f h => V f (or_intror h)) W u l Eq I). }
    apply (Iy (quads fs) (tris fs)) with (u := u) (l := l3); auto; intros f I; apply filter_In in I; destruct I as (_ & I); now apply Nat.eqb_eq. }
  assert (Dec : exists k f, nth_error (quads fs ++ tris fs) k = Some f /\ nth_error fs k <> Some f).
  { assert (Len : length (quads fs ++ tris fs) = length fs) by (rewrite app_length; exact S0). revert K Len. generalize (quads fs ++ tris fs) as u. generalize fs as w. clear.
    induction w as [|a w IH]; intros [|b u] K L; try discriminate; [exfalso; apply K; intros [|k] f H; discriminate|].
    assert (De : {a = b} + {a <> b}) by (decide equality; try apply Z.eq_dec; try apply Nat.eq_dec; apply list_eq_dec, Z.eq_dec).
    destruct De as [->|Ne]; [|exists 0, b; split; [reflexivity|cbn; congruence]].
    destruct (IH u) as (k & f & H1 & H2); [|cbn in L; lia|exists (S k), f; auto]. intros H. apply K. intros [|k] f G; [exact G|apply H, G]. }
  destruct Dec as (k & f & H1 & H2). exists k, f, (S k). split; [exact H1|]. split; [|cbn; now rewrite Nat.sub_0_r].
  assert (Kl : k < length fs) by (rewrite <- S0, <- app_length; apply nth_error_Some; congruence). rewrite Nn. rewrite (nth_error_nth' _ 0) by (now rewrite seq_length). now rewrite seq_nth by exact Kl.
Qed.
Print Assumptions C72_numbers_refuted.

(** ** A concrete run: two elements pulled apart by one, then by two *)
Definition ex_if : iface := {| if_left := 0; if_right := 1; if_count := 4; if_nodes := [1; 5; 6; 2]%Z |}.
Definition ex_if3 : iface := {| if_left := 0; if_right := 2; if_count := 3; if_nodes := [1; 5; 6; 0]%Z |}.
Definition ex_pos (d : R) (g : Z) : V3 RN := if (g =? 0)%Z then v3 (N:=RN) 0%R 0%R 0%R else v3 (N:=RN) (1 + d)%R 0%R 0%R.
Example C72_met : polygons [ex_if3; ex_if] /\ aperture_history (N:=RN) [ex_if3; ex_if] [(ex_pos 0, ex_pos 1); (ex_pos 0, ex_pos 2)] = Ok [([0%R], [0%R]); ([1%R], [1%R])].
Proof.
  split; [repeat constructor; cbn; auto; lia|]. unfold aperture_history. cbn. unfold aperture, distance, of_size, ex_pos. cbn.
  replace (sqrt ((1 + 1 - 0) * (1 + 1 - 0) + (0 - 0) * (0 - 0) + (0 - 0) * (0 - 0)))%R with 2%R.
  replace (sqrt ((1 + 0 - 0) * (1 + 0 - 0) + (0 - 0) * (0 - 0) + (0 - 0) * (0 - 0)))%R with 1%R.
  - repeat f_equal; lra.
  - replace ((1 + 0 - 0) * (1 + 0 - 0) + (0 - 0) * (0 - 0) + (0 - 0) * (0 - 0))%R with (1 * 1)%R by lra. symmetry. apply sqrt_square. lra.
  - replace ((1 + 1 - 0) * (1 + 1 - 0) + (0 - 0) * (0 - 0) + (0 - 0) * (0 - 0))%R with (2 * 2)%R by lra. symmetry. apply sqrt_square. lra.
Qed.
(** The first output shows zeros where the openings are one. *)
Example C72_refuted_met : current [(ex_pos 0, ex_pos 1)] 0 ex_if 1%R /\ late [(ex_pos 0, ex_pos 1)] 0 ex_if 0%R.
Proof.
  split; [|reflexivity]. eexists. split; [reflexivity|]. unfold opening. cbn.
  replace ((1 + 1 - 0) * (1 + 1 - 0) + (0 - 0) * (0 - 0) + (0 - 0) * (0 - 0))%R with (2 * 2)%R by lra. replace ((1 + 0 - 0) * (1 + 0 - 0) + (0 - 0) * (0 - 0) + (0 - 0) * (0 - 0))%R with (1 * 1)%R by lra.
  rewrite !sqrt_square by lra. lra.
Qed.
