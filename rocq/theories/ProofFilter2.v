(** * Proofs about bond filters: symmetry, lists, quadrilaterals *)
From Coq Require Import Reals Lra Psatz Permutation.
From Verif Require Import Base Num ModelGeom ModelFilter SpecGeom SpecFilter ProofGlobal ProofGeom ProofGeom2 ProofGeom3 ProofSphere ProofSphere2 ProofFilter.
Local Open Scope R_scope.

Lemma bool_iff (a b : bool) : (a = true <-> b = true) -> a = b.
Proof. destruct a, b; intros (A & B); auto; symmetry; auto. Qed.
Lemma parameter_sym (tol : R) (n r p0 p1 : point) (P : point -> bool) : 0 < tol ->
  let t := parameter (N:=RN) tol n r p0 p1 in let t' := parameter (N:=RN) tol n r p1 p0 in
  (Rleb 0 t && Rleb t 1 && P (point_at (N:=RN) t p0 p1))%bool = (Rleb 0 t' && Rleb t' 1 && P (point_at (N:=RN) t' p1 p0))%bool.
Proof.
  intros T0 t t'. apply bool_iff. unfold t, t'. rewrite (parameter_spec tol n r p0 p1 P T0), (parameter_spec tol n r p1 p0 P T0), (extent_sym n p1 p0).
  split; intros (E & y & S & H); split; auto; exists y; split; auto; now apply segment_sym.
Qed.
Lemma test_form (t : R) (b : bool) : (if (Rltb t 0 || Rltb 1 t)%bool then false else b) = (Rleb 0 t && Rleb t 1 && b)%bool.
Proof. rewrite rejected. now destruct (Rleb 0 t && Rleb t 1)%bool. Qed.
Lemma cuts_sym (f : filter RN) (p q : point) : cuts f p q = cuts f q p.
Proof.
  destruct f as [w|pl w|c n r|a b c|a b c d]; cbn [cuts]; [reflexivity| | | |].
  - unfold plane_cuts, intersects_infinite. cbn [fst snd].
    exact (parameter_sym _ (pl_n pl) (pl_r0 pl) p q (fun x => in_plane (N:=RN) pl x (lit (n:=RN) 1 1000000000000000)) tol14).
  - unfold disk_cuts. cbv zeta. etransitivity; [apply test_form|]. etransitivity; [|symmetry; apply test_form].
    exact (parameter_sym _ n c p q (fun x : point => Rltb ((vx x - vx c) * (vx x - vx c) + (vy x - vy c) * (vy x - vy c) + (vz x - vz c) * (vz x - vz c)) (r * r)) tol15).
  - unfold triangle_cuts. cbv zeta. etransitivity; [apply test_form|]. etransitivity; [|symmetry; apply test_form].
    exact (parameter_sym _ _ a p q (fun x => inside_triangle (N:=RN) (lit (n:=RN) 1 100000000000000) a b c x) tol14).
  - unfold quad_cuts. cbv zeta. etransitivity; [apply test_form|]. etransitivity; [|symmetry; apply test_form].
    exact (parameter_sym _ _ a p q (fun x => (inside_triangle (N:=RN) (lit (n:=RN) 1 100000000000000) a b c x || inside_triangle (N:=RN) (lit (n:=RN) 1 100000000000000) a d c x)%bool) tol14).
Qed.
Lemma short_not (tol : R) (n r p0 p1 : point) (P : point -> bool) : 0 < tol -> extent n p0 p1 < tol ->
  let t := parameter (N:=RN) tol n r p0 p1 in (Rleb 0 t && Rleb t 1 && P (point_at (N:=RN) t p0 p1))%bool = false.
Proof.
  intros T0 E t. apply Bool.not_true_is_false. intros H. apply parameter_spec in H as (H & _); [lra|exact T0].
Qed.
Lemma extent_self n p : extent n p p = 0.
Proof. unfold extent. replace (dot (vsub p p) n) with 0; [apply Rabs_R0|]. destruct p, n. coords. ring. Qed.
Lemma cuts_self (f : filter RN) (p : point) : cuts f p p = false.
Proof.
  destruct f as [w|pl w|c n r|a b c|a b c d]; cbn [cuts]; [reflexivity| | | |].
  - unfold plane_cuts, intersects_infinite. cbn [fst snd].
    apply (short_not _ (pl_n pl) (pl_r0 pl) p p (fun x => in_plane (N:=RN) pl x (lit (n:=RN) 1 1000000000000000)) tol14). rewrite extent_self. exact tol14.
  - unfold disk_cuts. cbv zeta. etransitivity; [apply test_form|].
    apply (short_not _ n c p p (fun x : point => Rltb ((vx x - vx c) * (vx x - vx c) + (vy x - vy c) * (vy x - vy c) + (vz x - vz c) * (vz x - vz c)) (r * r)) tol15). rewrite extent_self. exact tol15.
  - unfold triangle_cuts. cbv zeta. etransitivity; [apply test_form|].
    apply (short_not _ _ a p p (fun x => inside_triangle (N:=RN) (lit (n:=RN) 1 100000000000000) a b c x) tol14). rewrite extent_self. exact tol14.
  - unfold quad_cuts. cbv zeta. etransitivity; [apply test_form|].
    apply (short_not _ _ a p p (fun x => (inside_triangle (N:=RN) (lit (n:=RN) 1 100000000000000) a b c x || inside_triangle (N:=RN) (lit (n:=RN) 1 100000000000000) a d c x)%bool) tol14). rewrite extent_self. exact tol14.
Qed.

(** ** Lists of flags, over any numbers *)
Section Lists.
  Context {N : Num}.
  (** What one filter says about one neighbour. *)
  Definition drops (pt : V3 N) (self : nat) (xs : list (V3 N)) (f : filter N) (uid : nat) : bool :=
    (Nat.eqb self uid && negb (include_self f) || match nth_error xs uid with Some p => cuts f pt p | None => false end)%bool.
  Lemma filter_bonds_spec f pt self xs : forall ids flags, (forall u, In u ids -> (u < length xs)%nat) -> length flags = length ids ->
    filter_bonds f ids pt self xs flags = Ok (map (fun p => (snd p || drops pt self xs f (fst p))%bool) (combine ids flags)).
  Proof.
    induction ids as [|u ids IH]; intros [|b flags] H L; try discriminate; cbn; [reflexivity|].
    assert (U : (u < length xs)%nat) by (apply H; now left). destruct (nth_error xs u) as [p|] eqn:E; [|apply nth_error_None in E; lia].
    rewrite IH by (auto; intros v V; apply H; now right). unfold drops, at_ub. rewrite E.
    destruct (Nat.eqb self u && negb (include_self f))%bool; cbn [bind orb].
    - rewrite Bool.orb_true_r. reflexivity.
    - destruct f; cbn [bind cuts]; rewrite ?Bool.orb_false_r; try reflexivity; match goal with |- context [if ?c then true else b] => destruct c end; rewrite ?Bool.orb_true_r, ?Bool.orb_false_r; reflexivity.
  Qed.
  Lemma apply_from fs pt self xs : forall ids flags, (forall u, In u ids -> (u < length xs)%nat) -> length flags = length ids ->
    foldM (fun flags f => filter_bonds f ids pt self xs flags) flags fs =
    Ok (map (fun p => (snd p || existsb (fun f => drops pt self xs f (fst p)) fs)%bool) (combine ids flags)).
  Proof.
    induction fs as [|f fs IH]; intros ids flags H L; cbn [foldM existsb].
    - f_equal. transitivity (map snd (combine ids flags)).
      + clear H. revert flags L. induction ids as [|u ids IHi]; intros [|b flags] L; try discriminate; cbn; [reflexivity|]. f_equal. apply IHi. now injection L.
      + apply map_ext. intros [u b]. cbn. now rewrite Bool.orb_false_r.
    - rewrite filter_bonds_spec by assumption. cbn [bind]. rewrite IH; [|exact H|rewrite map_length, combine_length; lia]. f_equal.
      clear H IH. revert flags L. induction ids as [|u ids IHi]; intros [|b flags] L; try discriminate; cbn; [reflexivity|]. f_equal; [now rewrite Bool.orb_assoc|].
      apply IHi. now injection L.
  Qed.
  Lemma apply_spec fs pt self xs ids : (forall u, In u ids -> (u < length xs)%nat) ->
    apply_filters fs ids pt self xs = Ok (map (fun u => existsb (fun f => drops pt self xs f u) fs) ids).
  Proof.
    intros H. unfold apply_filters. rewrite apply_from; [|exact H|apply repeat_length]. f_equal. clear H.
    induction ids as [|u ids IH]; cbn; [reflexivity|]. f_equal. exact IH.
  Qed.
  Lemma keep_spec (g : nat -> bool) ids : keep ids (map g ids) = List.filter (fun u => negb (g u)) ids.
  Proof. unfold keep. induction ids as [|u ids IH]; cbn; [reflexivity|]. destruct (g u); cbn; [exact IH|now rewrite IH]. Qed.
  Lemma entry_spec fs pt self xs ids : (forall u, In u ids -> (u < length xs)%nat) ->
    let kept := List.filter (fun u => negb (existsb (fun f => drops pt self xs f u) fs)) ids in
    neighborhood_entry fs ids pt self xs = Ok (length kept :: kept).
  Proof. intros H kept. unfold neighborhood_entry. rewrite apply_spec by exact H. cbn [bind]. rewrite keep_spec. reflexivity. Qed.
  Lemma damage_from fs (pt nb : V3 N) d : foldM (fun damage f =>
      let? flags := filter_bonds f [O] pt 1%nat [nb] [false] in
      let? flag := at_ub flags 0 in
      Ok (if (flag : bool) then ofZ (n:=N) 1 else damage)) d fs = Ok (if existsb (fun f => cuts f pt nb) fs then ofZ (n:=N) 1 else d).
  Proof.
    revert d. induction fs as [|f fs IH]; intros d; [reflexivity|].
    cbn [foldM existsb]. rewrite filter_bonds_spec; [|intros u [<-|[]]; cbn; lia|reflexivity].
    cbn [combine map bind fst snd at_ub nth_error orb]. rewrite IH. unfold drops. cbn [Nat.eqb andb orb nth_error].
    destruct (cuts f pt nb); cbn [orb]; [|reflexivity]. now destruct (existsb _ fs).
  Qed.
End Lists.
Lemma existsb_perm {A} (g : A -> bool) l l' : Permutation l l' -> existsb g l = existsb g l'.
Proof. intros P. induction P; cbn; auto; [now rewrite IHP|destruct (g x), (g y); reflexivity|congruence]. Qed.

(** ** Quadrilaterals *)
Lemma hull_weights (p q r s y : point) : hull [p; q; r; s] y -> exists a b c d, 0 <= a /\ 0 <= b /\ 0 <= c /\ 0 <= d /\ a + b + c + d = 1 /\ y = mix4 a b c d p q r s.
Proof.
  intros H. induction H as [z I|t x y T X (a & b & c & d & A & B & C & D & S & ->) Y (a' & b' & c' & d' & A' & B' & C' & D' & S' & ->)].
  - cbn in I. destruct I as [<-|[<-|[<-|[<-|[]]]]]; [exists 1, 0, 0, 0|exists 0, 1, 0, 0|exists 0, 0, 1, 0|exists 0, 0, 0, 1]; repeat split; try lra; unfold mix4, mix3, mix2; vring.
  - exists ((1 - t) * a + t * a'), ((1 - t) * b + t * b'), ((1 - t) * c + t * c'), ((1 - t) * d + t * d').
    repeat split; try (apply Rplus_le_le_0_compat; apply Rmult_le_pos; lra).
    + replace d with (1 - a - b - c) by lra. replace d' with (1 - a' - b' - c') by lra. ring.
    + unfold mix4, mix3, mix2. vring.
Qed.
Lemma convex_cover (p q r s y : point) : convex_quad p q r s -> (hull [p; q; r; s] y <-> in_triangle p q r y \/ in_triangle p s r y).
Proof.
  intros (m & n & M & Nn & E). split.
  - intros H. apply hull_weights in H as (a & b & c & d & A & B & C & D & S & ->).
    (* move weight from q and s to p and r until one of them has none *)
    assert (Move : forall l, mix4 a b c d p q r s = mix4 (a + l * (1 - m)) (b - l * (1 - n)) (c + l * m) (d - l * n) p q r s).
    { intros l. transitivity (vadd (mix4 a b c d p q r s) (vscale (N:=RN) l (vsub (mix2 (1 - m) m p r) (mix2 (1 - n) n q s)))).
      - rewrite E. unfold mix4, mix3, mix2. vring.
      - unfold mix4, mix3, mix2. vring. }
    destruct (Rle_dec (b * n) (d * (1 - n))) as [L|L].
    + right. set (l := b / (1 - n)). assert (Q : l * (1 - n) = b) by (unfold l; field; lra). assert (L0 : 0 <= l) by (unfold l; apply Rmult_le_pos; [lra|]; apply Rlt_le, Rinv_0_lt_compat; lra).
      assert (Z : 0 <= d - l * n).
      { apply Rmult_le_reg_r with (1 - n); [lra|]. replace ((d - l * n) * (1 - n)) with (d * (1 - n) - (l * (1 - n)) * n) by ring. rewrite Q. lra. }
      exists (a + l * (1 - m)), (d - l * n), (c + l * m). repeat split; auto; [nra|nra|nra|].
      rewrite (Move l), Q. unfold mix4, mix3, mix2. vring.
    + left. set (l := d / n). assert (Q : l * n = d) by (unfold l; field; lra). assert (L0 : 0 <= l) by (unfold l; apply Rmult_le_pos; [lra|]; apply Rlt_le, Rinv_0_lt_compat; lra).
      assert (Z : 0 <= b - l * (1 - n)).
      { apply Rmult_le_reg_r with n; [lra|]. replace ((b - l * (1 - n)) * n) with (b * n - (l * n) * (1 - n)) by ring. rewrite Q. lra. }
      exists (a + l * (1 - m)), (b - l * (1 - n)), (c + l * m). repeat split; auto; [nra|nra|nra|].
      rewrite (Move l), Q. unfold mix4, mix3, mix2. vring.
  - intros [H|H]; [apply (triangle_hull _ p q r)|apply (triangle_hull _ p s r)]; auto; apply hull_node; cbn; tauto.
Qed.

(** ** Bonds between blocks *)
Lemma omit_go k block : forall lists i,
  (forall b, In b block -> (1 <= b <= Z.of_nat k)%Z) -> (forall ns n, In ns lists -> In n ns -> (n < length block)%nat) -> (i + length lists <= length block)%nat ->
  (fix go (i : nat) (l : list (list nat)) : outcome (list (list nat)) :=
     match l with
     | [] => Ok []
     | ns :: l' =>
         let? b1 := at_ub block i in
         let? kept := foldM (fun acc n => let? b2 := at_ub block n in let? ok := bonded k b1 b2 in
                                          Ok (if (ok : bool) then acc ++ [n] else acc)) [] ns in
         let? rest := go (S i) l' in
         Ok (kept :: rest)
     end) i lists = Ok (map (fun p => List.filter (fun n => (nth (fst p) block 0 =? nth n block 0)%Z) (snd p)) (combine (seq i (length lists)) lists)).
Proof.
  induction lists as [|ns lists IH]; intros i B H L; [reflexivity|]. cbn [length seq combine map fst snd].
  assert (At : forall n, (n < length block)%nat -> at_ub block n = Ok (nth n block 0%Z)).
  { intros n Hn. unfold at_ub. rewrite (nth_error_nth' block 0%Z Hn). reflexivity. }
  assert (In' : forall n, (n < length block)%nat -> (1 <= nth n block 0 <= Z.of_nat k)%Z) by (intros n Hn; apply B, nth_In; exact Hn).
  rewrite At by (cbn in L; lia). cbn [bind].
  assert (F : forall ms acc, (forall n, In n ms -> (n < length block)%nat) ->
    foldM (fun acc n => let? b2 := at_ub block n in let? ok := bonded k (nth i block 0%Z) b2 in Ok (if (ok : bool) then acc ++ [n] else acc)) acc ms =
    Ok (acc ++ List.filter (fun n => (nth i block 0 =? nth n block 0)%Z) ms)).
  { induction ms as [|n ms IHm]; intros acc Hm; cbn; [now rewrite app_nil_r|]. rewrite At by (apply Hm; now left). cbn [bind]. unfold bonded at 1.
    pose proof (In' i ltac:(cbn in L; lia)) as I1. pose proof (In' n ltac:(apply Hm; now left)) as I2.
    assert (C : ((1 <=? nth i block 0) && (nth i block 0 <=? Z.of_nat k) && (1 <=? nth n block 0) && (nth n block 0 <=? Z.of_nat k))%Z%bool = true) by (rewrite !Bool.andb_true_iff, !Z.leb_le; lia).
    rewrite C. cbn [bind]. rewrite IHm by (intros m Hm'; apply Hm; now right). destruct (nth i block 0 =? nth n block 0)%Z; [|reflexivity]. now rewrite <- app_assoc. }
  rewrite F by (intros n Hn; apply (H ns n); [now left|exact Hn]). cbn [bind app].
  rewrite IH; [reflexivity|exact B|intros ms n Hm; apply H; now right|cbn in L; lia].
Qed.
