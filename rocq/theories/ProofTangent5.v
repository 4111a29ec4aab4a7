From Coq Require Import Reals Lra Lia.
From Verif Require Import Base Num ModelForce ModelTangent SpecDamage SpecForce SpecCorr SpecTangent ProofData ProofForce ProofCorr ProofTangent ProofTangent2 ProofTangent3 ProofTangent4.
Local Open Scope nat_scope.

(** ** coordinates component by component *)
Lemma flat_len : forall (A : Num) (l : list (V3 A)), length (flat l) = 3 * length l.
Proof. intros A. induction l; cbn [flat flat_map length] in *; [auto|]. unfold flat in IHl. rewrite app_length, IHl. cbn. lia. Qed.
Lemma triples_flat : forall (A : Num) (l : list (V3 A)), triples (flat l) = Ok l.
Proof. intros A. induction l as [|[a b c] l IH]; auto. change (flat (v3 a b c :: l)) with (a :: b :: c :: flat l). cbn [triples]. now rewrite IH. Qed.
Lemma flat_triples : forall (A : Num) (l : list A) n, length l = 3 * n -> exists t, triples l = Ok t /\ flat t = l /\ length t = n.
Proof.
  intros A l n. revert l. induction n as [|n IH]; intros l H.
  - destruct l; [|discriminate]. exists []. auto.
  - destruct l as [|a [|b [|c l]]]; cbn in H; try lia. destruct (IH l) as (t & E & F & L); [lia|].
    exists (v3 a b c :: t). cbn [triples]. rewrite E. cbn [bind length]. split; [reflexivity|]. split; [|lia]. change (a :: b :: c :: flat t = a :: b :: c :: l). now rewrite F.
Qed.
Lemma spots_flat : forall Y gs, flat (map (spot Y) gs) = at_points 3 Y gs.
Proof. intros Y. induction gs as [|g gs IH]; auto. cbn [map]. change (flat (spot Y g :: map (spot Y) gs)) with (Y g 0 :: Y g 1 :: Y g 2 :: flat (map (spot Y) gs)). now rewrite IH. Qed.
Lemma nth_flat : forall (f : list (V3 RN)) m a, a < 3 -> nth (3 * m + a) (flat f) 0%R = comp (nth m f vzero) a.
Proof.
  intros f. induction f as [|[x y z] f IH]; intros m a Ha.
  - change (nth (3 * m + a) (@nil R) 0%R = comp (nth m [] vzero) a). destruct (3 * m + a), m; destruct a as [|[|[|a]]]; reflexivity || lia.
  - change (flat (v3 x y z :: f)) with (x :: y :: z :: flat f). destruct m as [|m].
    + destruct a as [|[|[|a]]]; [reflexivity..|lia].
    + replace (3 * S m + a) with (S (S (S (3 * m + a)))) by lia. cbn [nth]. auto.
Qed.

Lemma at_ub_lt : forall A (l : list A) i, i < length l -> exists a, at_ub l i = Ok a.
Proof. intros A l i H. unfold at_ub. destruct (nth_error l i) eqn:E; eauto. apply nth_error_None in E. lia. Qed.

(** ** the elastic force exists *)
Section Total.
  Context {N : Num} (omega : N -> N -> N) (K MU h alpha : N).
  Definition arrays_ok (n : nat) (nbrs : list (list nat)) (x y : list (V3 N)) (v m dmg : list N) : Prop :=
    length x = n /\ length y = n /\ length v = n /\ length m = n /\ length dmg = num_bonds nbrs /\ length nbrs <= n /\ Forall (Forall (fun j => j < n)) nbrs.
  Ltac look := match goal with |- context [at_ub ?l ?i] => let a := fresh "a" in let E := fresh "E" in destruct (at_ub_lt _ l i) as [a E]; [lia|rewrite E; cbn [bind]] end.
  Lemma dilatation_sum_total : forall n (x y : list (V3 N)) v dmg X Y mp js k acc, length x = n -> length y = n -> length v = n -> Forall (fun j => j < n) js -> k + length js <= length dmg ->
    exists t, dilatation_sum omega h alpha None x y v dmg None X Y mp k js acc = Ok t.
  Proof.
    intros n x y v dmg X Y mp. induction js as [|j js IH]; intros k acc Hx Hy Hv HF Hk; cbn [dilatation_sum length] in *; [eauto|].
    inversion HF; subst. repeat look. apply IH; auto; lia.
  Qed.
  Lemma dilatations_total : forall n nbrs x y v m dmg p k, length x = n -> length y = n -> length v = n -> length m = n -> p + length nbrs <= n -> k + num_bonds nbrs <= length dmg ->
    Forall (Forall (fun j => j < n)) nbrs -> exists th, dilatations (dilatation omega h alpha None x y v dmg None m) p k nbrs = Ok th /\ length th = length nbrs.
  Proof.
    intros n nbrs x y v m dmg. induction nbrs as [|js nbrs IH]; intros p k Hx Hy Hv Hm Hp Hk HF; cbn [dilatations]; [eauto|].
    inversion HF; subst. unfold num_bonds in Hk. cbn [map fold_right length] in *. unfold dilatation at 1. repeat look. cbn [opt_at bind].
    destruct (dilatation_sum_total (length x) x y v dmg a a0 a1 js k (ofZ 0)) as [t ->]; auto; [lia|]. cbn [bind].
    destruct (IH (1 + p) (length js + k)) as (th & -> & L); auto; [lia|unfold num_bonds; lia|]. cbn [bind]. exists (t :: th). split; [reflexivity|]. cbn [length]. lia.
  Qed.
  Lemma lps_total' : forall n nbrs x y v m th dmg, arrays_ok n nbrs x y v m dmg -> length th = length nbrs ->
    total_on (lps omega K MU h alpha None x y v m th dmg None) nbrs n.
  Proof.
    intros n nbrs x y v m th dmg (Hx & Hy & Hv & Hm & Hd & Hn & HF) Ht. split.
    - intros p js Hp. assert (p < length nbrs) by (apply nth_error_Some; congruence). cbn [pre lps]. repeat look. cbn [opt_at bind]. eauto.
    - intros p js d k j Hp Hd' Hb. pose proof (bond_at_bound _ _ _ _ Hb) as [B1 B2]. pose proof (bond_at_In _ _ _ _ (fun j => j < n) Hb HF) as B3. cbv beta in B3.
      split; [|split; [|lia]]; cbn [bond vols lps].
      + destruct d as [[[[X Y] mp] t] dT]. repeat look. eauto.
      + unfold bond_volumes, cell_volumes. repeat look. eauto.
  Qed.
  Lemma elastic_force_total : forall n nbrs x y v m dmg, arrays_ok n nbrs x y v m dmg ->
    exists f, elastic_force omega K MU h alpha x y v m dmg nbrs = Ok f /\ length f = n.
  Proof.
    intros n nbrs x y v m dmg H. pose proof H as (Hx & Hy & Hv & Hm & Hd & Hn & HF). unfold elastic_force.
    destruct (dilatations_total n nbrs x y v m dmg 0 0) as (th & -> & Lt); auto; [lia|]. cbn [bind].
    destruct (run_total (lps omega K MU h alpha None x y v m th dmg None) nbrs (repeat vzero (length x))) as (f & out & -> & L & _).
    { rewrite repeat_length, Hx. now apply lps_total'. }
    cbn [bind]. exists f. split; auto. now rewrite L, repeat_length.
  Qed.
End Total.

(** ** a block and the neighbourhood of one of its points *)
Lemma gather_nth : forall A (l : list A) ids r i, gather l ids = Ok r -> i < length ids -> at_ub r i = at_ub l (nth i ids 0).
Proof.
  intros A l ids r i H Hi. apply gather_spec in H. revert i Hi. induction H as [|j a ids r Hj HF IH]; intros i Hi; cbn [length] in Hi; [lia|].
  destruct i as [|i]; cbn [nth]; [unfold at_ub; cbn; now rewrite Hj|]. rewrite <- IH by lia. reflexivity.
Qed.
Section Restrict.
  Context (omega : R -> R -> R) (K MU h alpha : R).
  Context (x y : list (V3 RN)) (v m dmg : list RN) (xl yl : list (V3 RN)) (vl ml dl : list RN) (p k : nat) (js : list nat).
  Context (Gx : gather x (p :: js) = Ok xl) (Gy : gather y (p :: js) = Ok yl) (Gv : gather v (p :: js) = Ok vl) (Gm : gather m (p :: js) = Ok ml)
    (Gd : gather dmg (seq k (length js)) = Ok dl).
  Lemma at_head : forall A (l r : list A), gather l (p :: js) = Ok r -> at_ub r 0 = at_ub l p.
  Proof. intros A l r H. rewrite (gather_nth _ _ _ _ 0 H) by (cbn; lia). reflexivity. Qed.
  Lemma at_tail : forall A (l r : list A) pj j post, gather l (p :: js) = Ok r -> js = pj ++ j :: post -> at_ub r (1 + length pj) = at_ub l j.
  Proof. intros A l r pj j post H E. rewrite (gather_nth _ _ _ _ (1 + length pj) H) by (rewrite E; cbn; rewrite app_length; cbn; lia). cbn [nth Nat.add]. rewrite E, app_nth2, Nat.sub_diag by lia. reflexivity. Qed.
  Lemma at_bond : forall pj j post, js = pj ++ j :: post -> at_ub dl (length pj) = at_ub dmg (k + length pj).
  Proof. intros pj j post E. assert (length pj < length js) by (rewrite E, app_length; cbn; lia). rewrite (gather_nth _ _ _ _ (length pj) Gd) by (rewrite seq_length; lia). now rewrite seq_nth by lia. Qed.

  Lemma dilatation_sum_local : forall X Y mp post pj acc, js = pj ++ post ->
    dilatation_sum (N:=RN) omega h alpha None xl yl vl dl None X Y mp (length pj) (seq (1 + length pj) (length post)) acc =
    dilatation_sum (N:=RN) omega h alpha None x y v dmg None X Y mp (k + length pj) post acc.
  Proof.
    intros X Y mp. induction post as [|j post IH]; intros pj acc E; [reflexivity|]. cbn [length seq dilatation_sum].
    rewrite (at_tail _ _ _ pj j post Gx E), (at_tail _ _ _ pj j post Gy E), (at_tail _ _ _ pj j post Gv E), (at_bond pj j post E).
    destruct (at_ub v j) as [vj| |]; cbn [bind]; auto. destruct (at_ub x j) as [XP| |]; cbn [bind]; auto. destruct (at_ub y j) as [YP| |]; cbn [bind]; auto. destruct (at_ub dmg (k + length pj)) as [b| |]; cbn [bind]; auto.
    specialize (IH (pj ++ [j]) (@add RN acc (dilatation_bond (N:=RN) omega h alpha None X XP Y YP b vj mp))). rewrite app_length in IH. cbn [length] in IH.
    replace (length pj + 1) with (S (length pj)) in IH by lia. replace (k + S (length pj)) with (1 + (k + length pj)) in IH by lia. apply IH. rewrite E, <- app_assoc. reflexivity.
  Qed.
  Lemma dilatation_local : dilatation (N:=RN) omega h alpha None xl yl vl dl None ml 0 0 (seq 1 (length js)) = dilatation (N:=RN) omega h alpha None x y v dmg None m p k js.
  Proof.
    unfold dilatation. rewrite (at_head _ _ _ Gx), (at_head _ _ _ Gy), (at_head _ _ _ Gm).
    destruct (at_ub x p) as [X| |]; cbn [bind]; auto. destruct (at_ub y p) as [Y| |]; cbn [bind]; auto. destruct (at_ub m p) as [mp| |]; cbn [bind]; auto. cbn [opt_at bind].
    pose proof (dilatation_sum_local X Y mp js [] 0%R eq_refl) as D. cbn [length] in D. replace (k + 0) with k in D by lia. exact D.
  Qed.
  Context (th thl : list RN) (ETH : at_ub thl 0 = at_ub th p).
  Let Kg := lps (N:=RN) omega K MU h alpha None x y v m th dmg None.
  Let Kl := lps (N:=RN) omega K MU h alpha None xl yl vl ml thl dl None.
  Lemma pre_local : pre _ _ Kl 0 0 (seq 1 (length js)) = pre _ _ Kg p k js.
  Proof. unfold Kl, Kg. cbn [pre lps]. now rewrite (at_head _ _ _ Gx), (at_head _ _ _ Gy), (at_head _ _ _ Gm), ETH. Qed.
  Lemma loop_local : forall (gg gl : nat -> V3 RN -> R) d, (forall i, additive (gg i)) -> (forall i, additive (gl i)) ->
    (forall u, gl 0 u = gg p u) -> (forall pj j post, js = pj ++ j :: post -> forall u, gl (1 + length pj) u = gg j u) ->
    forall post pj f f' s fl fl' sl, js = pj ++ post ->
    bond_loop Kg d p (k + length pj) post f = Ok (f', s) -> bond_loop Kl d 0 (length pj) (seq (1 + length pj) (length post)) fl = Ok (fl', sl) ->
    (gsum gg 0 f' - gsum gg 0 f = gsum gl 0 fl' - gsum gl 0 fl)%R.
  Proof.
    intros gg gl d Ag Al H0 HJ. induction post as [|j post IH]; intros pj f f' s fl fl' sl E R1 R2; cbn [length seq bond_loop] in R1, R2.
    - injection R1 as <- <-. injection R2 as <- <-. ring.
    - assert (EB : bond _ _ Kl d 0 (length pj) (1 + length pj) = bond _ _ Kg d p (k + length pj) j).
      { unfold Kl, Kg. cbn [bond lps]. destruct d as [[[[X Y] mp] t] dT]. now rewrite (at_tail _ _ _ pj j post Gx E), (at_tail _ _ _ pj j post Gy E), (at_bond pj j post E). }
      assert (EV : vols _ _ Kl 0 (length pj) (1 + length pj) = vols _ _ Kg p (k + length pj) j).
      { unfold Kl, Kg. cbn [vols lps]. unfold bond_volumes, cell_volumes. now rewrite (at_tail _ _ _ pj j post Gv E), (at_head _ _ _ Gv). }
      rewrite EB in R2. rewrite EV in R2.
      destruct (bond _ _ Kg d p (k + length pj) j) as [[fb s0]| |]; cbn [bind] in *; try discriminate.
      destruct (vols _ _ Kg p (k + length pj) j) as [[vn vs]| |]; cbn [bind] in *; try discriminate.
      apply bind_Ok in R1 as (f1 & A1 & R1). apply bind_Ok in R1 as (f2 & A2 & R1). apply bind_Ok in R1 as ([f3 s3] & A3 & R1). injection R1 as <- <-.
      apply bind_Ok in R2 as (g1 & B1 & R2). apply bind_Ok in R2 as (g2 & B2 & R2). apply bind_Ok in R2 as ([g3 t3] & B3 & R2). injection R2 as <- <-.
      apply (gsum_add gg) in A1; [|apply Ag]. apply (gsum_sub gg) in A2; [|apply Ag]. apply (gsum_add gl) in B1; [|apply Al]. apply (gsum_sub gl) in B2; [|apply Al].
      assert (I : (gsum gg 0 f3 - gsum gg 0 f2 = gsum gl 0 g3 - gsum gl 0 g2)%R).
      { apply (IH (pj ++ [j]) f2 f3 s3 g2 g3 t3); [rewrite E, <- app_assoc; reflexivity| |]; rewrite app_length; cbn [length]; replace (length pj + 1) with (S (length pj)) by lia; [|exact B3].
        replace (k + S (length pj)) with (1 + (k + length pj)) by lia. exact A3. }
      rewrite H0 in B1. rewrite (HJ pj j post E) in B2. lra.
  Qed.
End Restrict.

Definition marks (gids : list nat) (i a : nat) (l : nat) (u : V3 RN) : R := ind (match nth_error gids l with Some g => Nat.eqb g i | None => false end) (comp u a).
Lemma marks_additive : forall gids i a l, additive (marks gids i a l).
Proof. intros. split; intros u w; unfold marks, ind; destruct (nth_error gids l) as [g|]; [destruct (Nat.eqb g i)| |destruct (Nat.eqb g i)|]; try ring; destruct a as [|[|[|a]]]; cbn [comp vadd vsub vx vy vz]; to_R; ring. Qed.
Lemma on_point_gsum : forall gids (f : list (V3 RN)) i a, a < 3 -> length f = length gids -> on_point 3 gids (flat f) i a = gsum (marks gids i a) 0 f.
Proof.
  intros gids f i a Ha L. unfold on_point, numbered.
  assert (G : forall rest pg (f pf : list (V3 RN)), gids = pg ++ rest -> length pf = length pg -> length f = length rest ->
    sum_over (fun mg => if Nat.eqb (snd mg) i then nth (3 * fst mg + a) (flat (pf ++ f)) 0%R else 0%R) (combine (seq (length pg) (length rest)) rest) = gsum (marks gids i a) (length pg) f).
  { clear f L. induction rest as [|g rest IH]; intros pg f pf E Lp Lf; destruct f as [|u f]; cbn [length] in Lf; try lia; [reflexivity|].
    cbn [length seq combine gsum]. rewrite so_cons. cbn [fst snd].
    assert (Em : marks gids i a (length pg) u = if Nat.eqb g i then comp u a else 0%R).
    { unfold marks. now rewrite E, nth_app_here. }
    rewrite Em. rewrite nth_flat by auto. rewrite app_nth2 by lia. rewrite Lp, Nat.sub_diag. cbn [nth].
    f_equal. specialize (IH (pg ++ [g]) f (pf ++ [u])). rewrite !app_length in IH. cbn [length] in IH. rewrite <- !app_assoc in IH. cbn [app] in IH.
    replace (length pg + 1) with (S (length pg)) in IH by lia. apply IH; auto; lia. }
  apply (G gids [] f []); auto.
Qed.
