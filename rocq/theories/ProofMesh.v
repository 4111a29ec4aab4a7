(** Proofs about ModelMesh (C70). *)
From Coq Require Import String Permutation.
From Verif Require Import Base Num ModelScalar ModelInput ModelGeom ModelMesh SpecMesh ProofBC ProofBC2 ProofStep.
Local Open Scope string_scope.
Local Open Scope list_scope.

Lemma at_ok {A} (l : list A) i : i < length l -> exists a, at_ub l i = Ok a /\ nth_error l i = Some a.
Proof. intros H. unfold at_ub. destruct (nth_error l i) eqn:E; [eauto|]. apply nth_error_None in E. lia. Qed.
Lemma at_inv {A} (l : list A) i a : at_ub l i = Ok a -> nth_error l i = Some a.
Proof. unfold at_ub. destruct (nth_error l i); congruence. Qed.
Lemma at_some {A} (l : list A) i a : nth_error l i = Some a -> at_ub l i = Ok a.
Proof. unfold at_ub. now intros ->. Qed.

Lemma F2_length {A B} (P : A -> B -> Prop) l r : Forall2 P l r -> length l = length r.
Proof. induction 1; cbn; congruence. Qed.

Section Mesh.
  Context {N : Num}.
  Implicit Types (m : mesh N) (b : mblock N).

  Lemma lid_nth ids e g : NoDup ids -> nth_error ids e = Some g -> lid ids g = Some e.
  Proof.
    revert e. induction ids as [|h t IH]; intros [|e] D H; cbn [nth_error] in H; try discriminate; cbn [lid].
    - injection H as ->. now rewrite Z.eqb_refl.
    - inversion D as [|? ? D1 D2]; subst. destruct (Z.eqb_spec h g) as [->|]; [exfalso; apply D1; now apply nth_error_In in H|].
      now rewrite (IH e D2 H).
  Qed.

  Lemma zero_nodup l : NoDup l -> NoDup (zero_based l).
  Proof. intros H. apply FinFun.Injective_map_NoDup; [intros x y; lia|exact H]. Qed.

  Lemma type_inv s t : element_type s = Ok t -> In (to_upper s) (names_of t).
  Proof.
    unfold element_type. intros H.
    destruct (String.eqb_spec (to_upper s) "SPHERE"); [injection H as <-; left; auto|].
    destruct (String.eqb_spec (to_upper s) "TET"); [injection H as <-; cbn; auto|].
    destruct (String.eqb_spec (to_upper s) "TETRA"); [injection H as <-; cbn; auto|].
    destruct (String.eqb_spec (to_upper s) "TET4"); [injection H as <-; cbn; auto|].
    destruct (String.eqb_spec (to_upper s) "TET10"); [injection H as <-; cbn; auto|].
    destruct (String.eqb_spec (to_upper s) "HEX"); [injection H as <-; cbn; auto|].
    destruct (String.eqb_spec (to_upper s) "HEX8"); [injection H as <-; cbn; auto|].
    destruct (String.eqb_spec (to_upper s) "HEX20"); [injection H as <-; cbn; auto 6|]. discriminate.
  Qed.
  Lemma type_of s t : In (to_upper s) (names_of t) -> element_type s = Ok t.
  Proof.
    unfold element_type. destruct t; cbn [names_of]; intros H; repeat (destruct H as [H|H]); try contradiction; rewrite <- H; reflexivity.
  Qed.
  Lemma type_not_ub s : element_type s <> UB.
  Proof. unfold element_type. repeat (match goal with |- context [if ?c then _ else _] => destruct c end; try discriminate). Qed.

  Lemma tet_not_ub (e : tetra N) : tet_centroid_and_volume (N:=N) e <> UB.
  Proof. unfold tet_centroid_and_volume, tet_volume. cbv zeta. destruct (ltb _ _); discriminate. Qed.
  Lemma tet_volume_not_ub (e : tetra N) : tet_volume (N:=N) e <> UB.
  Proof. unfold tet_volume. cbv zeta. destruct (ltb _ _); discriminate. Qed.
  Lemma foldM_not_ub {A S} (f : S -> A -> outcome S) l : (forall s a, f s a <> UB) -> forall s, foldM f s l <> UB.
  Proof.
    intros H. induction l as [|a t IH]; intros s; cbn [foldM]; [discriminate|].
    pose proof (H s a). destruct (f s a); cbn [bind]; [apply IH|discriminate|congruence].
  Qed.
  Lemma hex_not_ub (h : hexa N) : hex_centroid_and_volume (N:=N) h <> UB.
  Proof.
    unfold hex_centroid_and_volume.
    match goal with |- context [foldM ?f ?s ?l] => assert (K : foldM f s l <> UB) end.
    { apply foldM_not_ub. intros acc ((p & q) & r). unfold hex_add. pose proof (tet_volume_not_ub (tet p q r (hex_centre h))) as Q.
      destruct (tet_volume _); cbn [bind]; [discriminate|discriminate|congruence]. }
    match goal with |- context [foldM ?f ?s ?l] => destruct (foldM f s l) as [u| |]; cbn [bind]; [|discriminate|congruence] end.
    try destruct u; discriminate.
  Qed.

  (** The value of one element *)
  Definition val m (t : etype) b (i : nat) : outcome (V3 N * N) :=
    let? x := node_coordinates (me_coord m) b i in element_point t b i x.

  Lemma row_in b i k : i < mb_count b -> k < mb_npe b -> i * mb_npe b + k < mb_count b * mb_npe b.
  Proof. intros. nia. Qed.

  Lemma coordinates_ok m b i : block_wf m b -> i < mb_count b ->
    exists x, node_coordinates (me_coord m) b i = Ok x /\ length x = mb_npe b /\
      forall k p, nth_error x k = Some p -> corner m b i k p.
  Proof.
    intros (L & F & _) I. unfold node_coordinates.
    destruct (mapO_spec (fun k => let? c := at_ub (mb_conn b) (i * mb_npe b + k) in at_z (me_coord m) (c - 1)%Z) (seq 0 (mb_npe b))) as (x & E & X).
    - intros k K. apply in_seq in K. destruct (at_ok (mb_conn b) (i * mb_npe b + k)) as (c & E & Q); [rewrite L; apply row_in; lia|]. rewrite E. cbn [bind].
      rewrite Forall_forall in F. destruct (F c) as (A & B); [now apply nth_error_In in Q|].
      unfold at_z. destruct (Z.ltb_spec (c - 1) 0); [lia|]. destruct (at_ok (me_coord m) (Z.to_nat (c - 1))) as (p & P & _); [lia|]. eauto.
    - exists x. split; [exact E|]. pose proof (F2_length _ _ _ X) as LX. rewrite seq_length in LX. split; [now symmetry|].
      intros k p P. assert (K : k < mb_npe b) by (rewrite LX; apply nth_error_Some; congruence).
      destruct (Forall2_nth _ _ _ X k k) as (q & Q & V); [rewrite nth_error_nth' with (d := 0); [now rewrite seq_nth|now rewrite seq_length]|].
      rewrite P in Q. injection Q as <-. cbv beta in V.
      destruct (at_ub (mb_conn b) (i * mb_npe b + k)) as [c| |] eqn:C; cbn [bind] in V; try discriminate. apply at_inv in C.
      exists c. split; [split; auto|]. unfold at_z in V. destruct (Z.ltb_spec (c - 1) 0); [discriminate|]. split; [lia|now apply at_inv].
  Qed.

  Lemma corner_fun m b i k p q : corner m b i k p -> corner m b i k q -> p = q.
  Proof. intros (c & (_ & A) & _ & B) (d & (_ & C) & _ & D). congruence. Qed.

  Lemma val_spec m t b i x v : block_wf m b -> i < mb_count b -> of_type b t -> (val m t b i = Ok (x, v) <-> point_of m t b i x v).
  Proof.
    intros W I O. destruct (coordinates_ok m b i W I) as (X & E & L & C). unfold val. rewrite E. cbn [bind].
    destruct W as (_ & _ & W). destruct (W t O) as (Nn & At).
    destruct t; cbn [element_point point_of corners_used] in *.
    - destruct (at_ok X 0) as (p & P & Q); [lia|]. rewrite P. cbn [bind]. apply C in Q.
      split.
      + destruct (at_ub (mb_attr b) _) as [w| |] eqn:V; cbn [bind]; try discriminate. intros H; injection H as <- <-. split; [exact Q|now apply at_inv].
      + intros (A & B). rewrite (at_some _ _ _ B). cbn [bind]. now rewrite (corner_fun _ _ _ _ _ _ A Q).
    - destruct (at_ok X 0) as (p & P & Q); [lia|]. rewrite P; clear P. cbn [bind]. apply C in Q.
      destruct (at_ok X 1) as (p1 & P & Q1); [lia|]. rewrite P; clear P. cbn [bind]. apply C in Q1.
      destruct (at_ok X 2) as (p2 & P & Q2); [lia|]. rewrite P; clear P. cbn [bind]. apply C in Q2.
      destruct (at_ok X 3) as (p3 & P & Q3); [lia|]. rewrite P; clear P. cbn [bind]. apply C in Q3.
      split; [intros H; exists p, p1, p2, p3; auto|].
      intros (a & a1 & a2 & a3 & A & A1 & A2 & A3 & H).
      now rewrite (corner_fun _ _ _ _ _ _ Q A), (corner_fun _ _ _ _ _ _ Q1 A1), (corner_fun _ _ _ _ _ _ Q2 A2), (corner_fun _ _ _ _ _ _ Q3 A3).
    - destruct (at_ok X 0) as (p & P & Q); [lia|]. rewrite P; clear P. cbn [bind]. apply C in Q.
      destruct (at_ok X 1) as (p1 & P & Q1); [lia|]. rewrite P; clear P. cbn [bind]. apply C in Q1.
      destruct (at_ok X 2) as (p2 & P & Q2); [lia|]. rewrite P; clear P. cbn [bind]. apply C in Q2.
      destruct (at_ok X 3) as (p3 & P & Q3); [lia|]. rewrite P; clear P. cbn [bind]. apply C in Q3.
      destruct (at_ok X 4) as (p4 & P & Q4); [lia|]. rewrite P; clear P. cbn [bind]. apply C in Q4.
      destruct (at_ok X 5) as (p5 & P & Q5); [lia|]. rewrite P; clear P. cbn [bind]. apply C in Q5.
      destruct (at_ok X 6) as (p6 & P & Q6); [lia|]. rewrite P; clear P. cbn [bind]. apply C in Q6.
      destruct (at_ok X 7) as (p7 & P & Q7); [lia|]. rewrite P; clear P. cbn [bind]. apply C in Q7.
      split; [intros H; exists p, p1, p2, p3, p4, p5, p6, p7; repeat (split; [assumption|]); assumption|].
      intros (a & a1 & a2 & a3 & a4 & a5 & a6 & a7 & A & A1 & A2 & A3 & A4 & A5 & A6 & A7 & H).
      now rewrite (corner_fun _ _ _ _ _ _ Q A), (corner_fun _ _ _ _ _ _ Q1 A1), (corner_fun _ _ _ _ _ _ Q2 A2), (corner_fun _ _ _ _ _ _ Q3 A3),
        (corner_fun _ _ _ _ _ _ Q4 A4), (corner_fun _ _ _ _ _ _ Q5 A5), (corner_fun _ _ _ _ _ _ Q6 A6), (corner_fun _ _ _ _ _ _ Q7 A7).
  Qed.

  Lemma val_not_ub m t b i : block_wf m b -> i < mb_count b -> of_type b t -> val m t b i <> UB.
  Proof.
    intros W I O. destruct (coordinates_ok m b i W I) as (X & E & L & C). unfold val. rewrite E. cbn [bind].
    destruct W as (_ & _ & W). destruct (W t O) as (Nn & At).
    destruct t; cbn [element_point corners_used] in *.
    - destruct (at_ok X 0) as (p & P & _); [lia|]. rewrite P. cbn [bind]. destruct (At eq_refl) as (A & B).
      destruct (at_ok (mb_attr b) (i * mb_nattr b + 1)) as (v & V & _); [rewrite B; nia|]. rewrite V. discriminate.
    - repeat (match goal with |- context [at_ub X ?k] => let p := fresh in let P := fresh in destruct (at_ok X k) as (p & P & _); [lia|]; rewrite P; clear P; cbn [bind] end).
      apply tet_not_ub.
    - repeat (match goal with |- context [at_ub X ?k] => let p := fresh in let P := fresh in destruct (at_ok X k) as (p & P & _); [lia|]; rewrite P; clear P; cbn [bind] end).
      apply hex_not_ub.
  Qed.

  Definition made b (xv : V3 N * N) : mpoint N := {| mp_block := mb_id b; mp_volume := snd xv; mp_x := fst xv |}.

  Lemma load_element_eq m ids t b st mem i : block_wf m b -> i < mb_count b -> NoDup ids -> ls_local st < length ids -> length (ls_points st) = length ids ->
    exists g, nth_error ids (ls_local st) = Some g /\
      match val m t b i with
      | Ok xv => exists pts, upd_ub (ls_points st) (ls_local st) (made b xv) = Ok pts /\
                 load_element (me_coord m) ids t b (st, mem) i = Ok ({| ls_points := pts; ls_local := S (ls_local st) |}, mem ++ [g])
      | Err => load_element (me_coord m) ids t b (st, mem) i = Err
      | UB => load_element (me_coord m) ids t b (st, mem) i = UB
      end.
  Proof.
    intros W I D L P. destruct (at_ok ids (ls_local st) L) as (g & G & G'). exists g. split; [exact G'|].
    destruct (coordinates_ok m b i W I) as (X & E & _). unfold val, load_element. rewrite E, G. cbn [bind].
    destruct (element_point t b i X) as [xv| |]; cbn [bind]; [|reflexivity|reflexivity].
    rewrite (lid_nth _ _ _ D G'). destruct (upd_ub_ok (ls_points st) (ls_local st) (made b xv)) as (pts & U); [lia|].
    exists pts. split; [exact U|]. unfold made in U. rewrite U. reflexivity.
  Qed.

  (** One block *)
  Lemma load_elements m ids t b : block_wf m b -> of_type b t -> NoDup ids ->
    forall n i0 st mem, i0 + n <= mb_count b -> ls_local st + n <= length ids -> length (ls_points st) = length ids ->
    match foldM (load_element (me_coord m) ids t b) (st, mem) (seq i0 n) with
    | UB => False
    | Err => exists i, i0 <= i < i0 + n /\ val m t b i = Err
    | Ok (st', mem') =>
        ls_local st' = ls_local st + n /\ length (ls_points st') = length ids /\
        mem' = mem ++ firstn n (skipn (ls_local st) ids) /\
        (forall k, k < ls_local st \/ ls_local st + n <= k -> nth_error (ls_points st') k = nth_error (ls_points st) k) /\
        (forall j, j < n -> exists xv, val m t b (i0 + j) = Ok xv /\ nth_error (ls_points st') (ls_local st + j) = Some (made b xv))
    end.
  Proof.
    intros W O D. induction n as [|n IH]; intros i0 st mem B Lo Le; cbn [seq foldM].
    - cbn [firstn]. rewrite app_nil_r, Nat.add_0_r. repeat (split; [auto|]). intros; lia.
    - destruct (load_element_eq m ids t b st mem i0 W) as (g & G & S1); [lia|exact D|lia|exact Le|].
      pose proof (val_not_ub m t b i0 W ltac:(lia) O) as NU.
      destruct (val m t b i0) as [xv| |] eqn:V; [|rewrite S1; cbn [bind]; exists i0; split; [lia|exact V]|congruence].
      destruct S1 as (pts & U & S1). rewrite S1. cbn [bind]. apply upd_ub_spec in U as (UL & UN).
      specialize (IH (S i0) {| ls_points := pts; ls_local := S (ls_local st) |} (mem ++ [g])). cbn [ls_local ls_points] in IH.
      specialize (IH ltac:(lia) ltac:(lia) ltac:(lia)).
      destruct (foldM _ _ (seq (S i0) n)) as [[st' mem']| |]; [|destruct IH as (i & I & E); exists i; split; [lia|exact E]|exact IH].
      destruct IH as (A1 & A2 & A3 & A4 & A5). split; [lia|]. split; [exact A2|]. split; [|split].
      + rewrite A3, <- app_assoc. f_equal. clear - G. revert G. generalize (ls_local st). induction ids as [|h l IH]; intros [|k] G; cbn [nth_error] in G; try discriminate.
        * injection G as ->. reflexivity.
        * cbn [skipn]. now apply IH.
      + intros k K. rewrite A4 by lia. rewrite UN. destruct (Nat.eqb_spec (ls_local st) k); [lia|reflexivity].
      + intros [|j] J.
        * exists xv. rewrite !Nat.add_0_r. split; [exact V|]. rewrite A4 by lia. rewrite UN. now rewrite Nat.eqb_refl.
        * destruct (A5 j) as (w & Wv & Q); [lia|]. exists w. rewrite <- !Nat.add_succ_comm. split; [exact Wv|exact Q].
  Qed.

  Lemma existsb_name {X} (l : list (string * X)) n : existsb (fun e => String.eqb (fst e) n) l = true <-> In n (map fst l).
  Proof.
    rewrite existsb_exists, in_map_iff. split.
    - intros (x & I & E). apply String.eqb_eq in E. exists x. auto.
    - intros (x & E & I). exists x. split; [exact I|]. now apply String.eqb_eq.
  Qed.

  Lemma elements_app (l1 l2 : list (mblock N)) : elements_in (l1 ++ l2) = elements_in l1 + elements_in l2.
  Proof. unfold elements_in. now rewrite map_app, list_sum_app. Qed.

  (** All blocks.  [l1] are the blocks already read. *)
  Definition block_rows ids (l1 l2 : list (mblock N)) : list (string * list Z) :=
    (fix go n l := match l with [] => [] | b :: l' => (block_name b, firstn (mb_count b) (skipn n ids)) :: go (n + mb_count b) l' end) (elements_in l1) l2.

  Lemma load_blocks m ids : NoDup ids -> forall l2 l1 st bl, Forall (block_wf m) l2 -> elements_in l1 + elements_in l2 <= length ids ->
    ls_local st = elements_in l1 -> length (ls_points st) = length ids -> map fst bl = map block_name l1 -> NoDup (map block_name l1) ->
    match foldM (load_block (me_coord m) ids) (st, bl) l2 with
    | UB => False
    | Err => ~ (NoDup (map block_name (l1 ++ l2)) /\ forall b i, In b l2 -> i < mb_count b -> exists t xv, of_type b t /\ val m t b i = Ok xv)
    | Ok (st', bl') =>
        length (ls_points st') = length ids /\ bl' = bl ++ block_rows ids l1 l2 /\ NoDup (map block_name (l1 ++ l2)) /\
        (forall k, k < elements_in l1 -> nth_error (ls_points st') k = nth_error (ls_points st) k) /\
        (forall l3 b l4 i, l2 = l3 ++ b :: l4 -> i < mb_count b ->
           exists t xv, of_type b t /\ val m t b i = Ok xv /\ nth_error (ls_points st') (elements_in l1 + elements_in l3 + i) = Some (made b xv))
    end.
  Proof.
    intros D. induction l2 as [|b l2 IH]; intros l1 st bl W B Lo Le Nm Nd; cbn [foldM].
    - rewrite !app_nil_r. repeat (split; [auto|]). intros l3 b l4 i E. destruct l3; discriminate.
    - inversion W as [|? ? Wb W2]; subst. assert (EC : elements_in (b :: l2) = mb_count b + elements_in l2) by reflexivity.
      assert (E1 : elements_in (l1 ++ [b]) = elements_in l1 + mb_count b) by (rewrite elements_app; unfold elements_in at 2; cbn; lia).
      assert (AA : l1 ++ b :: l2 = (l1 ++ [b]) ++ l2) by (now rewrite <- app_assoc).
      unfold load_block at 1.
      destruct (existsb _ bl) eqn:X.
      + cbn [bind]. apply existsb_name in X. rewrite Nm in X. intros (C & _). rewrite map_app in C. cbn [map] in C. apply NoDup_remove_2 in C. apply C. apply in_or_app. now left.
      + assert (XN : ~ In (block_name b) (map block_name l1)) by (rewrite <- Nm, <- existsb_name; congruence).
        assert (Nd' : NoDup (map block_name (l1 ++ [b]))).
        { rewrite map_app. cbn [map]. apply (Permutation_NoDup (l := block_name b :: map block_name l1)); [apply Permutation_cons_append|]. now constructor. }
        destruct (Nat.eqb_spec (mb_count b) 0) as [Z0|Z0].
        * cbn [bind]. specialize (IH (l1 ++ [b]) st (bl ++ [(block_name b, [])]) W2).
          rewrite E1 in IH. specialize (IH ltac:(lia) ltac:(lia) Le).
          assert (NM : map fst (bl ++ [(block_name b, @nil Z)]) = map block_name (l1 ++ [b])) by (now rewrite !map_app, Nm).
          specialize (IH NM Nd').
          destruct (foldM _ _ l2) as [[st' bl']| |]; [|intros (C1 & C2); apply IH; rewrite <- AA; split; [exact C1|intros c i C; apply C2; now right]|exact IH].
          destruct IH as (A1 & A2 & A3 & A4 & A5). split; [exact A1|]. split; [|split; [|split]].
          -- rewrite A2, <- app_assoc. f_equal. unfold block_rows. rewrite E1. cbn [app]. rewrite Z0. reflexivity.
          -- rewrite AA. exact A3.
          -- intros k K. apply A4. lia.
          -- intros [|c l3] c' l4 i E I; cbn [app] in E; injection E as -> ->; [lia|].
             destruct (A5 l3 c' l4 i eq_refl I) as (t & xv & O & V & Q). exists t, xv. split; [exact O|]. split; [exact V|].
             rewrite <- Q. f_equal. change (elements_in (c :: l3)) with (mb_count c + elements_in l3). lia.
        * pose proof (type_not_ub (mb_type b)) as TU.
          destruct (element_type (mb_type b)) as [t| |] eqn:T; cbn [bind]; [| |congruence].
          2: { intros (_ & C). destruct (C b 0) as (t & xv & O & _); [now left|lia|]. apply type_of in O. congruence. }
          apply type_inv in T. pose proof (load_elements m ids t b Wb T D (mb_count b) 0 st [] ltac:(lia) ltac:(lia) Le) as LE.
          destruct (foldM (load_element (me_coord m) ids t b) (st, []) (seq 0 (mb_count b))) as [[st1 mem]| |]; cbn [bind fst snd].
          3: exact LE.
          2: { destruct LE as (i & I & V). intros (_ & C). destruct (C b i) as (t' & xv & O & V'); [now left|lia|].
               apply type_of in O. apply type_of in T. congruence. }
          destruct LE as (B1 & B2 & B3 & B4 & B5). cbn [app] in B3.
          specialize (IH (l1 ++ [b]) st1 (bl ++ [(block_name b, mem)]) W2).
          rewrite E1 in IH. specialize (IH ltac:(lia) ltac:(lia) B2).
          assert (NM : map fst (bl ++ [(block_name b, mem)]) = map block_name (l1 ++ [b])) by (now rewrite !map_app, Nm).
          specialize (IH NM Nd').
          destruct (foldM (load_block (me_coord m) ids) _ l2) as [[st' bl']| |]; [|intros (C1 & C2); apply IH; rewrite <- AA; split; [exact C1|intros c i C; apply C2; now right]|exact IH].
          destruct IH as (A1 & A2 & A3 & A4 & A5). split; [exact A1|]. split; [|split; [|split]].
          -- rewrite A2, <- app_assoc. f_equal. unfold block_rows. rewrite E1. cbn [app]. rewrite B3, Lo. reflexivity.
          -- rewrite AA. exact A3.
          -- intros k K. rewrite A4 by lia. apply B4. lia.
          -- intros [|c l3] c' l4 i E I; cbn [app] in E; injection E as -> ->.
             ++ destruct (B5 i I) as (xv & V & Q). exists t, xv. split; [exact T|]. split; [exact V|].
                rewrite A4 by (unfold elements_in at 2; cbn; lia). rewrite <- Q. f_equal. unfold elements_in at 2; cbn. lia.
             ++ destruct (A5 l3 c' l4 i eq_refl I) as (t' & xv & O & V & Q). exists t', xv. split; [exact O|]. split; [exact V|].
                rewrite <- Q. f_equal. change (elements_in (c :: l3)) with (mb_count c + elements_in l3). lia.
  Qed.

  (** The table of the elements of each node *)
  Lemma note_row m b i local : block_wf m b -> i < mb_count b -> forall ks (tbl : list (list nat)), (forall k, In k ks -> k < mb_npe b) -> length tbl = length (me_coord m) ->
    exists tbl', foldM (fun tbl k =>
        let? c := at_ub (mb_conn b) (i * mb_npe b + k) in
        if (c <? 1)%Z then UB
        else let? row := at_ub tbl (Z.to_nat (c - 1)) in upd_ub tbl (Z.to_nat (c - 1)) (row ++ [local])) tbl ks = Ok tbl' /\ length tbl' = length tbl /\
      forall q row', nth_error tbl' q = Some row' -> exists row, nth_error tbl q = Some row /\
        forall e, In e row' <-> In e row \/ (e = local /\ exists k, In k ks /\ has_node b i k (Z.of_nat q + 1)).
  Proof.
    intros (L & F & _) I. induction ks as [|k ks IH]; intros tbl K Lt; cbn [foldM].
    - exists tbl. split; [reflexivity|]. split; [reflexivity|]. intros q row' Q. exists row'. split; [exact Q|]. intros e. split; [auto|]. intros [H|(_ & k & [] & _)]. exact H.
    - assert (K0 : k < mb_npe b) by (apply K; now left).
      destruct (at_ok (mb_conn b) (i * mb_npe b + k)) as (c & E & Ec); [rewrite L; now apply row_in|]. rewrite E. cbn [bind].
      rewrite Forall_forall in F. destruct (F c) as (C1 & C2); [now apply nth_error_In in Ec|].
      destruct (Z.ltb_spec c 1); [lia|]. destruct (at_ok tbl (Z.to_nat (c - 1))) as (row & R1 & R2); [lia|]. rewrite R1. cbn [bind].
      destruct (upd_ub_ok tbl (Z.to_nat (c - 1)) (row ++ [local])) as (t1 & U); [lia|]. rewrite U. cbn [bind]. apply upd_ub_spec in U as (UL & UN).
      destruct (IH t1) as (t2 & G & Gl & Gr); [intros; apply K; now right|lia|]. exists t2. split; [exact G|]. split; [lia|].
      intros q row' Q. destruct (Gr q row' Q) as (r1 & Q1 & I1). rewrite UN in Q1.
      destruct (Nat.eqb_spec (Z.to_nat (c - 1)) q) as [Eq|Ne].
      + injection Q1 as <-. subst q. exists row. split; [exact R2|]. intros e. rewrite I1, in_app_iff. cbn [In]. split.
        * intros [[H0|[H0|[]]]|(H0 & k' & H1 & H2)]; [auto| |right; split; [exact H0|]; exists k'; auto].
          right. split; [auto|]. exists k. split; [now left|]. split; [exact K0|]. rewrite Ec. f_equal. lia.
        * intros [H0|(H0 & k' & [H1|H1] & H2)]; [auto|left; right; left; auto|right; split; [exact H0|]; exists k'; auto].
      + exists r1. split; [exact Q1|]. intros e. rewrite I1. cbn [In]. split.
        * intros [H0|(H0 & k' & H1 & H2)]; [auto|right; split; [exact H0|]; exists k'; auto].
        * intros [H0|(H0 & k' & [H1|H1] & H2)]; [auto| |right; split; [exact H0|]; exists k'; auto].
          exfalso. subst k'. destruct H2 as (_ & H2). rewrite Ec in H2. injection H2 as H2. lia.
  Qed.

  Lemma note_block m b : block_wf m b -> forall n i0 (tbl : list (list nat)) local, i0 + n <= mb_count b -> length tbl = length (me_coord m) ->
    exists tbl', foldM (note_nodes b) (tbl, local) (seq i0 n) = Ok (tbl', local + n) /\ length tbl' = length tbl /\
      forall q row', nth_error tbl' q = Some row' -> exists row, nth_error tbl q = Some row /\
        forall e, In e row' <-> In e row \/ exists j k, j < n /\ e = local + j /\ has_node b (i0 + j) k (Z.of_nat q + 1).
  Proof.
    intros W. induction n as [|n IH]; intros i0 tbl local B Lt; cbn [seq foldM].
    - exists tbl. rewrite Nat.add_0_r. split; [reflexivity|]. split; [reflexivity|]. intros q row' Q. exists row'. split; [exact Q|].
      intros e. split; [auto|]. intros [H|(j & k & H & _)]; [exact H|lia].
    - unfold note_nodes at 1. destruct (note_row m b i0 local W ltac:(lia) (seq 0 (mb_npe b)) tbl) as (t1 & E & El & Er); [intros k K; apply in_seq in K; lia|exact Lt|].
      rewrite E. cbn [bind]. destruct (IH (S i0) t1 (S local)) as (t2 & G & Gl & Gr); [lia|lia|]. exists t2. rewrite G.
      split; [f_equal; f_equal; lia|]. split; [lia|]. intros q row' Q. destruct (Gr q row' Q) as (r1 & Q1 & I1). destruct (Er q r1 Q1) as (r0 & Q0 & I0).
      exists r0. split; [exact Q0|]. intros e. rewrite I1, I0. split.
      + intros [[H|(H & k & Hk & Hn)]|(j & k & Hj & He & Hn)]; [auto| |].
        * right. exists 0, k. rewrite !Nat.add_0_r. split; [lia|]. auto.
        * right. exists (S j), k. split; [lia|]. split; [lia|]. now rewrite <- Nat.add_succ_comm.
      + intros [H|(j & k & Hj & He & Hn)]; [auto|]. destruct j as [|j].
        * left. right. rewrite !Nat.add_0_r in *. split; [exact He|]. exists k. split; [apply in_seq; destruct Hn; lia|exact Hn].
        * right. exists j, k. split; [lia|]. split; [lia|]. now rewrite <- Nat.add_succ_comm in Hn.
  Qed.

  Definition touches (l2 : list (mblock N)) (local e q : nat) : Prop :=
    exists l3 b l4 i k, l2 = l3 ++ b :: l4 /\ i < mb_count b /\ e = local + elements_in l3 + i /\ has_node b i k (Z.of_nat q + 1).

  Lemma note_blocks m : forall l2 (tbl : list (list nat)) local, Forall (block_wf m) l2 -> length tbl = length (me_coord m) ->
    exists tbl' n, foldM (fun s b => foldM (note_nodes b) s (seq 0 (mb_count b))) (tbl, local) l2 = Ok (tbl', n) /\ length tbl' = length tbl /\
      forall q row', nth_error tbl' q = Some row' -> exists row, nth_error tbl q = Some row /\ forall e, In e row' <-> In e row \/ touches l2 local e q.
  Proof.
    induction l2 as [|b l2 IH]; intros tbl local W Lt; cbn [foldM].
    - exists tbl, local. split; [reflexivity|]. split; [reflexivity|]. intros q row' Q. exists row'. split; [exact Q|]. intros e. split; [auto|].
      intros [H|(l3 & b & l4 & i & k & H & _)]; [exact H|destruct l3; discriminate].
    - inversion W as [|? ? Wb W2]; subst. destruct (note_block m b Wb (mb_count b) 0 tbl local) as (t1 & E & El & Er); [lia|exact Lt|].
      rewrite E. cbn [bind]. destruct (IH t1 (local + mb_count b) W2) as (t2 & n & G & Gl & Gr); [lia|]. exists t2, n. rewrite G.
      split; [reflexivity|]. split; [lia|]. intros q row' Q. destruct (Gr q row' Q) as (r1 & Q1 & I1). destruct (Er q r1 Q1) as (r0 & Q0 & I0).
      exists r0. split; [exact Q0|]. intros e. rewrite I1, I0. split.
      + intros [[H|(j & k & Hj & He & Hn)]|(l3 & c & l4 & i & k & Hl & Hi & He & Hn)]; [auto| |].
        * right. exists [], b, l2, j, k. split; [reflexivity|]. split; [exact Hj|]. split; [cbn; lia|exact Hn].
        * right. exists (b :: l3), c, l4, i, k. rewrite Hl. split; [reflexivity|]. split; [exact Hi|]. split; [|exact Hn].
          change (elements_in (b :: l3)) with (mb_count b + elements_in l3). lia.
      + intros [H|(l3 & c & l4 & i & k & Hl & Hi & He & Hn)]; [auto|]. destruct l3 as [|b' l3]; cbn [app] in Hl; injection Hl as -> ->.
        * left. right. exists i, k. split; [exact Hi|]. split; [cbn in He; lia|exact Hn].
        * right. exists l3, c, l4, i, k. split; [reflexivity|]. split; [exact Hi|]. split; [|exact Hn].
          change (elements_in (b' :: l3)) with (mb_count b' + elements_in l3) in He. lia.
  Qed.

  Lemma nth_repeat_nil {A} n q (r : list A) : nth_error (repeat [] n) q = Some r -> r = [].
  Proof. intros H. apply nth_error_In in H. now apply repeat_spec in H. Qed.

  Lemma table_ok m : mesh_wf m -> exists tbl, elements_of_nodes m = Ok tbl /\ length tbl = length (me_coord m) /\
    forall q row, nth_error tbl q = Some row -> forall e, In e row <-> exists b i k, is_element m e b i /\ has_node b i k (Z.of_nat q + 1).
  Proof.
    intros (_ & _ & W & _). unfold elements_of_nodes.
    destruct (note_blocks m (me_blocks m) (repeat [] (length (me_coord m))) 0 W (repeat_length _ _)) as (t & n & E & L & R). rewrite E. cbn [bind fst].
    exists t. split; [reflexivity|]. split; [now rewrite L, repeat_length|]. intros q row Q e. destruct (R q row Q) as (r0 & Q0 & I). apply nth_repeat_nil in Q0. subst r0.
    rewrite I. cbn [In]. unfold touches, is_element. split.
    - intros [[]|(l3 & b & l4 & i & k & H1 & H2 & H3 & H4)]. exists b, i, k. split; [exists l3, l4; auto|exact H4].
    - intros (b & i & k & (l3 & l4 & H1 & H2 & H3) & H4). right. exists l3, b, l4, i, k. auto.
  Qed.

  Lemma element_bound m e b i : mesh_wf m -> is_element m e b i -> e < length (numbers m).
  Proof.
    intros (_ & L & _) (l1 & l2 & E & I & ->). rewrite L, E, elements_app. change (elements_in (b :: l2)) with (mb_count b + elements_in l2). lia.
  Qed.

  (** Node sets *)
  Lemma existsb_z g l : existsb (Z.eqb g) l = true <-> In g l.
  Proof. rewrite existsb_exists. split; [intros (x & H & E); apply Z.eqb_eq in E; now subst|intros H; exists g; split; [exact H|apply Z.eqb_refl]]. Qed.

  Lemma fill_row ids : forall row acc, (forall k, In k row -> k < length ids) -> NoDup acc ->
    exists acc', foldM (fun acc k => let? g := at_ub ids k in Ok (if existsb (Z.eqb g) acc then acc else acc ++ [g])) acc row = Ok acc' /\ NoDup acc' /\
      forall g, In g acc' <-> In g acc \/ exists k, In k row /\ nth_error ids k = Some g.
  Proof.
    induction row as [|k row IH]; intros acc B D; cbn [foldM].
    - exists acc. split; [reflexivity|]. split; [exact D|]. intros g. split; [auto|]. intros [H|(k & [] & _)]. exact H.
    - destruct (at_ok ids k) as (g0 & E & E'); [apply B; now left|]. rewrite E. cbn [bind].
      destruct (existsb (Z.eqb g0) acc) eqn:X.
      + destruct (IH acc) as (a & G & Gd & Gi); [intros; apply B; now right|exact D|]. exists a. split; [exact G|]. split; [exact Gd|].
        intros g. rewrite Gi. apply existsb_z in X. split.
        * intros [H|(k' & H & Q)]; [auto|]. right. exists k'. split; [now right|exact Q].
        * intros [H|(k' & [H|H] & Q)]; [auto| |right; exists k'; auto]. left. subst k'. congruence.
      + assert (X' : ~ In g0 acc) by (rewrite <- existsb_z; congruence).
        destruct (IH (acc ++ [g0])) as (a & G & Gd & Gi); [intros; apply B; now right| |].
        { apply (Permutation_NoDup (l := g0 :: acc)); [apply Permutation_cons_append|now constructor]. }
        exists a. split; [exact G|]. split; [exact Gd|]. intros g. rewrite Gi, in_app_iff. cbn [In]. split.
        * intros [[H|[H|[]]]|(k' & H & Q)]; [auto| |right; exists k'; auto]. right. exists k. split; [now left|congruence].
        * intros [H|(k' & [H|H] & Q)]; [auto| |right; exists k'; auto]. subst k'. left. right. left. congruence.
  Qed.

  Lemma fill_ok ids (tbl : list (list nat)) : (forall q row k, nth_error tbl q = Some row -> In k row -> k < length ids) ->
    forall nodes acc, Forall (fun c => 1 <= c <= Z.of_nat (length tbl))%Z nodes -> NoDup acc ->
    exists acc', foldM (fun acc c => let? row := at_z tbl (c - 1)%Z in
        foldM (fun acc k => let? g := at_ub ids k in Ok (if existsb (Z.eqb g) acc then acc else acc ++ [g])) acc row) acc nodes = Ok acc' /\ NoDup acc' /\
      forall g, In g acc' <-> In g acc \/ exists c row k, In c nodes /\ nth_error tbl (Z.to_nat (c - 1)) = Some row /\ In k row /\ nth_error ids k = Some g.
  Proof.
    intros Bd. induction nodes as [|c nodes IH]; intros acc F D; cbn [foldM].
    - exists acc. split; [reflexivity|]. split; [exact D|]. intros g. split; [auto|]. intros [H|(c & row & k & [] & _)]. exact H.
    - inversion F as [|? ? Fc F2]; subst. unfold at_z at 1. destruct (Z.ltb_spec (c - 1) 0); [lia|].
      destruct (at_ok tbl (Z.to_nat (c - 1))) as (row & E & E'); [lia|]. rewrite E. cbn [bind].
      destruct (fill_row ids row acc) as (a1 & G1 & D1 & I1); [intros k K; now apply (Bd _ _ _ E')|exact D|]. rewrite G1. cbn [bind].
      destruct (IH a1 F2 D1) as (a2 & G2 & D2 & I2). exists a2. split; [exact G2|]. split; [exact D2|]. intros g. rewrite I2, I1. cbn [In]. split.
      + intros [[H0|(k & K & Q)]|(c' & row' & k & H0 & H1 & H2 & H3)]; [auto| |].
        * right. exists c, row, k. auto.
        * right. exists c', row', k. auto.
      + intros [H0|(c' & row' & k & [H0|H0] & H1 & H2 & H3)]; [auto| |right; exists c', row', k; auto].
        subst c'. left. right. exists k. rewrite E' in H1. injection H1 as <-. auto.
  Qed.

  Lemma name_sets_from ss : forall l1, NoDup (map set_name l1) ->
    match foldM (fun acc s => if existsb (fun e => String.eqb (fst e) (set_name s)) acc then Err
                        else Ok (acc ++ [(set_name s, ms_id s)])) (map (fun s => (set_name s, ms_id s)) l1) ss with
    | Ok l => l = map (fun s => (set_name s, ms_id s)) (l1 ++ ss) /\ NoDup (map set_name (l1 ++ ss))
    | Err => ~ NoDup (map set_name (l1 ++ ss))
    | UB => False
    end.
  Proof.
    induction ss as [|s ss IH]; intros l1 D; cbn [foldM].
    - rewrite app_nil_r. auto.
    - destruct (existsb _ _) eqn:X; cbn [bind].
      + apply existsb_name in X. rewrite map_map in X. cbn [fst] in X. rewrite map_app. cbn [map]. intros C. apply NoDup_remove_2 in C. apply C. apply in_or_app. now left.
      + assert (X' : ~ In (set_name s) (map set_name l1)).
        { intros C. enough (existsb (fun e : string * Z => String.eqb (fst e) (set_name s)) (map (fun s => (set_name s, ms_id s)) l1) = true) by congruence.
          apply existsb_name. now rewrite map_map. }
        specialize (IH (l1 ++ [s])). rewrite <- app_assoc in IH. cbn [app] in IH.
        replace (map (fun s => (set_name s, ms_id s)) l1 ++ [(set_name s, ms_id s)]) with (map (fun s => (set_name s, ms_id s)) (l1 ++ [s])) by (now rewrite map_app).
        apply IH. rewrite map_app. cbn [map]. apply (Permutation_NoDup (l := set_name s :: map set_name l1)); [apply Permutation_cons_append|now constructor].
  Qed.

  Lemma name_sets_spec ss : match name_sets ss with
    | Ok l => l = map (fun s => (set_name s, ms_id s)) ss /\ NoDup (map set_name ss)
    | Err => ~ NoDup (map set_name ss)
    | UB => False
    end.
  Proof. exact (name_sets_from ss [] (NoDup_nil _)). Qed.

  Lemma ids_spec m : match element_ids m with
    | Ok l => l = zero_based (numbers m) /\ (me_aux m = [] \/ exists l, me_aux m = [("original_global_id_map", l)])
    | Err => ~ (me_aux m = [] \/ exists l, me_aux m = [("original_global_id_map", l)])
    | UB => False
    end.
  Proof.
    unfold element_ids, numbers, zero_based. destruct (me_aux m) as [|(n & l) [|x t]].
    - auto.
    - destruct (String.eqb_spec n "original_global_id_map") as [->|Ne]; [eauto|]. intros [H|(l' & H)]; [discriminate|]. injection H as H _. auto.
    - intros [H|(l' & H)]; discriminate.
  Qed.

  Definition set_spec m (s : mset) (l : list Z) : Prop :=
    NoDup l /\ forall g, In g l <-> exists e b i k c, is_element m e b i /\ has_node b i k c /\ In c (ms_nodes s) /\ nth_error (zero_based (numbers m)) e = Some g.

  Lemma zero_length l : length (zero_based l) = length l. Proof. apply map_length. Qed.

  Lemma load_spec m : mesh_wf m ->
    match load_mesh m with
    | UB => False
    | Err => ~ readable m
    | Ok r => readable m /\ lo_ids r = zero_based (numbers m) /\ length (lo_points r) = length (numbers m) /\
        (forall e b i, is_element m e b i -> exists t p, of_type b t /\ nth_error (lo_points r) e = Some p /\ mp_block p = mb_id b /\ point_of m t b i (mp_x p) (mp_volume p)) /\
        lo_blocks r = block_rows (zero_based (numbers m)) [] (me_blocks m) /\
        Forall2 (fun s e => fst e = set_name s /\ set_spec m s (snd e)) (me_sets m) (lo_sets r) /\
        lo_set_ids r = map (fun s => (set_name s, ms_id s)) (me_sets m)
    end.
  Proof.
    intros W. pose proof W as (Nd & Len & Wb & Ws). unfold load_mesh. pose proof (ids_spec m) as Hid.
    destruct (element_ids m) as [ids| |]; cbn [bind]; [|intros (C & _); auto|exact Hid]. destruct Hid as (-> & Aux).
    pose proof (load_blocks m (zero_based (numbers m)) (zero_nodup _ Nd) (me_blocks m) [] {| ls_points := repeat mpoint0 (length (zero_based (numbers m))); ls_local := 0 |} [] Wb) as LB.
    rewrite zero_length in LB. specialize (LB ltac:(cbn [elements_in map list_sum fold_right]; rewrite Len; reflexivity) eq_refl (repeat_length _ _) eq_refl (NoDup_nil _)).
    rewrite zero_length. destruct (foldM (load_block _ _) _ (me_blocks m)) as [[st bl]| |]; cbn [bind]; [| |exact LB].
    2: { intros (_ & C1 & _ & C2). apply LB. split; [exact C1|]. intros b i B I. apply in_split in B as (l1 & l2 & B).
         destruct (C2 (elements_in l1 + i) b i) as (t & x & v & O & P); [exists l1, l2; auto|]. exists t, (x, v). split; [exact O|].
         apply val_spec; auto. rewrite Forall_forall in Wb. apply Wb. rewrite B. apply in_elt. }
    destruct LB as (A1 & A2 & A3 & _ & A5).
    destruct (table_ok m W) as (tbl & T & Tl & Tr). rewrite T. cbn [bind].
    pose proof (name_sets_spec (me_sets m)) as NS. destruct (name_sets (me_sets m)) as [nm| |]; cbn [bind]; [|intros (_ & _ & C & _); auto|exact NS]. destruct NS as (-> & NS).
    assert (FS : forall s, In s (me_sets m) -> exists l, fill_set (zero_based (numbers m)) tbl s = Ok l /\ set_spec m s l).
    { intros s S. unfold fill_set. destruct (fill_ok (zero_based (numbers m)) tbl) with (nodes := ms_nodes s) (acc := @nil Z) as (l & G & D & I).
      - intros q row k Q K. apply (Tr _ _ Q) in K as (b & i & k' & K & _). rewrite zero_length. now apply (element_bound m k b i).
      - rewrite Forall_forall in Ws. rewrite Tl. now apply Ws.
      - constructor.
      - exists l. split; [exact G|]. split; [exact D|]. intros g. rewrite I. cbn [In]. split.
        + intros [[]|(c & row & k & C & R & K & Q)]. apply (Tr _ _ R) in K as (b & i & k' & K & H).
          exists k, b, i, k', c. split; [exact K|]. split; [|auto].
          rewrite Forall_forall in Ws. specialize (Ws s S). rewrite Forall_forall in Ws. specialize (Ws c C). unfold in_file in Ws. now replace c with (Z.of_nat (Z.to_nat (c - 1)) + 1)%Z by lia.
        + intros (e & b & i & k & c & K & H & C & Q). right. rewrite Forall_forall in Ws. specialize (Ws s S). rewrite Forall_forall in Ws. specialize (Ws c C). unfold in_file in Ws.
          destruct (at_ok tbl (Z.to_nat (c - 1))) as (row & _ & R); [lia|]. exists c, row, e. split; [exact C|]. split; [exact R|]. split; [|exact Q].
          apply (Tr _ _ R). exists b, i, k. split; [exact K|]. now replace (Z.of_nat (Z.to_nat (c - 1)) + 1)%Z with c by lia. }
    destruct (mapO_spec (fun s => let? l := fill_set (zero_based (numbers m)) tbl s in Ok (set_name s, l)) (me_sets m)) as (sets & E & F).
    { intros s S. destruct (FS s S) as (l & -> & _). cbn [bind]. eauto. }
    rewrite E. cbn [bind lo_ids lo_points lo_blocks lo_sets lo_set_ids fst snd].
    assert (PP : forall e b i, is_element m e b i -> exists t p, of_type b t /\ nth_error (ls_points st) e = Some p /\ mp_block p = mb_id b /\ point_of m t b i (mp_x p) (mp_volume p)).
    { intros e b i (l1 & l2 & B & I & ->). destruct (A5 l1 b l2 i B I) as (t & xv & O & V & Q). exists t, (made b xv). split; [exact O|]. split; [exact Q|]. split; [reflexivity|].
      cbn [made mp_x mp_volume]. apply val_spec; auto; [|now destruct xv]. rewrite Forall_forall in Wb. apply Wb. rewrite B. apply in_elt. }
    split; [|split; [reflexivity|split; [exact A1|split; [exact PP|split; [exact A2|split; [|reflexivity]]]]]].
    - split; [exact Aux|]. split; [exact A3|]. split; [exact NS|]. intros e b i X. destruct (PP e b i X) as (t & p & O & _ & _ & P). eauto.
    - clear - F FS. revert FS. induction F as [|s e ss es H F IH]; intros FS; constructor; [|apply IH; intros; apply FS; now right].
      destruct (FS s (or_introl eq_refl)) as (l & G & Sp). rewrite G in H. cbn [bind] in H. injection H as <-. auto.
  Qed.
End Mesh.
