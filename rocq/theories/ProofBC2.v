(** * Proofs for constrained rows *)
From Coq Require Import String Reals Lra Psatz Permutation.
From Verif Require Import Base Num SpecGlobal ProofGlobal ModelScalar ModelInput ModelBC SpecBC ProofBC.

(** ** The map of unknowns *)
Lemma seq_pos n a k : k < n -> pos (map (fun j => a + j) (seq 0 n)) (a + k) = Some k.
Proof.
  intros H. assert (G : forall b, b <= k -> k < b + (n - b) -> pos (map (fun j => a + j) (seq b (n - b))) (a + k) = Some (k - b)).
  { intros b Hb. remember (n - b) as m eqn:E. clear E. revert b Hb. induction m as [|m IH]; intros b Hb Hk; [lia|].
    cbn [seq map pos]. destruct (Nat.eqb_spec (a + b) (a + k)) as [X|X]; [f_equal; lia|].
    rewrite IH by lia. cbn [option_map]. f_equal. lia. }
  specialize (G 0). rewrite !Nat.sub_0_r in G. apply G; lia.
Qed.
Lemma seq_pos_none n a b r : (r < a \/ a + n <= r) -> pos (map (fun j => a + j) (seq b (n - b))) r = None.
Proof.
  intros H. destruct (pos _ r) as [i|] eqn:E; [|reflexivity]. apply pos_some_in, in_map_iff in E. destruct E as (j & <- & Hj).
  apply in_seq in Hj. lia.
Qed.
Lemma pos_app m1 m2 g : pos (m1 ++ m2) g = match pos m1 g with Some i => Some i | None => option_map (Nat.add (length m1)) (pos m2 g) end.
Proof.
  induction m1 as [|h t IH]; cbn [app pos]; [destruct (pos m2 g); reflexivity|].
  destruct (Nat.eqb h g); [reflexivity|]. rewrite IH. destruct (pos t g); [reflexivity|]. cbn [option_map length]. now destruct (pos m2 g).
Qed.
Lemma dof_map_pos d gids g k : k < n_total d ->
  pos (dof_map d gids) (n_total d * g + k) = option_map (fun i => i * n_total d + k) (pos gids g).
Proof.
  intros Hk. unfold dof_map. induction gids as [|h t IH]; [reflexivity|]. cbn [map concat]. rewrite pos_app.
  cbn [pos]. destruct (Nat.eqb_spec h g) as [->|X].
  - rewrite (seq_pos (n_total d) (n_total d * g) k Hk). reflexivity.
  - pose proof (seq_pos_none (n_total d) (n_total d * h) 0 (n_total d * g + k)) as Q. rewrite Nat.sub_0_r in Q. rewrite Q.
    + rewrite IH. rewrite map_length, seq_length. destruct (pos t g); cbn [option_map]; [f_equal; lia|reflexivity].
    + destruct (lt_eq_lt_dec h g) as [[L|E]|L]; [right|easy|left]; nia.
Qed.
Lemma dof_map_length d gids : length (dof_map d gids) = length gids * n_total d.
Proof. unfold dof_map. induction gids as [|h t IH]; [reflexivity|]. cbn [map concat length]. rewrite app_length, map_length, seq_length, IH. lia. Qed.
Lemma dof_map_in d gids r : In r (dof_map d gids) -> exists g k, In g gids /\ k < n_total d /\ r = n_total d * g + k.
Proof.
  unfold dof_map. intros H. apply in_concat in H. destruct H as (l & Hl & H). apply in_map_iff in Hl. destruct Hl as (g & <- & Hg).
  apply in_map_iff in H. destruct H as (k & <- & Hk). apply in_seq in Hk. exists g, k. repeat split; auto; lia.
Qed.

(** Row offsets *)
Lemma row_offset_spec p d t : row_offset p d t = match fixes t with Some u => if solved_for p u then Some (dof_offset d u) else None | None => None end.
Proof. destruct t; reflexivity. Qed.
Lemma offset_fits p u c : solved_for p u = true -> c < match u with UDisp => 3 | _ => 1 end ->
  dof_offset (dofs_initialize dofs_init p) u + c < n_total (dofs_initialize dofs_init p).
Proof. destruct p as [[] [] [] []], u; cbn; intros H Hc; try discriminate H; lia. Qed.

Section Residual.
  Context {N : Num}.
  Variables (p : physics) (sets : string -> option (list nat)) (gids : list nat).
  Notation d := (dofs_initialize dofs_init p).
  Notation rows := (dof_map d gids).

  Lemma zero_node (v : list N) off coord g v' : off + coord < n_total d -> length v = length rows ->
    match pos rows (n_total d * g) with None => Ok v | Some l => upd_ub v (l + off + coord) (ofZ 0) end = Ok v' ->
    length v' = length rows /\ forall r, vec_entry rows v' r = if Nat.eqb r (n_total d * g + off + coord) then option_map (fun _ => ofZ 0) (vec_entry rows v r) else vec_entry rows v r.
  Proof.
    intros Ho Lv H. assert (P0 : pos rows (n_total d * g) = option_map (fun i => i * n_total d) (pos gids g)).
    { rewrite <- (Nat.add_0_r (n_total d * g)) at 1. rewrite dof_map_pos by lia. destruct (pos gids g); [cbn; f_equal; lia|reflexivity]. }
    rewrite P0 in H. destruct (pos gids g) as [i|] eqn:E; cbn [option_map] in H.
    - apply upd_ub_spec in H. destruct H as [Lv' H]. split; [congruence|]. intros r. unfold vec_entry.
      assert (Pr : pos rows (n_total d * g + off + coord) = Some (i * n_total d + off + coord)).
      { rewrite <- Nat.add_assoc, dof_map_pos by exact Ho. rewrite E. cbn. f_equal. lia. }
      destruct (Nat.eqb_spec r (n_total d * g + off + coord)) as [->|X].
      + rewrite Pr, H, Nat.eqb_refl. destruct (nth_error v _) eqn:Q; [reflexivity|]. exfalso. apply nth_error_None in Q. apply pos_lt in Pr. lia.
      + destruct (pos rows r) as [j|] eqn:Ej; [|reflexivity]. rewrite H.
        destruct (Nat.eqb_spec (i * n_total d + off + coord) j) as [<-|]; [|reflexivity]. exfalso. apply X. eapply pos_inj; eassumption.
    - injection H as <-. split; [exact Lv|]. intros r. destruct (Nat.eqb_spec r (n_total d * g + off + coord)) as [->|X]; [|reflexivity].
      unfold vec_entry. rewrite <- Nat.add_assoc, dof_map_pos by exact Ho. rewrite E. reflexivity.
  Qed.
  Lemma zero_nodes off coord nodes : off + coord < n_total d -> forall v v' : list N, length v = length rows ->
    foldM (fun v g => match pos rows (n_total d * g) with None => Ok v | Some l => upd_ub v (l + off + coord) (ofZ 0) end) v nodes = Ok v' ->
    length v' = length rows /\
    forall r, vec_entry rows v' r = if existsb (Nat.eqb r) (map (fun g => n_total d * g + off + coord) nodes)
                                    then option_map (fun _ => ofZ 0) (vec_entry rows v r) else vec_entry rows v r.
  Proof.
    intros Ho. induction nodes as [|g t IH]; intros v v' Lv H; cbn [foldM] in H.
    - injection H as <-. split; [exact Lv|]. easy.
    - match type of H with bind ?e _ = _ => destruct e as [v1| |] eqn:E; cbn [bind] in H; try discriminate end.
      destruct (zero_node _ _ _ _ _ Ho Lv E) as (L1 & A). destruct (IH _ _ L1 H) as (L2 & B). split; [exact L2|].
      intros r. rewrite B, A. cbn [map existsb]. destruct (Nat.eqb r _), (existsb _ _), (vec_entry rows v r); reflexivity.
  Qed.
  Definition ids_of (d : dofs) (c : cond N) : list nat :=
    match row_offset p d (cd_type c), sets (cd_set c) with
    | Some off, Some nodes => map (fun g => n_total d * g + off + cd_coord c) nodes
    | _, _ => []
    end.
  Lemma in_ids dd bcs r : In r (concat (map (ids_of dd) bcs)) <-> constrained p dd sets bcs r.
  Proof.
    split.
    - intros H. apply in_concat in H. destruct H as (l & Hl & H). apply in_map_iff in Hl. destruct Hl as (c & <- & Hc).
      unfold ids_of in H. rewrite row_offset_spec in H. destruct (fixes (cd_type c)) as [u|] eqn:E; [|easy].
      destruct (solved_for p u) eqn:S; [|easy]. destruct (sets (cd_set c)) as [nodes|] eqn:E2; [|easy]. apply in_map_iff in H.
      destruct H as (g & <- & Hg). exists c, u, nodes, g. repeat split; auto.
    - intros (c & u & nodes & g & H1 & H2 & H3 & H4 & H5 & ->). apply in_concat. exists (ids_of dd c). split; [now apply in_map|].
      unfold ids_of. rewrite row_offset_spec, H2, H3, H4. apply in_map_iff. exists g. split; [reflexivity|exact H5].
  Qed.
  Lemma insert_zeros_spec bcs : Forall proper bcs -> forall v v' : list N, length v = length rows ->
    insert_zeros p d rows sets bcs v = Ok v' ->
    length v' = length rows /\
    forall r, vec_entry rows v' r = if existsb (Nat.eqb r) (concat (map (ids_of d) bcs))
                                    then option_map (fun _ => ofZ 0) (vec_entry rows v r) else vec_entry rows v r.
  Proof.
    intros F. induction F as [|c t F0 F IH]; intros v v' Lv H; unfold insert_zeros in H; cbn [foldM] in H.
    - injection H as <-. easy.
    - match type of H with bind ?e _ = _ => destruct e as [v1| |] eqn:E; cbn [bind] in H; try discriminate end.
      assert (A : length v1 = length rows /\ forall r, vec_entry rows v1 r = if existsb (Nat.eqb r) (ids_of d c)
                                    then option_map (fun _ => ofZ 0) (vec_entry rows v r) else vec_entry rows v r).
      { unfold ids_of. rewrite row_offset_spec in *. destruct (fixes (cd_type c)) as [u|] eqn:Fx; [|injection E as <-; easy].
        destruct (solved_for p u) eqn:S; [|injection E as <-; easy]. destruct (sets (cd_set c)) as [nodes|]; [|discriminate].
        apply (zero_nodes _ _ _ (offset_fits p u (cd_coord c) S (F0 u Fx)) v v1 Lv E). }
      destruct A as (L1 & A). destruct (IH v1 v' L1 H) as (L2 & B). split; [exact L2|].
      intros r. rewrite B, A. cbn [map concat]. rewrite existsb_app.
      destruct (existsb _ (ids_of d c)), (existsb _ _), (vec_entry rows v r); reflexivity.
  Qed.
  Lemma insert_zeros_ok bcs (v : list N) : Forall proper bcs -> length v = length rows ->
    (forall c, In c bcs -> sets (cd_set c) <> None) -> exists v', insert_zeros p d rows sets bcs v = Ok v'.
  Proof.
    intros F. revert v. induction F as [|c t F0 F IH]; intros v Lv H; unfold insert_zeros; cbn [foldM]; [eauto|].
    match goal with |- exists v', bind ?e _ = _ => assert (A : exists v1, e = Ok v1 /\ length v1 = length rows) end.
    { rewrite row_offset_spec. destruct (fixes (cd_type c)) as [u|] eqn:Fx; [|eauto]. destruct (solved_for p u) eqn:S; [|eauto].
      destruct (sets (cd_set c)) as [nodes|] eqn:E; [|exfalso; apply (H c); [now left|exact E]].
      pose proof (offset_fits p u (cd_coord c) S (F0 u Fx)) as Ho.
      clear E. revert v Lv. induction nodes as [|g r IHn]; intros v Lv; [cbn; eauto|]. cbn [foldM].
      match goal with |- exists v', bind ?e _ = _ /\ _ => assert (A : exists v1, e = Ok v1) end.
      { rewrite <- (Nat.add_0_r (n_total d * g)). rewrite dof_map_pos by lia. destruct (pos gids g) as [i|] eqn:E; cbn [option_map]; [|eauto].
        apply upd_ub_ok. rewrite Lv, dof_map_length. apply pos_lt in E. nia. }
      destruct A as (v1 & A). rewrite A. cbn [bind]. apply IHn. eapply zero_node in A; [apply A|exact Ho|exact Lv]. }
    destruct A as (v1 & -> & L1). cbn [bind]. apply IH; [exact L1|]. intros; apply H; now right.
  Qed.
End Residual.

(** ** The matrix *)
Section Matrix.
  Context {N : Num}.
  Definition look (row : list (nat * N)) (j : nat) : N :=
    match find (fun e => Nat.eqb (fst e) j) row with Some e => snd e | None => ofZ 0 end.
  Definition has (row : list (nat * N)) (j : nat) : bool := existsb (fun e => Nat.eqb (fst e) j) row.

  Lemma zero_look cols row j : look (zero_columns cols row) j = if existsb (Nat.eqb j) cols then ofZ 0 else look row j.
  Proof.
    unfold look, zero_columns. induction row as [|e t IH]; [now destruct (existsb _ _)|]. cbn [map find].
    destruct (existsb (Nat.eqb (fst e)) cols) eqn:E; cbn [fst].
    - destruct (Nat.eqb_spec (fst e) j) as [<-|]; [now rewrite E|exact IH].
    - destruct (Nat.eqb_spec (fst e) j) as [<-|]; [now rewrite E|exact IH].
  Qed.
  Lemma zero_has cols row j : has (zero_columns cols row) j = has row j.
  Proof. unfold has, zero_columns. induction row as [|e t IH]; [reflexivity|]. cbn [map existsb]. rewrite IH. now destruct (existsb (Nat.eqb (fst e)) cols). Qed.
  Lemma set_look c (de : N) row j : look (set_row c de row) j = if has row j then (if (match c with Some k => Nat.eqb j k | None => false end) then de else ofZ 0) else ofZ 0.
  Proof.
    unfold look, set_row, has. induction row as [|e t IH]; [reflexivity|]. cbn [map find existsb fst].
    destruct (Nat.eqb_spec (fst e) j) as [<-|]; [reflexivity|]. exact IH.
  Qed.
  Lemma set_has c (de : N) row j : has (set_row c de row) j = has row j.
  Proof. unfold has, set_row. induction row as [|e t IH]; [reflexivity|]. cbn [map existsb fst]. now rewrite IH. Qed.
  Lemma has_in row j : has row j = true <-> exists v, In (j, v) row.
  Proof.
    unfold has. rewrite existsb_exists. split.
    - intros ((j', v) & H & E). apply Nat.eqb_eq in E. cbn in E. subst. eauto.
    - intros (v & H). exists (j, v). split; [exact H|]. apply Nat.eqb_refl.
  Qed.
  (** Entry and pattern of a matrix by row *)
  Definition hasb (m : rows_of N) (r c : nat) : bool :=
    match pos (mt_rows m) r, pos (mt_cols m) c with
    | Some i, Some j => match nth_error (mt_vals m) i with Some row => has row j | None => false end
    | _, _ => false
    end.
  Lemma hasb_stored m r c : hasb m r c = true <-> stored m r c.
  Proof.
    unfold hasb, stored. split.
    - destruct (pos (mt_rows m) r) as [i|]; [|discriminate]. destruct (pos (mt_cols m) c) as [j|]; [|discriminate].
      destruct (nth_error (mt_vals m) i) as [row|] eqn:E; [|discriminate]. intros H. apply has_in in H. destruct H as (v & H). exists i, j, row, v. auto.
    - intros (i & j & row & v & -> & -> & -> & H). apply has_in. eauto.
  Qed.
  Lemma entry_unstored (m : rows_of N) r c : hasb m r c = false -> entry m r c = ofZ 0.
  Proof.
    unfold hasb, entry. destruct (pos (mt_rows m) r) as [i|]; [|reflexivity]. destruct (pos (mt_cols m) c) as [j|]; [|reflexivity].
    destruct (nth_error (mt_vals m) i) as [row|]; [|reflexivity]. unfold has. induction row as [|e t IH]; [reflexivity|]. cbn [existsb find].
    intros H. apply orb_false_iff in H. destruct H as [H1 H2]. rewrite H1. auto.
  Qed.

  (** The loop over the rows *)
  Lemma set_rows_spec (rows cols : list nat) (de : N) ids : forall vals vals',
    foldM (fun vals g => match pos rows g with None => Ok vals
             | Some r => let? row := at_ub vals r in upd_ub vals r (set_row (pos cols g) de row) end) vals ids = Ok vals' ->
    length vals' = length vals /\
    forall r i row, pos rows r = Some i -> nth_error vals i = Some row ->
      exists row', nth_error vals' i = Some row' /\ (forall j, has row' j = has row j) /\
        (existsb (Nat.eqb r) ids = false -> row' = row) /\
        (existsb (Nat.eqb r) ids = true -> forall j, look row' j = if has row j then (if (match pos cols r with Some k => Nat.eqb j k | None => false end) then de else ofZ 0) else ofZ 0).
  Proof.
    induction ids as [|g t IH]; intros vals vals' H; cbn [foldM] in H.
    - injection H as <-. split; [reflexivity|]. intros r i row _ E. exists row. split; [exact E|]. split; [easy|]. split; [easy|discriminate].
    - match type of H with bind ?e _ = _ => destruct e as [v1| |] eqn:E; cbn [bind] in H; try discriminate end.
      destruct (IH _ _ H) as (L & B).
      destruct (pos rows g) as [r0|] eqn:P0.
      2:{ injection E as <-. split; [exact L|]. intros r i row Pr Nr. destruct (B r i row Pr Nr) as (row' & B1 & B2 & B3 & B4).
          exists row'. split; [exact B1|]. split; [exact B2|]. cbn [existsb].
          destruct (Nat.eqb_spec r g) as [->|]; [congruence|]. cbn [orb]. auto. }
      unfold at_ub in E. destruct (nth_error vals r0) as [row0|] eqn:N0; cbn [bind] in E; [|discriminate].
      apply upd_ub_spec in E. destruct E as (L1 & U). split; [congruence|].
      intros r i row Pr Nr. cbn [existsb]. destruct (Nat.eqb_spec r g) as [->|X].
      + assert (i = r0) by congruence. subst i. assert (row0 = row) by congruence. subst row0.
        destruct (B g r0 (set_row (pos cols g) de row) Pr) as (row' & B1 & B2 & B3 & B4); [now rewrite U, Nat.eqb_refl|].
        exists row'. split; [exact B1|]. split; [intros j; now rewrite B2, set_has|]. split; [discriminate|]. intros _ j.
        destruct (existsb (Nat.eqb g) t) eqn:Q.
        * rewrite B4 by reflexivity. now rewrite set_has.
        * rewrite B3 by reflexivity. apply set_look.
      + assert (i <> r0) by (intros ->; apply X; eapply pos_inj; eassumption).
        destruct (B r i row Pr) as (row' & B1 & B2 & B3 & B4).
        { rewrite U. destruct (Nat.eqb_spec r0 i); [congruence|exact Nr]. }
        exists row'. cbn [orb]. auto.
  Qed.

  Lemma col_in cols ids c j : pos cols c = Some j ->
    existsb (Nat.eqb j) (concat (map (fun g => match pos cols g with Some k => [k] | None => [] end) ids)) = existsb (Nat.eqb c) ids.
  Proof.
    intros P. induction ids as [|g t IH]; [reflexivity|]. cbn [map concat existsb]. rewrite existsb_app, IH. f_equal.
    destruct (pos cols g) as [k|] eqn:E; cbn [existsb].
    - rewrite orb_false_r. destruct (Nat.eqb_spec j k) as [->|X], (Nat.eqb_spec c g) as [->|Y]; try reflexivity; [|congruence].
      exfalso. apply Y. eapply pos_inj; eassumption.
    - destruct (Nat.eqb_spec c g) as [->|]; [congruence|reflexivity].
  Qed.

  Lemma constrain_spec ids (de : N) m m' : constrain ids de m = Ok m' -> length (mt_vals m) = length (mt_rows m) ->
    mt_rows m' = mt_rows m /\ mt_cols m' = mt_cols m /\ length (mt_vals m') = length (mt_rows m') /\
    (forall r c, hasb m' r c = hasb m r c) /\
    (forall r c, entry m' r c = if existsb (Nat.eqb r) ids then (if hasb m r c && Nat.eqb c r then de else ofZ 0)
                                else if existsb (Nat.eqb c) ids then ofZ 0 else entry m r c).
  Proof.
    unfold constrain. intros H Lm. destruct (Nat.ltb _ _); [discriminate|].
    match type of H with bind ?e _ = _ => destruct e as [v1| |] eqn:E; cbn [bind] in H; try discriminate end. injection H as <-.
    apply set_rows_spec in E. destruct E as (L & B). rewrite map_length in L. cbn [mt_rows mt_cols mt_vals].
    split; [reflexivity|]. split; [reflexivity|]. split; [congruence|].
    assert (Q : forall r i, pos (mt_rows m) r = Some i -> exists row row', nth_error (mt_vals m) i = Some row /\ nth_error v1 i = Some row' /\
       (forall j, has row' j = has row j) /\
       forall c j, pos (mt_cols m) c = Some j -> look row' j = if existsb (Nat.eqb r) ids then (if has row j && Nat.eqb c r then de else ofZ 0)
                                else if existsb (Nat.eqb c) ids then ofZ 0 else look row j).
    { intros r i Pr. destruct (nth_error (mt_vals m) i) as [row|] eqn:Nr; [|apply nth_error_None in Nr; apply pos_lt in Pr; lia].
      match type of B with context [zero_columns ?k] => remember k as cols eqn:Ec end.
      destruct (B r i (zero_columns cols row) Pr) as (row' & B1 & B2 & B3 & B4).
      { rewrite nth_error_map, Nr. reflexivity. }
      exists row, row'. split; [reflexivity|]. split; [exact B1|]. split; [intros; now rewrite B2, zero_has|].
      intros c j Pc. destruct (existsb (Nat.eqb r) ids) eqn:Er.
      - rewrite B4 by reflexivity. rewrite zero_has. destruct (has row j); cbn [andb]; [|reflexivity].
        destruct (Nat.eqb_spec c r) as [->|X]; [rewrite Pc, Nat.eqb_refl; reflexivity|].
        destruct (pos (mt_cols m) r) as [k|] eqn:Pk; [|reflexivity]. destruct (Nat.eqb_spec j k) as [->|]; [|reflexivity].
        exfalso. apply X. eapply pos_inj; eassumption.
      - rewrite B3 by reflexivity. rewrite zero_look. subst cols. now rewrite (col_in _ _ _ _ Pc). }
    split.
    - intros r c. unfold hasb. cbn [mt_rows mt_cols mt_vals]. destruct (pos (mt_rows m) r) as [i|] eqn:Pr; [|reflexivity].
      destruct (Q _ _ Pr) as (row & row' & -> & -> & Q3 & _). destruct (pos (mt_cols m) c); [apply Q3|reflexivity].
    - intros r c. unfold entry, hasb. cbn [mt_rows mt_cols mt_vals]. destruct (pos (mt_rows m) r) as [i|] eqn:Pr.
      2:{ cbn [andb]. now destruct (existsb (Nat.eqb r) ids), (existsb (Nat.eqb c) ids). }
      destruct (Q _ _ Pr) as (row & row' & -> & -> & Q3 & Q4). destruct (pos (mt_cols m) c) as [j|] eqn:Pc.
      + exact (Q4 _ _ Pc).
      + cbn [andb]. now destruct (existsb (Nat.eqb r) ids), (existsb (Nat.eqb c) ids).
  Qed.

  Lemma constrain_all_spec p d sets bcs (de : N) : forall m m', constrain_all p d sets bcs de m = Ok m' -> length (mt_vals m) = length (mt_rows m) ->
    mt_rows m' = mt_rows m /\ mt_cols m' = mt_cols m /\ length (mt_vals m') = length (mt_rows m') /\
    (forall r c, hasb m' r c = hasb m r c) /\
    (forall r c, entry m' r c = if existsb (Nat.eqb r) (concat (map (ids_of p sets d) bcs)) then (if hasb m r c && Nat.eqb c r then de else ofZ 0)
                                else if existsb (Nat.eqb c) (concat (map (ids_of p sets d) bcs)) then ofZ 0 else entry m r c).
  Proof.
    induction bcs as [|c t IH]; intros m m' H Lm; unfold constrain_all in H; cbn [foldM] in H.
    - injection H as <-. repeat split; auto.
    - match type of H with bind ?e _ = _ => destruct e as [m1| |] eqn:E; cbn [bind] in H; try discriminate end.
      assert (A : mt_rows m1 = mt_rows m /\ mt_cols m1 = mt_cols m /\ length (mt_vals m1) = length (mt_rows m1) /\
        (forall r c, hasb m1 r c = hasb m r c) /\
        (forall r k, entry m1 r k = if existsb (Nat.eqb r) (ids_of p sets d c) then (if hasb m r k && Nat.eqb k r then de else ofZ 0)
                                else if existsb (Nat.eqb k) (ids_of p sets d c) then ofZ 0 else entry m r k)).
      { unfold ids_of. destruct (row_offset p d (cd_type c)) as [off|]; [|injection E as <-; repeat split; auto].
        destruct (sets (cd_set c)) as [nodes|]; [|discriminate]. now apply constrain_spec. }
      destruct A as (A1 & A2 & A3 & A4 & A5). destruct (IH _ _ H A3) as (B1 & B2 & B3 & B4 & B5).
      split; [congruence|]. split; [congruence|]. split; [exact B3|]. split; [intros; now rewrite B4, A4|].
      intros r k. rewrite B5, A4, A5. cbn [map concat]. rewrite !existsb_app.
      destruct (existsb (Nat.eqb r) (concat _)) eqn:R1, (existsb (Nat.eqb r) (ids_of p sets d c)) eqn:R2; cbn [orb]; try reflexivity.
      + destruct (existsb (Nat.eqb k) (concat _)) eqn:K1; [|now destruct (existsb (Nat.eqb k) (ids_of p sets d c))].
        destruct (Nat.eqb_spec k r) as [->|]; [congruence|]. rewrite andb_false_r. now destruct (existsb (Nat.eqb k) (ids_of p sets d c)).
      + destruct (existsb (Nat.eqb k) (ids_of p sets d c)), (existsb (Nat.eqb k) (concat _)); reflexivity.
  Qed.
  Lemma existsb_in r l : existsb (Nat.eqb r) l = true <-> In r l.
  Proof.
    rewrite existsb_exists. split; [intros (x & H & E); apply Nat.eqb_eq in E; now subst|intros H; exists r; split; [exact H|apply Nat.eqb_refl]].
  Qed.
  Lemma existsb_nin r l : existsb (Nat.eqb r) l = false <-> ~ In r l.
  Proof. rewrite <- existsb_in. destruct (existsb _ _); split; intuition congruence. Qed.
End Matrix.

Lemma mapO_inv {A B} (f : A -> outcome B) l r : mapO f l = Ok r -> Forall2 (fun a b => f a = Ok b) l r.
Proof.
  revert r; induction l as [|a t IH]; intros r H; cbn [mapO] in H; [injection H as <-; constructor|].
  destruct (f a) eqn:E; cbn [bind] in H; try discriminate. destruct (mapO f t) eqn:E2; cbn [bind] in H; try discriminate. injection H as <-.
  constructor; auto.
Qed.
Lemma Forall2_nth {A B} (P : A -> B -> Prop) l m : Forall2 P l m -> forall k a, nth_error l k = Some a -> exists b, nth_error m k = Some b /\ P a b.
Proof. induction 1 as [|a b l m H F IH]; intros [|k] a0 E; try discriminate; [injection E as <-; exists b; auto|]. now apply IH. Qed.

Lemma cull_in owned nodes g : In g (cull owned nodes) <-> In g nodes /\ In g owned.
Proof.
  unfold cull. rewrite filter_In. split; intros [H1 H2]; (split; [exact H1|]).
  - destruct (pos owned g) eqn:E; [|discriminate]. now apply pos_some_in in E.
  - destruct (pos_in _ _ H2) as (i & ->). reflexivity.
Qed.
Lemma culled_constrained {N : Num} p d global sets owned (bcs : list (cond N)) r : d = dofs_initialize dofs_init p -> Forall proper bcs ->
  (forall n, sets n = option_map (cull owned) (global n)) ->
  (constrained p d sets bcs r <-> constrained p d global bcs r /\ In r (dof_map d owned)).
Proof.
  intros Ed F H. rewrite Forall_forall in F. split.
  - intros (c & u & nodes & g & H1 & H2 & H3 & H4 & H5 & ->). rewrite H in H4. destruct (global (cd_set c)) as [nd|] eqn:E; [|discriminate].
    injection H4 as <-. apply cull_in in H5. destruct H5 as [H5 H6]. split; [exists c, u, nd, g; auto 10|].
    pose proof (offset_fits p u (cd_coord c) H3 (F c H1 u H2)) as Ho. rewrite <- Ed in Ho.
    unfold dof_row. destruct (pos_in _ _ H6) as (i & Hi).
    apply pos_some_in with (i := i * n_total d + (dof_offset d u + cd_coord c)). rewrite <- Nat.add_assoc, dof_map_pos by exact Ho. now rewrite Hi.
  - intros ((c & u & nodes & g & H1 & H2 & H3 & H4 & H5 & ->) & I). exists c, u, (cull owned nodes), g. repeat split; auto; [now rewrite H, H4|].
    apply cull_in. split; [exact H5|].
    pose proof (offset_fits p u (cd_coord c) H3 (F c H1 u H2)) as Ho. rewrite <- Ed in Ho.
    apply pos_in in I. destruct I as (i & I). unfold dof_row in I. rewrite <- Nat.add_assoc, dof_map_pos in I by exact Ho.
    destruct (pos owned g) eqn:E; [|discriminate]. now apply pos_some_in in E.
Qed.
Lemma made_proper {N : Num} (show : N -> string) ps cs : add_all show ps = Ok cs -> Forall proper (cs_boundary cs).
Proof.
  intros A. apply add_all_spec in A. destruct A as ((E & G) & _). rewrite E. apply Forall_forall. intros c Hc.
  apply in_concat in Hc. destruct Hc as (l & Hl & Hc). apply in_map_iff in Hl. destruct Hl as (p & <- & Hp).
  unfold made in Hc. apply in_map_iff in Hc. destruct Hc as (tk & <- & Ht). rewrite Forall_forall in G.
  destruct (G p Hp) as (k & K1 & K2); [intros X; now rewrite X in Ht|]. intros u Hu. unfold mk in *. cbn [cd_type cd_coord] in *.
  unfold comp0. rewrite K1. specialize (K2 tk Ht). destruct (bp_type p); cbn in Ht, Hu; try discriminate; injection Hu as <-;
    repeat (destruct Ht as [<-|Ht]; [cbn in K2; lia|]); easy.
Qed.
Lemma constrained_dec {N : Num} p d sets (bcs : list (cond N)) r : {constrained p d sets bcs r} + {~ constrained p d sets bcs r}.
Proof.
  destruct (in_dec Nat.eq_dec r (concat (map (ids_of p sets d) bcs))) as [H|H]; [left|right]; now rewrite <- in_ids.
Qed.

Section Solve.
  Local Open Scope R_scope.
  Lemma Rsum_single l r (F : nat -> R) : NoDup l -> In r l -> (forall c, In c l -> c <> r -> F c = 0) -> Rsum (map F l) = F r.
  Proof.
    intros ND. induction ND as [|a t Ha ND IH]; [easy|]. intros [->|I] Z; cbn [map]; rewrite Rsum_cons.
    - assert (Q : Rsum (map F t) = 0).
      { clear IH. induction t as [|b t IHt]; [reflexivity|]. cbn [map]. rewrite Rsum_cons, (Z b).
        - rewrite IHt; [lra| | |]; [intros X; apply Ha; now right|now inversion ND|]. intros c [->|Hc]; apply Z; [now left|right; now right].
        - right; now left. - intros ->. apply Ha. now left. }
      rewrite Q. lra.
    - rewrite (Z a); [|now left|intros ->; easy]. rewrite IH; [lra|exact I|]. intros; apply Z; [now right|easy].
  Qed.
  Lemma Rsum_ext {A} (F G : A -> R) l : (forall a, In a l -> F a = G a) -> Rsum (map F l) = Rsum (map G l).
  Proof. intros H. f_equal. apply map_ext_in. exact H. Qed.
  Lemma Rsum_nonneg l : (forall a, In a l -> 0 <= a) -> 0 <= Rsum l.
  Proof. induction l as [|a t IH]; intros H; [rewrite Rsum_nil; lra|]. rewrite Rsum_cons. pose proof (H a (or_introl eq_refl)). assert (0 <= Rsum t) by (apply IH; intros; apply H; now right). lra. Qed.
  Lemma Rsum_pos l a : (forall a, In a l -> 0 <= a) -> In a l -> 0 < a -> 0 < Rsum l.
  Proof.
    induction l as [|b t IH]; intros H I P; [easy|]. destruct I as [<-|I]; rewrite Rsum_cons.
    - assert (0 <= Rsum t) by (apply Rsum_nonneg; intros; apply H; now right). lra.
    - assert (0 < Rsum t) by (apply IH; auto; intros; apply H; now right). pose proof (H b (or_introl eq_refl)). lra.
  Qed.
  Lemma abs_R (x : R) : abs (x : T RN) = Rabs x.
  Proof.
    unfold abs. cbn. destruct (Rltb x 0) eqn:E; [apply Rltb_true in E; rewrite Rabs_left; lra|]. apply Rltb_false in E. rewrite Rabs_right; lra.
  Qed.
  Lemma fold_add l : forall a : R, fold_left (add (n:=RN)) l (a : T RN) = a + Rsum l.
  Proof.
    induction l as [|b t IH]; intros a; [cbn; exact (eq_sym (Rplus_0_r _))|]. cbn [fold_left]. etransitivity; [exact (IH (a + b))|]. rewrite Rsum_cons. lra.
  Qed.
  (** The diagonal of a part *)
  Lemma diagonal_in (m : rows_of RN) r : length (mt_vals m) = length (mt_rows m) -> In r (mt_rows m) -> In (entry m r r) (diagonal m).
  Proof.
    intros L I. apply pos_in in I. destruct I as (i & Hi). unfold diagonal.
    destruct (nth_error (mt_vals m) i) as [row|] eqn:E; [|apply nth_error_None in E; apply pos_lt in Hi; lia].
    apply in_map_iff. exists (r, row). cbn [fst snd]. split.
    - unfold diag_of, entry. rewrite Hi, E. destruct (pos (mt_cols m) r); reflexivity.
    - apply pos_nth in Hi. revert Hi E. clear. revert i. generalize (mt_vals m). induction (mt_rows m) as [|h t IH]; intros v [|i] H1 H2; try discriminate.
      + destruct v; [discriminate|]. cbn in *. left. congruence.
      + destruct v; [discriminate|]. cbn [combine]. right. eapply IH; eassumption.
  Qed.
  Lemma diagonal_of_entry (m : rows_of RN) a : NoDup (mt_rows m) -> In a (diagonal m) -> exists r, In r (mt_rows m) /\ a = entry m r r.
  Proof.
    intros ND H. unfold diagonal in H. apply in_map_iff in H. destruct H as ((r, row) & <- & H). cbn [fst snd]. exists r.
    split; [now apply in_combine_l in H|]. apply In_nth_error in H. destruct H as (i & H).
    assert (X : nth_error (mt_rows m) i = Some r /\ nth_error (mt_vals m) i = Some row).
    { revert H. clear. revert i. generalize (mt_vals m). induction (mt_rows m) as [|h t IH]; intros v [|i] H; destruct v; try discriminate.
      - cbn in H. injection H as <- <-. auto. - cbn [combine nth_error] in *. now apply IH. }
    destruct X as [X1 X2]. assert (P : pos (mt_rows m) r = Some i).
    { destruct (pos_in (mt_rows m) r) as (j & Hj); [now apply nth_error_In in X1|]. rewrite Hj. f_equal. apply pos_nth in Hj.
      apply (proj1 (NoDup_nth_error _) ND); [apply nth_error_Some; congruence|congruence]. }
    unfold diag_of, entry. rewrite P, X2. destruct (pos (mt_cols m) r); reflexivity.
  Qed.
  Lemma de_value (w : list (rows_of RN)) : diagonal_entry w = - (Rsum (map Rabs (concat (map diagonal w)))) / INR (length (concat (map diagonal w))).
  Proof.
    unfold diagonal_entry. cbn. change (fold_left Rplus (map abs (concat (map diagonal w))) 0) with (fold_left (add (n:=RN)) (map abs (concat (map diagonal w))) (0 : T RN)).
    rewrite fold_add. rewrite <- INR_IZR_INZ. replace (map abs (concat (map diagonal w))) with (map Rabs (concat (map diagonal w))).
    - assert (Q : forall a b : R, - (1) * (0 + a) * b = - a * b) by (intros; ring). exact (Q _ _).
    - apply map_ext. intros a. symmetry. apply abs_R.
  Qed.
  Lemma de_nonzero (w : list (rows_of RN)) : (diagonal_entry w : R) <> 0 <-> exists a, In a (concat (map diagonal w)) /\ (a : R) <> 0.
  Proof.
    rewrite de_value. split.
    - intros H. destruct (Req_dec (Rsum (map Rabs (concat (map diagonal w)))) 0) as [Z|Z].
      + exfalso. apply H. rewrite Z. unfold Rdiv. lra.
      + revert Z. generalize (concat (map diagonal w)). intros l. induction l as [|a t IH]; [intros Z; now elim Z|].
        intros Z. destruct (Req_dec a 0) as [->|A]; [|exists a; split; [now left|exact A]].
        destruct IH as (b & B1 & B2); [|exists b; split; [now right|exact B2]]. intros Q. apply Z. cbn [map]. rewrite Rsum_cons, Q, Rabs_R0. lra.
    - intros (a & I & A) H.
      assert (P : 0 < Rsum (map Rabs (concat (map diagonal w)))).
      { apply Rsum_pos with (a := Rabs a); [|now apply in_map|now apply Rabs_pos_lt]. intros b Hb. apply in_map_iff in Hb. destruct Hb as (? & <- & _). apply Rabs_pos. }
      assert (L : 0 < INR (length (concat (map diagonal w)))).
      { apply lt_0_INR. destruct (concat (map diagonal w)); [easy|]. cbn. lia. }
      assert (0 < / INR (length (concat (map diagonal w)))) by now apply Rinv_0_lt_compat. unfold Rdiv in H. nra.
  Qed.
  Lemma de_neg (w : list (rows_of RN)) : (diagonal_entry w : R) <> 0 -> (diagonal_entry w : R) < 0.
  Proof.
    intros H. assert (Q : (diagonal_entry w : R) <= 0); [|lra]. rewrite de_value.
    assert (P : 0 <= Rsum (map Rabs (concat (map diagonal w)))).
    { apply Rsum_nonneg. intros b Hb. apply in_map_iff in Hb. destruct Hb as (? & <- & _). apply Rabs_pos. }
    destruct (Req_dec (INR (length (concat (map diagonal w)))) 0) as [Z|Z].
    - rewrite Z. unfold Rdiv. rewrite Rinv_0. lra.
    - assert (0 < / INR (length (concat (map diagonal w)))) by (apply Rinv_0_lt_compat; pose proof (pos_INR (length (concat (map diagonal w)))); lra).
      unfold Rdiv. nra.
  Qed.
End Solve.
