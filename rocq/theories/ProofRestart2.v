(** * Proofs about restart directories *)
From Coq Require Import String Ascii.
From Verif Require Import Base ModelScalar ModelCopy SpecCopy ModelMesh ProofMesh ModelRestart SpecRestart ProofRestart.
Local Open Scope list_scope.

Lemma mapO_snoc {A B} (f : A -> outcome B) l a r : mapO f (l ++ [a]) = Ok r -> exists r' b, mapO f l = Ok r' /\ f a = Ok b /\ r = r' ++ [b].
Proof.
  revert r. induction l as [|x l IH]; intros r H; cbn [app mapO] in *.
  - destruct (f a) as [b| |]; try discriminate. cbn in H. injection H as <-. exists [], b. auto.
  - destruct (f x) as [y| |]; try discriminate. cbn [bind] in *. destruct (mapO f (l ++ [a])) as [q| |]; try discriminate. cbn in H. injection H as <-.
    destruct (IH _ eq_refl) as (r' & b & -> & -> & ->). cbn. exists (y :: r'), b. auto.
Qed.

Section Dirs.
  Context {V : Type} {C : clock}.
  Notation content := (content V C).
  Notation files := (files V C).

  Definition put_file (l : list (string * content)) (e : string * content) : list (string * content) :=
    match find_file l (fst e) with None => l ++ [e] | Some _ => map (fun g => if String.eqb (fst g) (fst e) then e else g) l end.
  Lemma puts_nodup w : forall l, NoDup (map fst (l ++ w)) -> fold_left put_file w l = l ++ w.
  Proof.
    induction w as [|e w IH]; intros l D; cbn [fold_left]; [now rewrite app_nil_r|]. unfold put_file at 2. rewrite find_none.
    - rewrite IH by now rewrite <- app_assoc. now rewrite <- app_assoc.
    - rewrite map_app in D. cbn in D. apply NoDup_remove_2 in D. intros I. apply D, in_or_app. auto.
  Qed.
  Lemma find_dir_none (fs : files) p : ~ In p (map d_name fs) -> find_dir fs p = None.
  Proof. unfold find_dir. induction fs as [|d fs IH]; intros H; [reflexivity|]. cbn in *. destruct (String.eqb_spec (d_name d) p); [exfalso; auto|]. apply IH. auto. Qed.
  Lemma find_dir_some (fs : files) p : In p (map d_name fs) -> exists d, find_dir fs p = Some d.
  Proof. unfold find_dir. induction fs as [|d fs IH]; intros H; [destruct H|]. cbn in *. destruct (String.eqb_spec (d_name d) p); [eauto|]. apply IH. tauto. Qed.

  Lemma apply_puts p w : forall l (fs : files), ~ In p (map d_name fs) ->
    apply_ops ({| d_name := p; d_files := l |} :: fs) (map (fun e => Put p (fst e) (snd e)) w) = {| d_name := p; d_files := fold_left put_file w l |} :: fs.
  Proof.
    induction w as [|(f, c) w IH]; intros l fs H; [reflexivity|]. unfold apply_ops in *. cbn [map fold_left fst snd]. rewrite <- IH by exact H. f_equal.
    unfold apply_op, find_dir. cbn [find d_name]. rewrite String.eqb_refl. cbn [d_files]. unfold put_file. cbn [fst]. destruct (find_file l f) eqn:F.
    - cbn [map d_name]. rewrite String.eqb_refl. cbn [d_files]. f_equal. rewrite <- (map_id fs) at 2. apply map_ext_in. intros d D. destruct (String.eqb_spec (d_name d) p) as [E|_]; [|reflexivity].
      exfalso. apply H. rewrite <- E. now apply in_map.
    - f_equal. cbn [filter d_name]. rewrite String.eqb_refl. cbn [negb]. clear - H. induction fs as [|d fs IH]; [reflexivity|]. cbn in *. destruct (String.eqb_spec (d_name d) p) as [E|_]; [exfalso; auto|]. cbn. f_equal. apply IH. auto.
  Qed.
  Lemma apply_write p w (fs : files) : ~ In p (map d_name fs) ->
    apply_ops fs (MkDir p :: map (fun e => Put p (fst e) (snd e)) w) = {| d_name := p; d_files := fold_left put_file w [] |} :: fs.
  Proof. intros H. unfold apply_ops. cbn [fold_left apply_op]. rewrite find_dir_none by exact H. exact (apply_puts p w [] fs H). Qed.

  (** ** The directories of a history *)
  Definition down (n : nat) : list string := map (fun k => restart_name (N.of_nat k)) (rev (seq 1 n)).
  Lemma down_S n : down (S n) = restart_name (N.of_nat (S n)) :: down n.
  Proof. unfold down. rewrite seq_S, rev_app_distr. reflexivity. Qed.
  Lemma in_down p n : In p (down n) <-> exists k, 1 <= k <= n /\ p = restart_name (N.of_nat k).
  Proof.
    unfold down. rewrite in_map_iff. split.
    - intros (k & <- & K). apply in_rev in K. rewrite ?rev_involutive in K. apply in_seq in K. exists k. split; [lia|reflexivity].
    - intros (k & K & ->). exists k. split; [reflexivity|]. apply -> in_rev. apply in_seq. lia.
  Qed.
  Definition numbered (fs : files) (n : nat) : Prop := map d_name (filter is_restart fs) = down n.
  Lemma numbered_fresh (fs : files) n : numbered fs n -> ~ In (restart_name (N.of_nat (S n))) (map d_name fs).
  Proof.
    intros H I. apply in_map_iff in I. destruct I as (d & E & I). assert (J : In (restart_name (N.of_nat (S n))) (down n)).
    { rewrite <- H. rewrite <- E. apply in_map, filter_In. split; [exact I|]. unfold is_restart. rewrite E. reflexivity. }
    apply in_down in J. destruct J as (k & K & J). apply name_inj in J. lia.
  Qed.
  Lemma numbered_first (fs : files) n : numbered fs n -> (find_dir fs (restart_name 1) = None <-> n = 0).
  Proof.
    intros H. split.
    - intros F. destruct n as [|n]; [reflexivity|]. exfalso. destruct (find_dir_some fs (restart_name 1)) as (d & E); [|congruence].
      assert (J : In (restart_name 1) (down (S n))) by (apply in_down; exists 1; split; [lia|reflexivity]). rewrite <- H in J. apply in_map_iff in J. destruct J as (d & E & J). apply filter_In in J. rewrite <- E. apply in_map, J.
    - intros ->. apply find_dir_none. intros I. apply in_map_iff in I. destruct I as (d & E & I). assert (J : In d (filter is_restart fs)) by (apply filter_In; split; [exact I|]; unfold is_restart; rewrite E; reflexivity).
      unfold numbered in H. cbn in H. destruct (filter is_restart fs); [destruct J|discriminate].
  Qed.
  Lemma find_filter {A} (f : A -> bool) l : find f l = hd_error (filter f l).
  Proof. induction l as [|a l IH]; [reflexivity|]. cbn. destruct (f a); [reflexivity|exact IH]. Qed.
  Lemma numbered_latest (fs : files) n : numbered fs n -> n <> 0 -> exists d, find is_restart fs = Some d /\ d_name d = restart_name (N.of_nat n) /\ In d fs.
  Proof.
    intros H N. destruct n as [|n]; [contradiction|]. unfold numbered in H. rewrite down_S in H. destruct (filter is_restart fs) as [|d l] eqn:F; [discriminate|]. cbn in H. injection H as E _.
    exists d. split; [rewrite find_filter, F; reflexivity|]. split; [exact E|]. apply (filter_In is_restart). rewrite F. now left.
  Qed.

  Lemma initialize_path (fs : files) n fresh t p s b : numbered fs n -> initialize fs fresh t = Ok (p, s, b) -> p = restart_name (N.of_nat n) /\ (b = true <-> n <> 0).
  Proof.
    intros H I. unfold initialize in I. destruct (find_dir fs (restart_name 1)) as [d0|] eqn:F.
    - assert (N : n <> 0) by (intros N; apply (numbered_first fs n H) in N; congruence). destruct (numbered_latest fs n H N) as (d & E & Q & _). unfold is_restart in E. rewrite E in I.
      destruct (read_restart d fresh t) as [s'| |]; try discriminate. cbn in I. injection I as <- _ <-. tauto.
    - injection I as <- _ <-. apply (numbered_first fs n H) in F. subst n. split; [reflexivity|]. split; [discriminate|]. intros N; now contradict N.
  Qed.
  Lemma write_restart_shape p (s : run V C) i f p' t ops : write_restart p s i f = Ok (p', t, ops) ->
    p' = next_name p /\ t = advance C (now s) i f /\ exists l, restart_files s t = Ok l /\ ops = MkDir p' :: map (fun e => Put p' (fst e) (snd e)) l.
  Proof. unfold write_restart. intros H. destruct (restart_files s (advance C (now s) i f)) as [l| |] eqn:E; try discriminate. cbn [bind] in H. injection H as <- <- <-. split; [reflexivity|]. split; [reflexivity|]. exists l. auto. Qed.

  Definition latest_holds (fs : files) (p : string) (s : run V C) : Prop :=
    exists d l, find is_restart fs = Some d /\ d_name d = p /\ restart_files s (now s) = Ok l /\ d_files d = fold_left put_file l [].

  Lemma execute_inv solvers : forall (fs : files) n b (s : run V C) fs' p' s', numbered fs n -> execute_solvers fs (restart_name (N.of_nat n)) b s solvers = Ok (fs', p', s') ->
    numbered fs' (n + length solvers) /\ p' = restart_name (N.of_nat (n + length solvers)) /\ (forall d, In d fs -> In d fs') /\ (solvers <> [] -> latest_holds fs' p' s').
  Proof.
    induction solvers as [|((i, f), solve) solvers IH]; intros fs n b s fs' p' s' H E; cbn [execute_solvers] in E.
    - injection E as <- <- <-. cbn. rewrite Nat.add_0_r. split; [exact H|]. split; [reflexivity|]. split; [auto|]. intros Q. now contradict Q.
    - destruct (write_restart (restart_name (N.of_nat n)) (solve b s) i f) as [((p1, t), ops)| |] eqn:W; try discriminate. cbn [bind] in E.
      destruct (write_restart_shape _ _ _ _ _ _ _ W) as (P1 & Tt & l & L & O). rewrite next_of in P1. replace (N.of_nat n + 1)%N with (N.of_nat (S n)) in P1 by lia.
      subst ops. rewrite apply_write in E by (rewrite P1; now apply numbered_fresh).
      set (d := {| d_name := p1; d_files := fold_left put_file l [] |}) in *.
      assert (H1 : numbered (d :: fs) (S n)). { unfold numbered. cbn [filter]. replace (is_restart d) with true by (subst d; rewrite P1; reflexivity). cbn [map]. rewrite down_S, H. subst d. cbn. now rewrite P1. }
      rewrite P1 in E. pose proof E as E0. apply IH in E; [|exact H1]. destruct E as (A & B & D & F). cbn [length]. rewrite Nat.add_succ_r. split; [exact A|]. split; [exact B|]. split; [intros e I; apply D; now right|].
      intros _. destruct solvers as [|q solvers].
      + cbn in E0. injection E0 as <- <- <-. exists d, l. subst d. split; [cbn [find]; unfold is_restart at 1; cbn [d_name]; rewrite P1; reflexivity|]. split; [exact P1|]. split; [exact L|reflexivity].
      + apply F. discriminate.
  Qed.
  Lemma session_inv (fs : files) n fresh t solvers fs' p' s' : numbered fs n -> session fs fresh t solvers = Ok (fs', p', s') ->
    numbered fs' (n + length solvers) /\ p' = restart_name (N.of_nat (n + length solvers)) /\ (forall d, In d fs -> In d fs') /\ (solvers <> [] -> latest_holds fs' p' s').
  Proof.
    intros H S. unfold session in S. destruct (initialize fs fresh t) as [((p, s), b)| |] eqn:I; try discriminate. cbn [bind] in S. destruct (initialize_path _ _ _ _ _ _ _ H I) as (-> & _). eapply execute_inv; eassumption.
  Qed.
  Lemma none_numbered (fs : files) : forallb (fun d => negb (is_restart d)) fs = true -> numbered fs 0.
  Proof. unfold numbered. induction fs as [|d fs IH]; [reflexivity|]. cbn. destruct (is_restart d); [discriminate|]. exact IH. Qed.
  Lemma history_inv (fs : files) p s : history fs p s -> exists n, n <> 0 /\ numbered fs n /\ p = restart_name (N.of_nat n) /\ latest_holds fs p s.
  Proof.
    intros H. induction H as [fs fresh t solvers fs' p s Z Ns S|fs p s fresh t solvers fs' p' s' H IH Ns S].
    - destruct (session_inv fs 0 _ _ _ _ _ _ (none_numbered fs Z) S) as (A & B & _ & L). exists (length solvers). destruct solvers; [contradiction|]. split; [discriminate|]. auto.
    - destruct IH as (n & N & Hn & _ & _). destruct (session_inv fs n _ _ _ _ _ _ Hn S) as (A & B & _ & L). exists (n + length solvers). split; [lia|]. auto.
  Qed.

  (** ** Missing files *)
  Lemma read_multi_missing (l : list (string * content)) f mv : find_file l f = None -> read_multi l f None mv = UB.
  Proof. intros F. unfold read_multi, read_matrix. now rewrite F. Qed.
  Lemma read_points_missing (l : list (string * content)) b st : forall xs ys i w, write_points (V:=V) (C:=C) b st i xs = Ok w -> (forall f, In f (map fst w) -> find_file l f = None) -> Forall2 mv_alike xs ys ->
    (w = [] /\ read_points l b st i None ys = Ok (None, ys)) \/ (w <> [] /\ read_points l b st i None ys = UB).
  Proof.
    induction xs as [|x xs IH]; intros ys i w W F A; inversion A as [|? y ? ys' Xy A']; subst; cbn [write_points read_points] in *; [injection W as <-; auto|].
    destruct x as [x|], y as [y|]; try contradiction.
    - destruct (point_file b st i) as [f| |]; try discriminate. cbn [bind] in *. destruct (write_points b st (S i) xs) as [r| |]; try discriminate. cbn [bind] in W. injection W as <-. right. split; [discriminate|].
      rewrite read_multi_missing by (apply F; now left). reflexivity.
    - destruct (IH _ _ _ W F A') as [(-> & ->)|(N & ->)]; cbn; auto.
  Qed.
  Lemma read_state_missing (l : list (string * content)) b st (s fresh : cstate V) w : write_state (C:=C) b st s = Ok w -> (forall f, In f (map fst w) -> find_file l f = None) -> w <> [] -> state_alike s fresh ->
    read_state l b st fresh = UB.
  Proof.
    intros W F N (A & B). unfold write_state in W. destruct (write_points b st 0 (c_points s)) as [p| |] eqn:P; try discriminate. cbn [bind] in W. unfold read_state. destruct (c_bond s) as [x|], (c_bond fresh) as [y|]; try contradiction.
    - destruct (bond_file b st) as [f| |]; try discriminate. cbn [bind] in *. injection W as <-. rewrite map_app in F.
      destruct (read_points_missing l b st _ _ _ _ P (fun f I => F f (in_or_app _ _ _ (or_introl I))) A) as [(-> & ->)|(_ & ->)]; [|reflexivity]. cbn [bind fst]. rewrite read_multi_missing; [reflexivity|]. apply F, in_or_app. right. now left.
    - injection W as <-. destruct (read_points_missing l b st _ _ _ _ P F A) as [(-> & _)|(_ & ->)]; [contradiction|reflexivity].
  Qed.
End Dirs.
