(** * C74: restart files *)
From Coq Require Import String.
From Verif Require Import Base ModelScalar ModelCopy SpecCopy ModelMesh ModelRestart SpecRestart ProofRestart ProofRestart2.
Local Open Scope list_scope.

(** ** A new run finds the state with which the last session ended: the time, if it accepts it (see
    C47), all saved vectors and all two-step data of all blocks. *)
Theorem C74_resume V C (fs : files V C) p s fresh initial : history fs p s -> run_ok s -> run_alike s fresh ->
  same_time C (read_time C (Some (show_time C (now s)))) initial = true ->
  exists s', initialize fs fresh initial = Ok (p, s', true) /\ resumed s s' (read_time C (Some (show_time C (now s)))).
Proof.
  intros H K A T. destruct (history_inv fs p s H) as (n & N & Hn & -> & d & l & F & Dn & L & Df).
  rewrite puts_nodup in Df by (cbn [app]; exact (files_nodup _ _ _ K L)). cbn [app] in Df. rewrite <- Df in L.
  destruct (read_restart_ok d s fresh _ initial K A L T) as (s' & R & Q & _). exists s'. split; [|exact Q].
  unfold initialize. destruct (find_dir fs (restart_name 1)) eqn:F1; [|apply (numbered_first fs n Hn) in F1; contradiction]. unfold is_restart in F. rewrite F, R. cbn [bind]. now rewrite Dn.
Qed.
Print Assumptions C74_resume.

(** The solvers of the new session start from the state resumed. *)
Theorem C74_session V C (fs : files V C) p s fresh initial solvers fs' p' s' : history fs p s -> run_ok s -> run_alike s fresh ->
  same_time C (read_time C (Some (show_time C (now s)))) initial = true ->
  session fs fresh initial solvers = Ok (fs', p', s') ->
  exists s0, resumed s s0 (read_time C (Some (show_time C (now s)))) /\ s' = solved true solvers s0.
Proof.
  intros H K A T E. destruct (C74_resume V C fs p s fresh initial H K A T) as (s0 & I & Q). exists s0. split; [exact Q|].
  unfold session in E. rewrite I in E. cbn [bind] in E. clear - E. revert fs p s0 E.
  induction solvers as [|((i, f), solve) l IH]; intros fs p s0 E; [cbn in E; now injection E|]. cbn [execute_solvers] in E.
  destruct (write_restart p (solve true s0) i f) as [((p1, t), ops)| |] eqn:W; try discriminate. cbn [bind] in E. destruct (write_restart_shape _ _ _ _ _ _ _ W) as (_ & -> & _).
  now apply IH in E.
Qed.
Print Assumptions C74_session.

(** A new run that is to start at another time is refused. *)
Theorem C74_other_times V C (fs : files V C) p s fresh initial : history fs p s -> run_ok s ->
  same_time C (read_time C (Some (show_time C (now s)))) initial = false -> initialize fs fresh initial = Err.
Proof.
  intros H K T. destruct (history_inv fs p s H) as (n & N & Hn & -> & d & l & F & Dn & L & Df).
  rewrite puts_nodup in Df by (cbn [app]; exact (files_nodup _ _ _ K L)). cbn [app] in Df.
  unfold initialize. destruct (find_dir fs (restart_name 1)) eqn:F1; [|apply (numbered_first fs n Hn) in F1; contradiction]. unfold is_restart in F. rewrite F.
  unfold read_restart. rewrite Df. unfold restart_files in L. destruct (mapO write_block (block_data s)) as [b| |]; try discriminate. cbn [bind] in L. injection L as <-.
  cbn zeta. match goal with |- context [find_file ?l "currentTime.txt"] => change (find_file l "currentTime.txt") with (Some (CLine (V:=V) (C:=C) (show_time C (now s)))) end. cbv iota. rewrite T. reflexivity.
Qed.
Print Assumptions C74_other_times.

(** ** Every solver of every session writes a new directory, numbered in order, and leaves the earlier
    ones as they are. *)
Theorem C74_numbers V C (fs : files V C) p s fresh t solvers fs' p' s' : history fs p s -> session fs fresh t solvers = Ok (fs', p', s') ->
  exists n, p = restart_name (N.of_nat n) /\ p' = restart_name (N.of_nat (n + length solvers)) /\
    map d_name (filter is_restart fs') = map (fun k => restart_name (N.of_nat k)) (rev (seq 1 (n + length solvers))) /\
    (forall d, In d fs -> In d fs').
Proof.
  intros H S. destruct (history_inv fs p s H) as (n & N & Hn & -> & _). destruct (session_inv fs n _ _ _ _ _ _ Hn S) as (A & B & D & _). exists n. auto.
Qed.
Print Assumptions C74_numbers.
(** Different numbers have different names, and writing always succeeds if names are short. *)
Theorem C74_names n m : restart_name n = restart_name m -> n = m.
Proof. exact (name_inj n m). Qed.
Print Assumptions C74_names.
Theorem C74_writes V C path (s : run V C) i f : run_ok s -> exists ops, write_restart path s i f = Ok (next_name path, advance C (now s) i f, ops).
Proof. intros K. unfold write_restart. destruct (files_total s (advance C (now s) i f) K) as (l & ->). cbn. eauto. Qed.
Print Assumptions C74_writes.

(** ** Temperatures, flux divergences and the scratch vector of a resumed run are those of a fresh
    start, whatever they were. *)
Theorem C74_temperature_refuted V C (fs : files V C) fresh initial p s' b : initialize fs fresh initial = Ok (p, s', b) -> lost s' = lost fresh.
Proof.
  unfold initialize. destruct (find_dir fs (restart_name 1)); [|intros H; now injection H as _ <- _]. destruct (find _ fs) as [dd|]; [|discriminate].
  unfold read_restart. destruct (same_time C _ initial); [|discriminate]. destruct (read_vectors _ None (firstn 12 _)) as [a| |]; try discriminate. cbn [bind]. destruct (read_vectors _ None (skipn 12 _)) as [b0| |]; try discriminate. cbn [bind].
  destruct (a ++ b0) as [|? [|? [|? [|? [|? [|? [|? [|? [|? [|? [|? [|? [|? [|? [|? [|? ?]]]]]]]]]]]]]]]]; try discriminate.
  destruct (mapO _ (block_data fresh)) as [bl| |]; try discriminate. cbn [bind]. intros H. injection H as _ <- _. reflexivity.
Qed.
Print Assumptions C74_temperature_refuted.

(** ** A crash while a restart is written: the next run chooses the unfinished directory because it
    is the newest, and cannot start, although the complete one before it is still there.  So for
    every crash point from the creation of the directory to the first file of the last state. *)
Theorem C74_crash_refuted V C (fs : files V C) p s0 s i f p' t ops k bs b n q w fresh initial :
  history fs p s0 -> run_ok s -> write_restart p s i f = Ok (p', t, ops) ->
  block_data s = bs ++ [(b, (n, q))] -> write_state (C:=C) b "StateNP1" q = Ok w -> w <> [] ->
  1 <= k -> k + length w <= length ops -> run_alike s fresh ->
  forall r, initialize (apply_ops fs (firstn k ops)) fresh initial <> Ok r.
Proof.
  intros H K W B Wq Nw K1 K2 A r. destruct (history_inv fs p s0 H) as (m & M & Hm & -> & _).
  destruct (write_restart_shape _ _ _ _ _ _ _ W) as (P & Tt & l & L & ->). rewrite next_of in P. replace (N.of_nat m + 1)%N with (N.of_nat (S m)) in P by lia.
  destruct k as [|k]; [lia|]. cbn [firstn]. rewrite firstn_map. cbn [length] in K2. rewrite map_length in K2.
  rewrite apply_write by (rewrite P; now apply numbered_fresh).
  pose proof (files_nodup _ _ _ K L) as D. assert (Dk : NoDup (map fst (firstn k l))). { rewrite <- (firstn_skipn k l), map_app in D. revert D. generalize (map fst (firstn k l)) (map fst (skipn k l)). intros a c Q. induction a as [|x a IH]; [constructor|]. cbn in Q. inversion Q; subst. constructor; [intros I; apply H2, in_or_app; auto|auto]. }
  rewrite puts_nodup by exact Dk. cbn [app].
  unfold initialize. destruct (find_dir _ (restart_name 1)) as [d0|] eqn:F1; [|exfalso].
  2:{ destruct (find_dir_some ({| d_name := p'; d_files := firstn k l |} :: fs) (restart_name 1)) as (d1 & E1); [|congruence]. destruct (numbered_first fs m Hm) as [Q _]. destruct (find_dir fs (restart_name 1)) as [d1|] eqn:F2; [|exfalso; exact (M (Q eq_refl))].
      cbn [map]. right. unfold find_dir in F2. apply find_some in F2. destruct F2 as (I & E). apply String.eqb_eq in E. rewrite <- E. now apply in_map. }
  cbn [find d_name]. rewrite P. cbn [restart_name]. change (String.prefix "restart" (restart_name (N.of_nat (S m)))) with true. cbn iota.
  enough (R : forall x, read_restart {| d_name := restart_name (N.of_nat (S m)); d_files := firstn k l |} fresh initial <> Ok x).
  { destruct (read_restart _ fresh initial) as [x| |]; cbn; [exfalso; now apply (R x)|discriminate|discriminate]. }
  intros x R. unfold read_restart in R. cbn [d_files] in R. destruct (same_time C _ initial); [|discriminate]. destruct (read_vectors _ None (firstn 12 _)) as [va| |]; try discriminate. cbn [bind] in R. destruct (read_vectors _ None (skipn 12 _)) as [vb| |]; try discriminate. cbn [bind] in R.
  destruct (va ++ vb) as [|? [|? [|? [|? [|? [|? [|? [|? [|? [|? [|? [|? [|? [|? [|? [|? ?]]]]]]]]]]]]]]]]; try discriminate.
  destruct (mapO (read_block (firstn k l)) (block_data fresh)) as [bl| |] eqn:Mb; try discriminate.
  destruct A as (_ & Ab). rewrite B in Ab. apply Forall2_app_inv_l in Ab. destruct Ab as (f1 & f2 & _ & A2 & E). inversion A2 as [|? y ? ? Ay A3]; subst. inversion A3; subst. rewrite E in Mb.
  destruct (mapO_snoc _ _ _ _ Mb) as (? & bb & _ & Rb & _). destruct y as (b', (n', q')). destruct Ay as (Eb & _ & Aq). cbn in Eb, Aq. subst b'. unfold read_block in Rb. cbn [fst snd] in Rb.
  destruct (read_state (firstn k l) b "StateN" n') as [rn| |]; try discriminate. cbn [bind] in Rb. rewrite (read_state_missing _ b _ q q' w Wq) in Rb; [discriminate| |exact Nw|exact Aq].
  intros g G. apply find_none. destruct (files_shape _ _ _ L) as (bl0 & B0 & El). rewrite B in B0. destruct (mapO_snoc _ _ _ _ B0) as (bl1 & wb & _ & Wb & ->). unfold write_block in Wb. cbn [fst snd] in Wb.
  destruct (write_state b "StateN" n) as [wn| |]; try discriminate. cbn [bind] in Wb. rewrite Wq in Wb. cbn [bind] in Wb. injection Wb as <-.
  assert (El' : exists pre, l = pre ++ w). { rewrite El, concat_app. cbn [concat]. rewrite app_nil_r. eexists. rewrite !app_assoc. rewrite app_comm_cons. reflexivity. }
  destruct El' as (pre & ->). rewrite app_length in K2. assert (Kp : k <= length pre) by lia. rewrite firstn_app. replace (k - length pre) with 0 by lia. cbn [firstn]. rewrite app_nil_r.
  intros I. rewrite map_app in D. assert (Ip : In g (map fst pre)) by (rewrite <- firstn_map in I; rewrite <- (firstn_skipn k (map fst pre)); apply in_or_app; auto).
  clear - D Ip G. induction (map fst pre) as [|x a IH]; [destruct Ip|]. cbn in D. inversion D; subst. destruct Ip as [-> | Ip]; [apply H1, in_or_app; auto|auto].
Qed.
Print Assumptions C74_crash_refuted.

(** ** A file that is missing is not noticed: its vector gets the values of the one read before. *)
Lemma read_vectors_skip V C (l : list (string * content V C)) f v old todo : find_file l f = None -> length v = length old ->
  read_vectors l (Some v) ((f, old) :: todo) = (let? r := read_vectors l (Some v) todo in Ok (v :: r)).
Proof. intros F L. cbn [read_vectors]. unfold read_vector, read_matrix. rewrite F. rewrite (proj2 (Nat.ltb_ge _ _)) by lia. rewrite <- L, firstn_all. reflexivity. Qed.
Lemma read_vectors_step V C (l : list (string * content V C)) f ptr v old todo : find_file l f = Some (CMatrix [v]) -> length v = length old ->
  read_vectors l ptr ((f, old) :: todo) = (let? r := read_vectors l (Some v) todo in Ok (v :: r)).
Proof. intros F L. cbn [read_vectors]. unfold read_vector, read_matrix. rewrite F. cbn [forallb]. rewrite L, Nat.eqb_refl. cbn [andb]. rewrite L, (proj2 (Nat.ltb_ge _ _)) by lia. rewrite <- L, firstn_all. reflexivity. Qed.
Theorem C74_missing_refuted V C (s fresh : run V C) t l name initial : run_ok s -> run_alike s fresh -> restart_files s t = Ok l ->
  length (horizon (points1 s)) = length (blockIDs (points1 s)) -> same_time C (read_time C (Some (show_time C t))) initial = true ->
  exists s', read_restart {| d_name := name; d_files := filter (fun e => negb (String.eqb (fst e) "horizon.mat")) l |} fresh initial = Ok s' /\
    horizon (points1 s') = blockIDs (points1 s).
Proof.
  intros K (Le & A) F H T. pose proof (files_nodup _ _ _ K F) as D. destruct (files_shape _ _ _ F) as (bl & B & E).
  set (l' := filter _ l).
  assert (D' : NoDup (map fst l')). { subst l'. clear - D. induction l as [|e l IH]; [constructor|]. cbn in *. inversion D; subst. destruct (negb _); cbn; [constructor|]; auto. intros I. apply H1. apply in_map_iff in I. destruct I as (x & Ex & I). apply filter_In in I. rewrite <- Ex. apply in_map, I. }
  assert (Fi : forall f c, In (f, c) l -> f <> "horizon.mat"%string -> find_file l' f = Some c). { intros f c I N. apply find_in; [exact D'|]. apply filter_In. split; [exact I|]. cbn. destruct (String.eqb_spec f "horizon.mat"); [contradiction|reflexivity]. }
  assert (Fh : find_file l' "horizon.mat" = None). { apply find_none. intros I. apply in_map_iff in I. destruct I as (x & Ex & I). apply filter_In in I. destruct I as (_ & I). rewrite Ex, String.eqb_refl in I. discriminate. }
  assert (Fv : forall f v, In (f, v) (vectors1 (points1 s) ++ vectors3 (points3 s)) -> f <> "horizon.mat"%string -> find_file l' f = Some (CMatrix [v])).
  { intros f v I. apply Fi. rewrite E. right. apply in_or_app. left. apply in_map_iff. exists (f, v). auto. }
  unfold read_restart. cbn [d_files]. rewrite (Fi "currentTime.txt"%string (CLine (show_time C t))) by (try discriminate; rewrite E; now left). rewrite T.
  unfold saved in Le. cbn [map] in Le. injection Le as L1 L2 L3 L4 L5 L6 L7 L8 L9 L10 L11 L12 L13 L14 L15.
  assert (R1 : read_vectors l' None (firstn 12 (vectors1 (points1 fresh) ++ vectors3 (points3 fresh))) = Ok (blockIDs (points1 s) :: blockIDs (points1 s) :: map snd (skipn 2 (firstn 12 (vectors1 (points1 s) ++ vectors3 (points3 s)))))).
  { change (firstn 12 (vectors1 (points1 fresh) ++ vectors3 (points3 fresh))) with (("blockIDs.mat"%string, blockIDs (points1 fresh)) :: ("horizon.mat"%string, horizon (points1 fresh)) :: skipn 2 (firstn 12 (vectors1 (points1 fresh) ++ vectors3 (points3 fresh)))).
    rewrite (read_vectors_step V C l' "blockIDs.mat" None (blockIDs (points1 s))) by (first [assumption | apply Fv; [now left|discriminate]]).
    rewrite read_vectors_skip by (assumption || congruence).
    rewrite (read_vectors_ok l' (skipn 2 (firstn 12 (vectors1 (points1 s) ++ vectors3 (points3 s))))); [|reflexivity|cbn; repeat (f_equal; try assumption)|].
    - reflexivity.
    - intros f v I. apply Fv; [rewrite <- (firstn_skipn 12 (_ ++ _)); apply in_or_app; left; rewrite <- (firstn_skipn 2 (firstn 12 _)); apply in_or_app; auto|]. cbn in I. intros ->. repeat (destruct I as [I|I]; [discriminate|]). exact I. }
  rewrite R1. cbn [bind].
  rewrite (read_vectors_ok l' (skipn 12 (vectors1 (points1 s) ++ vectors3 (points3 s)))); [|reflexivity|cbn; repeat (f_equal; try assumption)|].
  2:{ intros f v I. apply Fv; [rewrite <- (firstn_skipn 12 (_ ++ _)); apply in_or_app; auto|]. cbn in I. intros ->. repeat (destruct I as [I|I]; [discriminate|]). exact I. }
  cbn [bind]. cbn [vectors1 vectors3 app firstn skipn map snd].
  rewrite (read_blocks_ok l' (block_data s) (block_data fresh) bl B); [|intros f c I|exact A].
  - cbn [bind]. eexists. split; [reflexivity|]. reflexivity.
  - apply Fi; [rewrite E; right; apply in_or_app; auto|]. intros ->. destruct K as (Dn & W).
    destruct (blocks_keys _ _ Dn (Forall_impl _ (fun b (q : (String.length (fst b) <= 32)%nat /\ _) => proj2 q) W) B) as (ks & Ek & _).
    assert (J : In "horizon.mat"%string (map fname ks)) by (rewrite <- Ek; apply in_map_iff; exists ("horizon.mat"%string, c); auto). apply in_map_iff in J. destruct J as (q & Eq & _). apply (other_not q). rewrite Eq. cbn. tauto.
Qed.
Print Assumptions C74_missing_refuted.

(** ** Block names of 33 characters or more overrun a buffer. *)
Lemma write_points_long V C b st : (49 <= String.length b + String.length st + 8)%nat -> forall l i, (exists mv, In (Some mv) l) -> write_points (V:=V) (C:=C) b st i l = UB.
Proof.
  intros B. induction l as [|[x|] l IH]; intros i (mv & I); cbn [write_points]; [destruct I| |].
  - unfold point_file, vector_name. rewrite !s_length. assert (P : 1 <= String.length (show_int (Z.of_nat i))). { unfold show_int. destruct (Z.to_int (Z.of_nat i)) as [u|u]; destruct u; cbn; lia. }
    destruct (Nat.ltb_spec (String.length b + (String.length st + (String.length "_Element" + String.length (show_int (Z.of_nat i))))) 50) as [K|_]; [cbn in K; lia|reflexivity].
  - apply IH. exists mv. destruct I as [I|I]; [discriminate|exact I].
Qed.
Lemma mapO_ub {A B} (f : A -> outcome B) l a : (forall x, f x <> Err) -> In a l -> f a = UB -> mapO f l = UB.
Proof.
  intros N I E. induction l as [|x l IH]; [destruct I|]. cbn [mapO]. destruct I as [-> | I]; [now rewrite E|]. destruct (f x) eqn:F; [|exfalso; now apply (N x)|reflexivity]. cbn. now rewrite IH.
Qed.
Lemma write_state_ne V C b st s : write_state (V:=V) (C:=C) b st s <> Err.
Proof.
  unfold write_state. assert (P : forall l i, write_points (V:=V) (C:=C) b st i l <> Err). { induction l as [|[x|] l IH]; intros i; cbn [write_points]; [discriminate| |apply IH]. unfold point_file, vector_name. destruct (_ <? _)%nat; [|discriminate]. cbn [bind]. specialize (IH (S i)). destruct (write_points b st (S i) l); cbn; congruence. }
  specialize (P (c_points s) 0). destruct (write_points b st 0 (c_points s)); cbn; try congruence. destruct (c_bond s); [|discriminate]. unfold bond_file, vector_name. destruct (_ <? _)%nat; discriminate.
Qed.
Lemma write_block_ne V C x : write_block (V:=V) (C:=C) x <> Err.
Proof.
  unfold write_block. pose proof (write_state_ne V C (fst x) "StateN" (fst (snd x))) as A. destruct (write_state (fst x) "StateN" _); cbn; try congruence.
  pose proof (write_state_ne V C (fst x) "StateNP1" (snd (snd x))) as B. destruct (write_state (fst x) "StateNP1" _); cbn; congruence.
Qed.
Theorem C74_long_names_refuted V C path (s : run V C) i f b n q mv : In (b, (n, q)) (block_data s) -> In (Some mv) (c_points q) -> (33 <= String.length b)%nat ->
  write_restart path s i f = UB.
Proof.
  intros I Q B. unfold write_restart, restart_files. rewrite (mapO_ub _ _ _ (write_block_ne V C) I); [reflexivity|].
  unfold write_block. cbn [fst snd]. pose proof (write_state_ne V C b "StateN" n) as E. destruct (write_state b "StateN" n); cbn; [|congruence|reflexivity].
  unfold write_state. rewrite write_points_long; [reflexivity|cbn; lia|eauto].
Qed.
Print Assumptions C74_long_names_refuted.

(** ** A concrete run: two points, one block, two sessions; the crash before the very last file
    makes the bond data a copy of the point data, unnoticed. *)
Definition tick : clock := {| time := nat; line := nat; advance := fun c i f => c + (f - i); show_time := fun t => t; read_time := fun o => match o with Some t => t | None => 0 end; same_time := Nat.eqb |}.
Definition ex_state (k : nat) : cstate nat :=
  CState [Some (MV [(0%Z, 1); (1%Z, 1)] [[k; k + 1]]); None; None; None; None; None; None; None; None] (Some (MV [(0%Z, 1); (1%Z, 1)] [[k + 7; k + 8]])).
Definition ex_run (k : nat) : run nat tick :=
  {| now := 0 : time tick; points1 := {| blockIDs := [1; 1]; horizon := [3; 3]; volume := [1; 1]; density := [2; 2]; temperature := [k; k]; deltaTemperature := [0; 0]; fluxDivergence := [k; 0]; concentrationFluxDivergence := [0; 0]; scalarScratch := [0; 0] |};
     points3 := {| vec_x := [0; 0; 0; 1; 0; 0]; vec_u := [k; 0; 0; k; 0; 0]; vec_y := [k; 0; 0; k; 0; 0]; vec_v := [k; 0; 0; k; 0; 0]; vec_a := [0; 0; 0; 0; 0; 0]; force := [0; 0; 0; 0; 0; 0]; contactForce := [0; 0; 0; 0; 0; 0];
                   externalForce := [0; 0; 0; 0; 0; 0]; deltaU := [0; 0; 0; 0; 0; 0]; scratch := [0; 0; 0; 0; 0; 0] |};
     block_data := [("block_1"%string, (ex_state k, ex_state (k + 20)))] |}.
Definition ex_solver : time tick * time tick * (bool -> run nat tick -> run nat tick) :=
  ((0, 5) : time tick * time tick, fun _ s => {| now := now s; points1 := points1 (ex_run 4); points3 := points3 (ex_run 4); block_data := block_data (ex_run 4) |}).
Lemma ex_ok k t : run_ok (C:=tick) {| now := t; points1 := points1 (ex_run k); points3 := points3 (ex_run k); block_data := block_data (ex_run k) |}.
Proof. split; [repeat constructor; cbn; tauto|]. repeat constructor; cbn; lia. Qed.
Lemma ex_alike k m t : run_alike (C:=tick) {| now := t; points1 := points1 (ex_run k); points3 := points3 (ex_run k); block_data := block_data (ex_run k) |} (ex_run m).
Proof.
  split; [reflexivity|]. constructor; [|constructor]. split; [reflexivity|].
  split; split; cbn; try (repeat (constructor; [exact I|]); constructor); repeat (constructor; cbn); try (intros [? | []]; discriminate); try (intros []); lia.
Qed.
Example C74_history : exists fs s, history (C:=tick) fs (restart_name 2) s /\ run_ok s /\ run_alike s (ex_run 0) /\ saved s = saved (ex_run 4) /\ now s = 10 /\
  same_time tick (read_time tick (Some (show_time tick (now s)))) 10 = true.
Proof.
  do 2 eexists. split; [apply (first_session [] (ex_run 0) (0 : time tick) [ex_solver; ex_solver]); [reflexivity|discriminate|vm_compute; reflexivity]|].
  split; [apply (ex_ok 4)|]. split; [apply (ex_alike 4 0)|]. auto.
Qed.
Theorem C74_silent_refuted : exists fs ops (s fresh s' : run nat tick), history (C:=tick) fs (restart_name 1) s /\ run_ok s /\ run_alike s fresh /\
  write_restart (restart_name 1) s 5 9 = Ok (restart_name 2, 9, ops) /\
  initialize (apply_ops fs (firstn (length ops - 1) ops)) fresh 9 = Ok (restart_name 2, s', true) /\ block_data s' <> block_data s.
Proof.
  do 2 eexists. exists {| now := 5 : time tick; points1 := points1 (ex_run 4); points3 := points3 (ex_run 4); block_data := block_data (ex_run 4) |}, (ex_run 0). eexists.
  split; [apply (first_session [] (ex_run 0) (0 : time tick) [ex_solver]); [reflexivity|discriminate|vm_compute; reflexivity]|].
  split; [apply (ex_ok 4)|]. split; [apply (ex_alike 4 0)|]. split; [vm_compute; reflexivity|]. split; [vm_compute; reflexivity|]. vm_compute. discriminate.
Qed.
Print Assumptions C74_silent_refuted.
