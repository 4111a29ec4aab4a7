(** * Proofs about restart files *)
From Coq Require Import String Ascii DecimalString Decimal DecimalN DecimalFacts DecimalPos.
From Verif Require Import Base ModelScalar ModelCopy SpecCopy ProofCopy ModelMesh ProofMesh ModelRestart SpecRestart.
Local Open Scope list_scope.

(** ** Names *)
Lemma s_assoc (a b c : string) : ((a ++ b) ++ c = a ++ b ++ c)%string.
Proof. induction a; cbn; congruence. Qed.
Lemma s_length (a b : string) : String.length (a ++ b)%string = (String.length a + String.length b)%nat.
Proof. induction a; cbn; congruence. Qed.
Lemma s_cancel (a s a' s' : string) : (a ++ s = a' ++ s')%string -> String.length s = String.length s' -> a = a' /\ s = s'.
Proof.
  revert a'. induction a as [|c a IH]; intros [|c' a'] E L; cbn in E.
  - auto.
  - exfalso. subst s. cbn in L. rewrite s_length in L. lia.
  - exfalso. subst s'. cbn in L. rewrite s_length in L. lia.
  - injection E as -> E. destruct (IH _ E L) as [-> ->]. auto.
Qed.
Lemma s_head (p a b : string) : (p ++ a = p ++ b)%string -> a = b.
Proof. induction p; cbn; intros E; [exact E|]. injection E as E. auto. Qed.

Definition key := option nat.
Definition sfile (b st : string) (k : key) : string :=
  match k with
  | Some i => ("pointData_" ++ (b ++ st ++ "_Element" ++ show_int (Z.of_nat i)) ++ ".mat")%string
  | None => ("BondData_" ++ (b ++ st) ++ ".mat")%string
  end.
Definition small (k : key) : Prop := match k with Some i => (i < 9)%nat | None => True end.
Definition step_name (st : string) : Prop := st = "StateN"%string \/ st = "StateNP1"%string.

Lemma digit_inj i j : (i < 9)%nat -> (j < 9)%nat -> show_int (Z.of_nat i) = show_int (Z.of_nat j) -> i = j.
Proof. intros I J. do 9 (destruct i as [|i]; [do 9 (destruct j as [|j]; [try reflexivity; cbn; discriminate|]); lia|]). lia. Qed.
Lemma digit_length i : (i < 9)%nat -> String.length (show_int (Z.of_nat i)) = 1%nat.
Proof. intros I. do 9 (destruct i as [|i]; [reflexivity|]). lia. Qed.

Lemma sfile_inj b st k b' st' k' : step_name st -> step_name st' -> small k -> small k' -> sfile b st k = sfile b' st' k' -> b = b' /\ st = st' /\ k = k'.
Proof.
  intros S S' K K' E. destruct k as [i|], k' as [j|]; cbn [sfile] in E; try discriminate.
  - apply (s_head "pointData_"%string) in E.
    apply s_cancel in E; [|reflexivity]. destruct E as [E _]. cbn in K, K'.
    assert (L : String.length (show_int (Z.of_nat i)) = String.length (show_int (Z.of_nat j))) by now rewrite !digit_length.
    destruct S as [-> | ->], S' as [-> | ->].
    + apply s_cancel in E; [|cbn; rewrite L; reflexivity]. destruct E as [-> E]. cbn in E. injection E as E. assert (Q : i = j) by (apply digit_inj; assumption). subst. auto.
    + exfalso. change (b ++ "StateN" ++ "_Element" ++ show_int (Z.of_nat i))%string with (b ++ "State" ++ ("N_Element" ++ show_int (Z.of_nat i)))%string in E.
      change (b' ++ "StateNP1" ++ "_Element" ++ show_int (Z.of_nat j))%string with (b' ++ "StateNP" ++ ("1_Element" ++ show_int (Z.of_nat j)))%string in E.
      rewrite <- (s_assoc b), <- (s_assoc b') in E. apply s_cancel in E; [|cbn; rewrite L; reflexivity]. destruct E as [_ E]. discriminate.
    + exfalso. change (b ++ "StateNP1" ++ "_Element" ++ show_int (Z.of_nat i))%string with (b ++ "StateNP" ++ ("1_Element" ++ show_int (Z.of_nat i)))%string in E.
      change (b' ++ "StateN" ++ "_Element" ++ show_int (Z.of_nat j))%string with (b' ++ "State" ++ ("N_Element" ++ show_int (Z.of_nat j)))%string in E.
      rewrite <- (s_assoc b), <- (s_assoc b') in E. apply s_cancel in E; [|cbn; rewrite L; reflexivity]. destruct E as [_ E]. discriminate.
    + apply s_cancel in E; [|cbn; rewrite L; reflexivity]. destruct E as [-> E]. cbn in E. injection E as E. assert (Q : i = j) by (apply digit_inj; assumption). subst. auto.
  - apply (s_head "BondData_"%string) in E.
    apply s_cancel in E; [|reflexivity]. destruct E as [E _]. destruct S as [-> | ->], S' as [-> | ->].
    + apply s_cancel in E; [|reflexivity]. destruct E as [-> _]. auto.
    + exfalso. change (b ++ "StateN")%string with (b ++ "State" ++ "N")%string in E. change (b' ++ "StateNP1")%string with (b' ++ "StateNP" ++ "1")%string in E.
      rewrite <- (s_assoc b), <- (s_assoc b') in E. apply s_cancel in E; [|reflexivity]. destruct E as [_ E]. discriminate.
    + exfalso. change (b ++ "StateNP1")%string with (b ++ "StateNP" ++ "1")%string in E. change (b' ++ "StateN")%string with (b' ++ "State" ++ "N")%string in E.
      rewrite <- (s_assoc b), <- (s_assoc b') in E. apply s_cancel in E; [|reflexivity]. destruct E as [_ E]. discriminate.
    + apply s_cancel in E; [|reflexivity]. destruct E as [-> _]. auto.
Qed.

(** Numbers of directories *)
Lemma digits_all d : digits_of (NilEmpty.string_of_uint d) = NilEmpty.string_of_uint d.
Proof. induction d; cbn; try rewrite IHd; reflexivity. Qed.
Lemma first_all d : first_numbers (NilEmpty.string_of_uint d) = NilEmpty.string_of_uint d.
Proof. destruct d; cbn; try rewrite digits_all; reflexivity. Qed.
Lemma of_zeros k d : N.of_uint (zeros k d) = N.of_uint d.
Proof. induction k; cbn; [reflexivity|]. exact IHk. Qed.
Lemma number_name n : number_of (restart_name n) = n.
Proof.
  unfold number_of, restart_name. change (first_numbers ("restart-" ++ NilEmpty.string_of_uint (pad6 n))%string) with (first_numbers (NilEmpty.string_of_uint (pad6 n))).
  rewrite first_all, NilEmpty.usu. unfold pad6. rewrite of_zeros. apply DecimalN.Unsigned.of_to.
Qed.
Lemma name_inj n m : restart_name n = restart_name m -> n = m.
Proof. intros E. rewrite <- (number_name n), <- (number_name m). now rewrite E. Qed.
Lemma next_of n : next_name (restart_name n) = restart_name (n + 1).
Proof. unfold next_name. now rewrite number_name. Qed.

(** ** Same data read back *)
Lemma values_ext {V} (m : bmap) : NoDup (gids m) -> forall (a b : list V), fits m a -> fits m b ->
  (forall g, In g (gids m) -> values_of m a g = values_of m b g) -> a = b.
Proof.
  unfold fits. induction m as [|(h, n) m IH]; intros D a b A B H; cbn in A, B.
  - destruct a, b; try discriminate; reflexivity.
  - inversion D as [|? ? Hh D']; subst. pose proof (H h (or_introl eq_refl)) as E. cbn in E. rewrite Z.eqb_refl in E. injection E as E.
    rewrite <- (firstn_skipn n a), <- (firstn_skipn n b), E. f_equal. apply IH; auto; try (rewrite skipn_length; lia).
    intros g G. specialize (H g (or_intror G)). cbn in H. destruct (Z.eqb_spec h g) as [->|_]; [contradiction|exact H].
Qed.
Lemma copy_same {V} (a b : multivec V) : well_formed a -> well_formed b -> mv_map a = mv_map b -> length (mv_vecs a) = length (mv_vecs b) ->
  copyMultiVector (MV (mv_map b) (mv_vecs a)) b = Ok a.
Proof.
  intros A B M L. rewrite <- M. replace (MV (mv_map a) (mv_vecs a)) with a by now destruct a.
  destruct (copyMulti_ok a b A B) as (r & E & Rm & Rw & Rl & Rv); [unfold covers; rewrite M; auto|exact L|]. rewrite E. f_equal.
  destruct r as [rm rv], a as [am av]. cbn in *. subst rm. rewrite M. f_equal.
  apply nth_ext with (d := []) (d' := []); [exact Rl|]. intros i I.
  destruct Rw as [Nd Rf], A as [_ Af]. cbn in *. rewrite Forall_forall in Rf, Af.
  pose proof (nth_error_nth' rv [] I) as Ei. assert (I' : i < length av) by lia. pose proof (nth_error_nth' av [] I') as Ai.
  apply (values_ext (mv_map b) Nd).
  - apply Rf, nth_In, I.
  - rewrite <- M. apply Af, nth_In, I'.
  - intros g G. destruct (Rv i _ _ g Ai Ei G) as (vals & X & Y). rewrite Y. rewrite <- X. now rewrite M.
Qed.

Section Files.
  Context {V : Type} {C : clock}.
  Notation content := (content V C).

  Lemma find_in (l : list (string * content)) f c : NoDup (map fst l) -> In (f, c) l -> find_file l f = Some c.
  Proof.
    unfold find_file. induction l as [|(g, d) l IH]; intros D I; [destruct I|]. cbn in *. inversion D as [|? ? Hn D']; subst. destruct I as [E|I].
    - injection E as -> ->. now rewrite String.eqb_refl.
    - destruct (String.eqb_spec g f) as [->|_]; [|auto]. exfalso. apply Hn. apply in_map_iff. exists (f, c). auto.
  Qed.
  Lemma find_none (l : list (string * content)) f : ~ In f (map fst l) -> find_file l f = None.
  Proof.
    unfold find_file. induction l as [|(g, d) l IH]; intros H; [reflexivity|]. cbn in *. destruct (String.eqb_spec g f) as [->|_]; [exfalso; auto|]. apply IH. auto.
  Qed.

  (** What is written for a state *)
  Lemma point_file_ok b st i f : point_file b st i = Ok f -> f = sfile b st (Some i).
  Proof. unfold point_file, vector_name. destruct (_ <? _)%nat; cbn; [intros H; injection H as <-; reflexivity|discriminate]. Qed.
  Lemma bond_file_ok b st f : bond_file b st = Ok f -> f = sfile b st None.
  Proof. unfold bond_file, vector_name. destruct (_ <? _)%nat; cbn; [intros H; injection H as <-; reflexivity|discriminate]. Qed.

  Lemma write_points_keys b st l : forall i w, write_points (V:=V) (C:=C) b st i l = Ok w ->
    exists ks, map fst w = map (fun k => sfile b st (Some k)) ks /\ NoDup ks /\ (forall k, In k ks -> i <= k < i + length l).
  Proof.
    induction l as [|[mv|] l IH]; intros i w H; cbn [write_points] in H.
    - injection H as <-. exists []. split; [reflexivity|]. split; [constructor|]. intros k [].
    - destruct (point_file b st i) as [f| |] eqn:F; try discriminate. cbn [bind] in H. destruct (write_points b st (S i) l) as [r| |] eqn:R; try discriminate. cbn [bind] in H. injection H as <-.
      destruct (IH _ _ R) as (ks & E & D & B). exists (i :: ks). apply point_file_ok in F. cbn. rewrite E, F. split; [reflexivity|]. split.
      + constructor; [intros I; specialize (B _ I); lia|exact D].
      + intros k [<-|I]; [lia|]. specialize (B _ I). lia.
    - destruct (IH _ _ H) as (ks & E & D & B). exists ks. split; [exact E|]. split; [exact D|]. intros k I. specialize (B _ I). cbn. lia.
  Qed.
  Lemma nodup_map {A B} (f : A -> B) l : (forall x y, In x l -> In y l -> f x = f y -> x = y) -> NoDup l -> NoDup (map f l).
  Proof.
    intros F D. induction D as [|a l Ha D IH]; cbn; constructor.
    - intros I. apply in_map_iff in I. destruct I as (x & E & I). apply Ha. rewrite <- (F x a); cbn; auto.
    - apply IH. intros x y X Y. apply F; cbn; auto.
  Qed.
  Lemma nodup_app {A} (l r : list A) : NoDup l -> NoDup r -> (forall x, In x l -> ~ In x r) -> NoDup (l ++ r).
  Proof. intros L R. induction L as [|a l Ha L IH]; intros H; cbn; [exact R|]. constructor; [rewrite in_app_iff; intros [I|I]; [auto|apply (H a); cbn; auto]|]. apply IH. intros x X. apply H. now right. Qed.
  Lemma write_state_keys b st s w : step_name st -> length (c_points s) = 9 -> write_state (V:=V) (C:=C) b st s = Ok w ->
    exists ks, map fst w = map (sfile b st) ks /\ NoDup ks /\ Forall small ks.
  Proof.
    intros St L H. unfold write_state in H. destruct (write_points b st 0 (c_points s)) as [p| |] eqn:P; try discriminate. cbn [bind] in H.
    destruct (write_points_keys _ _ _ _ _ P) as (ks & E & D & B).
    assert (B' : Forall small (map Some ks)) by (rewrite Forall_map; apply Forall_forall; intros k K; specialize (B _ K); cbn; lia).
    assert (D' : NoDup (map Some ks)) by (apply nodup_map; [intros x y _ _ Q; now injection Q|exact D]).
    destruct (c_bond s) as [mv|].
    - destruct (bond_file b st) as [f| |] eqn:F; try discriminate. cbn [bind] in H. injection H as <-. apply bond_file_ok in F. exists (map Some ks ++ [None]).
      rewrite !map_app, map_map, E. cbn. rewrite F. split; [reflexivity|]. split.
      + apply nodup_app; [exact D'|repeat constructor; auto|]. intros k K [<-|[]]. apply in_map_iff in K. destruct K as (? & ? & _). discriminate.
      + apply Forall_app. split; [exact B'|repeat constructor].
    - injection H as <-. exists (map Some ks). rewrite map_map. auto.
  Qed.

  Definition fkey := (string * string * key)%type.
  Definition fname (q : fkey) : string := sfile (fst (fst q)) (snd (fst q)) (snd q).
  Definition fgood (q : fkey) : Prop := step_name (snd (fst q)) /\ small (snd q).
  Lemma write_block_keys b w : length (c_points (fst (snd b))) = 9 -> length (c_points (snd (snd b))) = 9 -> write_block (V:=V) (C:=C) b = Ok w ->
    exists ks, map fst w = map fname ks /\ NoDup ks /\ Forall fgood ks /\ Forall (fun q => fst (fst q) = fst b) ks.
  Proof.
    intros L1 L2 H. unfold write_block in H.
    destruct (write_state (fst b) "StateN" (fst (snd b))) as [n| |] eqn:N; try discriminate. cbn [bind] in H.
    destruct (write_state (fst b) "StateNP1" (snd (snd b))) as [p| |] eqn:P; try discriminate. cbn [bind] in H. injection H as <-.
    destruct (write_state_keys _ _ _ _ (or_introl eq_refl) L1 N) as (k1 & E1 & D1 & S1). destruct (write_state_keys _ _ _ _ (or_intror eq_refl) L2 P) as (k2 & E2 & D2 & S2).
    exists (map (fun k => (fst b, "StateN"%string, k)) k1 ++ map (fun k => (fst b, "StateNP1"%string, k)) k2).
    split; [rewrite !map_app, !map_map, E1, E2; reflexivity|]. split; [|split].
    - apply nodup_app; try (apply nodup_map; [intros x y _ _ Q; now injection Q|assumption]). intros x X Y. apply in_map_iff in X, Y. destruct X as (? & <- & _), Y as (? & Q & _). discriminate.
    - apply Forall_app. split; rewrite Forall_map; [revert S1|revert S2]; apply Forall_impl; intros k K; split; cbn; auto; [now left|now right].
    - apply Forall_app. split; rewrite Forall_map; apply Forall_forall; intros; reflexivity.
  Qed.
  Lemma blocks_keys bs l : NoDup (map fst bs) -> Forall (fun b => length (c_points (fst (snd b))) = 9 /\ length (c_points (snd (snd b))) = 9) bs -> mapO (write_block (V:=V) (C:=C)) bs = Ok l ->
    exists ks, map fst (concat l) = map fname ks /\ NoDup ks /\ Forall fgood ks /\ Forall (fun q => In (fst (fst q)) (map fst bs)) ks.
  Proof.
    revert l. induction bs as [|b bs IH]; intros l D L H; cbn [mapO] in H.
    - injection H as <-. exists []. split; [reflexivity|]. split; [constructor|split; constructor].
    - inversion D as [|? ? Hb D']; subst. inversion L as [|? ? [L1 L2] L']; subst. destruct (write_block b) as [w| |] eqn:W; try discriminate. cbn [bind] in H.
      destruct (mapO write_block bs) as [l'| |] eqn:M; try discriminate. cbn [bind] in H. injection H as <-.
      destruct (IH _ D' L' eq_refl) as (ks & E & Dk & G & I). destruct (write_block_keys _ _ L1 L2 W) as (kb & Eb & Db & Gb & Ib). exists (kb ++ ks).
      cbn [concat]. rewrite !map_app, E, Eb. split; [reflexivity|]. split; [|split].
      + apply nodup_app; auto. intros q Q1 Q2. rewrite Forall_forall in I, Ib. apply Hb. rewrite <- (Ib _ Q1). auto.
      + apply Forall_app. auto.
      + apply Forall_app. split; [revert Ib|revert I]; apply Forall_impl; cbn; intros q Q; auto.
  Qed.
  Lemma keys_nodup ks : Forall fgood ks -> NoDup ks -> NoDup (map fname ks).
  Proof.
    intros G. apply nodup_map. rewrite Forall_forall in G. intros ((b, st), k) ((b', st'), k') X Y E. destruct (G _ X) as (A & B), (G _ Y) as (A' & B'). cbn [fst snd] in *.
    destruct (sfile_inj b st k b' st' k' A A' B B' E) as (Q1 & Q2 & Q3). congruence.
  Qed.

  (** The other files *)
  Definition other_names : list string :=
    ["currentTime.txt"; "blockIDs.mat"; "horizon.mat"; "volume.mat"; "density.mat"; "deltaTemperature.mat"; "x.mat"; "u.mat"; "y.mat"; "v.mat"; "a.mat"; "force.mat"; "contactForce.mat"; "externalForce.mat"; "deltaU.mat"; "scratch.mat"]%string.
  Lemma other_not q : ~ In (fname q) other_names.
  Proof. destruct q as ((b, st), [i|]); unfold fname; cbn [fst snd sfile other_names]; intros I; cbn in I; repeat (destruct I as [I|I]; [discriminate|]); exact I. Qed.
  Lemma other_nodup : NoDup other_names.
  Proof. unfold other_names. repeat (constructor; [cbn; intuition discriminate|]). constructor. Qed.
  Lemma files_shape (s : run V C) t l : restart_files s t = Ok l -> exists bl, mapO (write_block (C:=C)) (block_data s) = Ok bl /\
    l = ("currentTime.txt"%string, CLine (show_time C t)) :: map (fun e => (fst e, CMatrix [snd e])) (vectors1 (points1 s) ++ vectors3 (points3 s)) ++ concat bl.
  Proof. unfold restart_files. intros H. destruct (mapO write_block (block_data s)) as [bl| |]; try discriminate. cbn [bind] in H. injection H as <-. eauto. Qed.
  Lemma files_nodup (s : run V C) t l : run_ok s -> restart_files s t = Ok l -> NoDup (map fst l).
  Proof.
    intros (D & W) H. destruct (files_shape _ _ _ H) as (bl & B & ->).
    destruct (blocks_keys _ _ D (Forall_impl _ (fun b (q : (String.length (fst b) <= 32)%nat /\ _) => proj2 q) W) B) as (ks & E & Dk & G & _).
    change (NoDup (other_names ++ map fst (concat bl))). rewrite E. apply nodup_app; [exact other_nodup|now apply keys_nodup|].
    intros x X Y. apply in_map_iff in Y. destruct Y as (q & <- & _). exact (other_not q X).
  Qed.

  (** Names are short enough *)
  Lemma short_point b st i : (String.length b <= 32)%nat -> step_name st -> (i < 9)%nat -> point_file b st i = Ok (sfile b st (Some i)).
  Proof.
    intros B St I. unfold point_file, vector_name. rewrite !s_length, digit_length by exact I. destruct (Nat.ltb_spec (String.length b + (String.length st + (String.length "_Element" + 1))) 50) as [_|K]; [reflexivity|].
    exfalso. destruct St as [-> | ->]; cbn in K; lia.
  Qed.
  Lemma short_bond b st : (String.length b <= 32)%nat -> step_name st -> bond_file b st = Ok (sfile b st None).
  Proof.
    intros B St. unfold bond_file, vector_name. rewrite !s_length. destruct (Nat.ltb_spec (String.length b + String.length st) 50) as [_|K]; [reflexivity|].
    exfalso. destruct St as [-> | ->]; cbn in K; lia.
  Qed.
  Lemma write_points_total b st : (String.length b <= 32)%nat -> step_name st -> forall l i, i + length l <= 9 -> exists w, write_points (V:=V) (C:=C) b st i l = Ok w.
  Proof.
    intros B St. induction l as [|[mv|] l IH]; intros i L; cbn [write_points]; cbn in L; [eauto| |apply IH; lia].
    rewrite (short_point b st i B St) by lia. cbn [bind]. destruct (IH (S i)) as (w & ->); [lia|]. cbn. eauto.
  Qed.
  Lemma write_state_total b st s : (String.length b <= 32)%nat -> step_name st -> length (c_points s) = 9 -> exists w, write_state (V:=V) (C:=C) b st s = Ok w.
  Proof.
    intros B St L. unfold write_state. destruct (write_points_total b st B St (c_points s) 0) as (w & ->); [lia|]. cbn [bind]. destruct (c_bond s); [|eauto]. rewrite short_bond by assumption. cbn. eauto.
  Qed.
  Lemma files_total (s : run V C) t : run_ok s -> exists l, restart_files s t = Ok l.
  Proof.
    intros (_ & W). unfold restart_files. assert (H : exists l, mapO (write_block (C:=C)) (block_data s) = Ok l).
    { induction W as [|(b, (n, p)) bs (B & L1 & L2) W IH]; [cbn; eauto|]. destruct IH as (l & E). cbn [mapO]. unfold write_block at 1. cbn [fst snd] in *.
      destruct (write_state_total b "StateN" n B (or_introl eq_refl) L1) as (wn & ->). destruct (write_state_total b "StateNP1" p B (or_intror eq_refl) L2) as (wp & ->). cbn [bind]. rewrite E. cbn. eauto. }
    destruct H as (l & ->). cbn. eauto.
  Qed.

  (** ** Reading back *)
  Lemma read_multi_ok (l : list (string * content)) f ptr (a b : multivec V) : find_file l f = Some (CMatrix (mv_vecs a)) ->
    well_formed a -> well_formed b -> mv_map a = mv_map b -> length (mv_vecs a) = length (mv_vecs b) -> exists p, read_multi l f ptr b = Ok (p, a).
  Proof.
    intros F A B M L. unfold read_multi, read_matrix. rewrite F. replace (forallb _ (mv_vecs a)) with true.
    - rewrite (copy_same a b A B M L). cbn. eauto.
    - symmetry. apply forallb_forall. intros c K. destruct A as [_ A]. rewrite Forall_forall in A. specialize (A _ K). unfold fits in A. apply Nat.eqb_eq. rewrite <- M. exact A.
  Qed.
  Lemma read_points_ok (l : list (string * content)) b st : forall xs ys i w ptr, write_points b st i xs = Ok w -> (forall f c, In (f, c) w -> find_file l f = Some c) ->
    Forall2 mv_alike xs ys -> exists p, read_points l b st i ptr ys = Ok (p, xs).
  Proof.
    induction xs as [|x xs IH]; intros ys i w ptr W F A; inversion A as [|? y ? ys' Xy A']; subst; [cbn; eauto|]. destruct x as [x|], y as [y|]; try contradiction; cbn [write_points] in W; cbn [read_points].
    - destruct (point_file b st i) as [f| |] eqn:Pf; try discriminate. cbn [bind] in W |- *. destruct (write_points b st (S i) xs) as [r| |] eqn:R; try discriminate. cbn [bind] in W. injection W as <-.
      destruct Xy as (Wx & Wy & M & Le). destruct (read_multi_ok l f ptr x y) as (p & ->); auto; [apply F; now left|]. cbn [bind fst snd].
      destruct (IH ys' (S i) r p R) as (q & ->); auto; [intros g c G; apply F; now right|]. cbn. eauto.
    - destruct (IH ys' (S i) w ptr W F A') as (q & ->). cbn. eauto.
  Qed.
  Lemma read_state_ok (l : list (string * content)) b st (s fresh : cstate V) w : write_state b st s = Ok w -> (forall f c, In (f, c) w -> find_file l f = Some c) ->
    state_alike s fresh -> read_state l b st fresh = Ok s.
  Proof.
    intros W F (A & B). unfold write_state in W. destruct (write_points b st 0 (c_points s)) as [p| |] eqn:P; try discriminate. cbn [bind] in W.
    unfold read_state. destruct (c_bond s) as [x|] eqn:X, (c_bond fresh) as [y|] eqn:Y; try contradiction.
    - destruct (bond_file b st) as [f| |] eqn:Bf; try discriminate. cbn [bind] in W. injection W as <-.
      assert (Fp : forall f c, In (f, c) p -> find_file l f = Some c) by (intros g c G; apply F, in_or_app; auto).
      destruct (read_points_ok l b st _ _ 0 p None P Fp A) as (q & ->). cbn [bind fst snd].
      destruct B as (Wx & Wy & M & Le). destruct (read_multi_ok l f q x y) as (r & ->); auto; [apply F, in_or_app; right; now left|]. cbn. rewrite <- X. now destruct s.
    - injection W as <-. destruct (read_points_ok l b st _ _ 0 p None P F A) as (q & ->). cbn. rewrite <- X. now destruct s.
  Qed.
  Lemma read_blocks_ok (l : list (string * content)) : forall bs fs ws, mapO write_block bs = Ok ws -> (forall f c, In (f, c) (concat ws) -> find_file l f = Some c) ->
    Forall2 (fun x y => fst x = fst y /\ state_alike (fst (snd x)) (fst (snd y)) /\ state_alike (snd (snd x)) (snd (snd y))) bs fs -> mapO (read_block l) fs = Ok bs.
  Proof.
    induction bs as [|(b, (n, p)) bs IH]; intros fs ws W F A; inversion A as [|? y ? fs' Xy A']; subst; [reflexivity|]. destruct y as (b', (n', p')). destruct Xy as (E & An & Ap). cbn in E, An, Ap. subst b'.
    cbn [mapO] in W. unfold write_block at 1 in W. cbn [fst snd] in W. destruct (write_state b "StateN" n) as [wn| |] eqn:N; try discriminate. cbn [bind] in W. destruct (write_state b "StateNP1" p) as [wp| |] eqn:P; try discriminate. cbn [bind] in W.
    destruct (mapO write_block bs) as [ws'| |] eqn:M; try discriminate. cbn [bind] in W. injection W as <-. cbn [concat] in F. cbn [mapO]. unfold read_block at 1. cbn [fst snd].
    rewrite (read_state_ok l b _ n n' wn N) by (auto; intros f c I; apply F; rewrite !in_app_iff; auto). cbn [bind].
    rewrite (read_state_ok l b _ p p' wp P) by (auto; intros f c I; apply F; rewrite !in_app_iff; auto). cbn [bind].
    rewrite (IH fs' ws' eq_refl) by (auto; intros f c I; apply F; rewrite in_app_iff; auto). reflexivity.
  Qed.
  Lemma read_vectors_ok (l : list (string * content)) : forall (new old : list (string * list V)) ptr, map fst new = map fst old -> map (fun e => length (snd e)) new = map (fun e => length (snd e)) old ->
    (forall f v, In (f, v) new -> find_file l f = Some (CMatrix [v])) -> read_vectors l ptr old = Ok (map snd new).
  Proof.
    induction new as [|(f, v) new IH]; intros [|(f', o) old] ptr N L F; try discriminate; [reflexivity|]. cbn in N, L. injection N as -> N. injection L as Lv L. cbn [read_vectors].
    unfold read_vector, read_matrix. rewrite (F f' v) by now left. cbn [forallb]. rewrite Lv, Nat.eqb_refl. cbn [andb].
    rewrite Lv. rewrite (proj2 (Nat.ltb_ge _ _)) by lia. rewrite (IH old _ N L) by (intros; apply F; now right). cbn [bind map snd]. do 2 f_equal. rewrite <- Lv. apply firstn_all.
  Qed.
  Lemma read_restart_ok (d : dir V C) (s fresh : run V C) t initial : run_ok s -> run_alike s fresh -> restart_files s t = Ok (d_files d) ->
    same_time C (read_time C (Some (show_time C t))) initial = true ->
    exists s', read_restart d fresh initial = Ok s' /\ resumed s s' (read_time C (Some (show_time C t))) /\ lost s' = lost fresh.
  Proof.
    intros K (L & A) F T. pose proof (files_nodup _ _ _ K F) as D. destruct (files_shape _ _ _ F) as (bl & B & E).
    assert (Fi : forall f c, In (f, c) (d_files d) -> find_file (d_files d) f = Some c) by (intros; now apply find_in).
    unfold read_restart. rewrite (Fi "currentTime.txt"%string (CLine (show_time C t))) by (rewrite E; now left). rewrite T.
    assert (Fv : forall f v, In (f, v) (vectors1 (points1 s) ++ vectors3 (points3 s)) -> find_file (d_files d) f = Some (CMatrix [v])).
    { intros f v I. apply Fi. rewrite E. right. apply in_or_app. left. apply in_map_iff. exists (f, v). auto. }
    unfold saved in L. cbn [map] in L. injection L as L1 L2 L3 L4 L5 L6 L7 L8 L9 L10 L11 L12 L13 L14 L15.
    rewrite (read_vectors_ok (d_files d) (firstn 12 (vectors1 (points1 s) ++ vectors3 (points3 s)))); [|reflexivity|cbn; repeat (f_equal; try assumption)|intros f v I; apply Fv; rewrite <- (firstn_skipn 12 (_ ++ _)); apply in_or_app; auto].
    cbn [bind].
    rewrite (read_vectors_ok (d_files d) (skipn 12 (vectors1 (points1 s) ++ vectors3 (points3 s)))); [|reflexivity|cbn; repeat (f_equal; try assumption)|intros f v I; apply Fv; rewrite <- (firstn_skipn 12 (_ ++ _)); apply in_or_app; auto].
    cbn [bind]. cbn [vectors1 vectors3 app firstn skipn map snd].
    rewrite (read_blocks_ok (d_files d) (block_data s) (block_data fresh) bl B) by (auto; intros f c I; apply Fi; rewrite E; right; apply in_or_app; auto). cbn [bind].
    eexists. split; [reflexivity|]. split; [|reflexivity]. split; [reflexivity|]. split; reflexivity.
  Qed.
End Files.
