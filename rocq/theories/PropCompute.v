(** * C82: the compute classes asked for are built with their parameters *)
From Coq Require Import String Ascii List Arith Lia Sorted Permutation.
From Verif Require Import Base ProofData ModelCompute SpecCompute.
Import ListNotations.
Local Open Scope string_scope.

Lemma underscored_spelled a b : underscored a = b <-> spelled a b.
Proof.
  split.
  - revert b. induction a as [|c a IH]; intros b <-; [constructor|]. cbn. destruct (Ascii.eqb_spec c " ") as [->|N]; constructor; auto.
  - induction 1 as [|a b H IH|c a b N H IH]; cbn; [reflexivity|now rewrite IH|]. rewrite IH. destruct (Ascii.eqb_spec c " "); [contradiction|reflexivity].
Qed.
Lemma prefix_app p s : prefix p s = true <-> exists r, s = p ++ r.
Proof.
  revert s. induction p as [|c p IH]; intros s; [split; [intros _; exists s; reflexivity|destruct s; reflexivity]|]. destruct s as [|c' s]; cbn; [split; [discriminate|intros (r & E); discriminate]|].
  destruct (Ascii.ascii_dec c c') as [->|N]; [rewrite IH; split; intros (r & E); exists r; congruence|]. split; [discriminate|]. intros (r & E). congruence.
Qed.
Lemma has_output_spec name : has_output name = true <-> output_list name.
Proof.
  unfold has_output, output_list. induction name as [|c s IH].
  - cbn. split; [discriminate|]. intros (b & a & E). destruct b; discriminate.
  - assert (X : index 0 "Output" (String c s) = if prefix "Output" (String c s) then Some 0 else match index 0 "Output" s with Some n => Some (S n) | None => None end) by reflexivity. rewrite X. clear X.
    destruct (prefix "Output" (String c s)) eqn:P.
    + split; [intros _|reflexivity]. apply prefix_app in P. destruct P as (r & E). exists "", r. exact E.
    + split.
      * intros H. destruct (index 0 "Output" s) eqn:I; [|discriminate]. destruct (proj1 IH eq_refl) as (b & a & E). exists (String c b), a. cbn. now rewrite E.
      * intros (b & a & E). destruct b as [|c' b].
        -- exfalso. assert (prefix "Output" (String c s) = true) by (apply prefix_app; now exists a). congruence.
        -- injection E as -> E. assert (K : match index 0 "Output" s with Some _ => true | None => false end = true) by (apply IH; now exists b, a). destruct (index 0 "Output" s); [reflexivity|discriminate].
Qed.
Lemma eqb_in v l : existsb (String.eqb v) l = true <-> In v l.
Proof. rewrite existsb_exists. split; [intros (x & H & E); apply String.eqb_eq in E; now subst|]. intros H. exists v. now rewrite String.eqb_refl. Qed.
Lemma add_in new : forall have v, In v (add_variables have new) <-> In v have \/ In v new.
Proof.
  induction new as [|a new IH]; intros have v; cbn [add_variables]; [cbn; tauto|]. rewrite IH. destruct (existsb (String.eqb a) have) eqn:E; [apply eqb_in in E; cbn; intuition congruence|]. rewrite in_app_iff. cbn. tauto.
Qed.
Lemma add_nodup new : forall have, NoDup have -> NoDup (add_variables have new).
Proof.
  induction new as [|a new IH]; intros have H; cbn [add_variables]; [exact H|]. apply IH. destruct (existsb (String.eqb a) have) eqn:E; [exact H|].
  assert (~ In a have) by (rewrite <- eqb_in; congruence). eapply Permutation_NoDup; [apply Permutation_cons_append|]. now constructor.
Qed.
Lemma output_spec top : forall have vars, output_variables have top = Ok vars -> NoDup have ->
  NoDup vars /\ (forall v, In v vars <-> In v have \/ asked top v) /\ (forall name e, In (name, e) top -> output_list name -> e <> None).
Proof.
  induction top as [|(name, vs) top IH]; intros have vars H N; cbn [output_variables] in H.
  - injection H as <-. split; [exact N|]. split; [|contradiction]. intros v. split; [tauto|]. intros [K|(n & l & [] & _)]. exact K.
  - destruct (has_output name) eqn:HO.
    + destruct vs as [vs|]; [|discriminate]. destruct (IH _ _ H (add_nodup vs have N)) as (A & B & C). split; [exact A|]. split.
      * intros v. rewrite B, add_in. split; [intros [[K|K]|(n & l & K & O & V)]|intros [K|(n & l & [K|K] & O & V)]]; auto.
        -- right. exists name, vs. split; [now left|]. split; [now apply has_output_spec|exact K].
        -- right. exists n, l. split; [now right|auto].
        -- injection K as -> ->. auto.
        -- right. exists n, l. auto.
      * intros n e [K|K] O; [injection K as <- <-; discriminate|]. eapply C; eauto.
    + destruct (IH _ _ H N) as (A & B & C). split; [exact A|]. assert (NO : ~ output_list name) by (rewrite <- has_output_spec; congruence). split.
      * intros v. rewrite B. split; (intros [K|(n & l & K & O & V)]; [now left|right]); [exists n, l; split; [now right|auto]|]. destruct K as [K|K]; [injection K as -> ->; contradiction|]. exists n, l. auto.
      * intros n e [K|K] O; [injection K as <- <-; contradiction|]. eapply C; eauto.
Qed.

Section Build.
  Context {D : Type}.
  Lemma class_names_spec (l : list (entry D)) : (exists ns, class_names l = Ok ns) <-> (forall e, In e l -> exists c d, e = Params (Some c) d).
  Proof.
    split.
    - induction l as [|[|[c|] d] l IH]; intros (ns & H) e K; cbn in H; try discriminate; [contradiction|]. destruct (class_names l) as [ms| |]; try discriminate. destruct K as [<-|K]; [eauto|]. apply IH; eauto.
    - induction l as [|e l IH]; intros H; [eexists; reflexivity|]. destruct (H e (or_introl eq_refl)) as (c & d & ->). destruct IH as (ns & E); [intros e K; apply H; now right|]. cbn. rewrite E. eexists. reflexivity.
  Qed.
  Lemma class_names_err (l : list (entry D)) : class_names l = Err \/ exists ns, class_names l = Ok ns.
  Proof. induction l as [|[|[c|] d] l [IH|(ns & IH)]]; cbn; rewrite ?IH; cbn [bind]; (now left) || (right; eexists; reflexivity). Qed.
  Lemma with_parameters_spec (l : list (entry D)) ns : class_names l = Ok ns -> exists r, with_parameters l = Ok r /\ map fst r = ns /\ forall n d, In (n, d) r <-> exists c d', In (Params (Some c) d') l /\ underscored c = n /\ d = Some d'.
  Proof.
    revert ns. induction l as [|[|[c|] d] l IH]; intros ns H; cbn in H; try discriminate.
    - injection H as <-. exists []. split; [reflexivity|]. split; [reflexivity|]. intros n d. split; [contradiction|]. intros (c & d' & [] & _).
    - destruct (class_names l) as [ms| |]; try discriminate. injection H as <-. destruct (IH ms eq_refl) as (r & E & M & B). eexists. cbn. rewrite E. split; [reflexivity|]. split; [cbn; now rewrite M|].
      intros n e. cbn. rewrite B. split.
      + intros [K|(c' & d' & K & U & V)]; [injection K as <- <-; eauto 6|eauto 8].
      + intros (c' & d' & [K|K] & U & V); [injection K as -> ->; left; congruence|right; eauto].
  Qed.
  Lemma try_in known (b : string * option D) : exists r, try_classes (@itself D) known b = Ok r /\ (forall x, In x r <-> x = b /\ In (fst b) known) /\ length r = count_occ string_dec known (fst b).
  Proof.
    induction known as [|k known (r & E & I & L)]; [exists []; split; [reflexivity|]; cbn; split; [tauto|reflexivity]|]. cbn [try_classes count_occ]. destruct (String.eqb_spec (fst b) k) as [X|N].
    - unfold itself at 1. cbn [bind]. rewrite E. eexists. split; [reflexivity|]. destruct (string_dec k (fst b)) as [_|N]; [|congruence]. split; [|cbn; now rewrite L]. intros x. cbn. rewrite I, <- X. destruct b as (n, d). cbn in *. split; [intros [<-|(K & K')]; auto|]. intros (-> & _). auto.
    - exists r. split; [exact E|]. destruct (string_dec k (fst b)) as [X|_]; [congruence|]. split; [|exact L]. intros x. rewrite I. cbn. intuition congruence.
  Qed.
  Lemma instantiate_in known (bs : list (string * option D)) : exists r, instantiate known (@itself D) bs = Ok r /\ (forall x, In x r <-> In x bs /\ In (fst x) known) /\
    (NoDup known -> r = filter (fun b => existsb (String.eqb (fst b)) known) bs).
  Proof.
    induction bs as [|b bs (r & E & I & F)]; [exists []; split; [reflexivity|]; cbn; split; [tauto|reflexivity]|]. destruct (try_in known b) as (a & E' & I' & L'). cbn [instantiate]. rewrite E'. cbn [bind]. rewrite E. eexists. split; [reflexivity|]. split.
    - intros x. rewrite in_app_iff, I, I'. cbn. split; [intros [(-> & K)|(K & K')]; auto|]. intros ([<-|K] & K'); auto.
    - intros N. rewrite F by exact N. cbn [filter]. destruct (existsb (String.eqb (fst b)) known) eqn:X.
      + apply eqb_in in X. assert (C : count_occ string_dec known (fst b) = 1) by (now apply NoDup_count_occ'). rewrite C in L'. destruct a as [|y [|? ?]]; try discriminate. destruct (proj1 (I' y) (or_introl eq_refl)) as (-> & _). reflexivity.
      + assert (~ In (fst b) known) by (rewrite <- eqb_in; congruence). destruct a as [|y a]; [reflexivity|]. destruct (proj1 (I' y) (or_introl eq_refl)). contradiction.
  Qed.
End Build.

(** ** What is built *)

(** The objects are those of the output variables asked for that have no parameters, without any,
    and those of all parameter lists, with them; a name that is no compute class is passed over. *)
Theorem C82_built : forall (D : Type) known top (params : option (list (entry D))) objs, instantiate_manager known (@itself D) top params = Ok objs ->
  (forall n d, In (n, Some d) objs <-> In n known /\ parametrised params n d) /\
  (forall n, In (n, None) objs <-> In n known /\ (exists v, asked top v /\ spelled v n) /\ ~ exists d, parametrised params n d).
Proof.
  intros D known top params objs H. unfold instantiate_manager in H. apply bind_Ok in H. destruct H as (vars & HV & H). unfold manager in H. apply bind_Ok in H. destruct H as (bs & HB & H).
  destruct (output_spec top [] vars HV (NoDup_nil _)) as (_ & OV & _). destruct (instantiate_in known bs) as (r & E & I & _). rewrite E in H. injection H as <-. clear E.
  unfold to_build in HB. apply bind_Ok in HB. destruct HB as (nm & HN & HB). cbv zeta in HB. apply bind_Ok in HB. destruct HB as (sec & HS & HB). injection HB as <-.
  assert (P : (forall n d, In (n, d) sec <-> exists d', parametrised params n d' /\ d = Some d') /\ forall n, In n nm <-> exists d, parametrised params n d).
  { unfold parametrised. destruct params as [l|].
    - destruct (with_parameters_spec l nm HN) as (r' & E & M & B). rewrite HS in E. injection E as <-. split.
      + intros n d. rewrite B. split.
        * intros (c & d' & K & U & ->). exists d'. split; [|reflexivity]. exists l, c. split; [reflexivity|]. split; [exact K|now apply underscored_spelled].
        * intros (d' & (l' & c & L & K & U) & ->). injection L as <-. exists c, d'. split; [exact K|]. split; [now apply underscored_spelled|reflexivity].
      + intros n. rewrite <- M, in_map_iff. split.
        * intros ((n', d) & <- & K). apply B in K. destruct K as (c & d' & K & U & _). exists d', l, c. split; [reflexivity|]. split; [exact K|now apply underscored_spelled].
        * intros (d & l' & c & L & K & U). injection L as <-. exists (n, Some d). split; [reflexivity|]. apply B. exists c, d. split; [exact K|]. split; [now apply underscored_spelled|reflexivity].
    - injection HN as <-. injection HS as <-. split; intros n; [intros d|]; (split; [contradiction|]); [intros (d' & (l & c & L & _) & _)|intros (d' & l & c & L & _)]; discriminate. }
  destruct P as (P1 & P2).
  assert (W : forall n d, In (n, d) (without_parameters (D:=D) nm vars) <-> d = None /\ (exists v, asked top v /\ spelled v n) /\ ~ In n nm).
  { intros n d. unfold without_parameters. rewrite in_map_iff. split.
    - intros (v & K & F). injection K as <- <-. apply filter_In in F. destruct F as (F & G). apply in_map_iff in F. destruct F as (u & U & F). split; [reflexivity|]. split.
      + exists u. split; [|now apply underscored_spelled]. apply OV in F. destruct F as [[]|F]. exact F.
      + rewrite <- eqb_in. destruct (existsb _ nm); [discriminate|congruence].
    - intros (-> & (v & A & S) & N). exists n. split; [reflexivity|]. apply filter_In. split; [apply in_map_iff; exists v; split; [now apply underscored_spelled|apply OV; now right]|].
      rewrite <- eqb_in in N. destruct (existsb _ nm); [congruence|reflexivity]. }
  split.
  - intros n d. rewrite I, in_app_iff, W, P1. cbn [fst]. split; [intros ([(K & _)|(d' & K & L)] & N); [discriminate|injection L as ->; auto]|]. intros (N & K). split; [right; eauto|exact N].
  - intros n. rewrite I, in_app_iff, W, P1, P2. cbn [fst]. split; [intros ([(_ & K)|(d' & K & L)] & N); [auto|discriminate]|]. intros (N & K). split; [left; auto|exact N].
Qed.
Print Assumptions C82_built.

(** An output variable written once gives one object: the objects without parameters repeat no name, if no two
    variables differ in spaces only; there is one object for each parameter list, in the order of the input. *)
Theorem C82_once : forall (D : Type) known top l objs, NoDup known -> instantiate_manager known (@itself D) top (Some l) = Ok objs ->
  (forall v v' n, asked top v -> asked top v' -> spelled v n -> spelled v' n -> v = v') ->
  exists plain lists, objs = (plain ++ lists)%list /\ NoDup plain /\ Forall (fun o => snd o = None) plain /\
    exists chosen, (forall e, In e chosen <-> In e l /\ exists c d n, e = Params (Some c) d /\ spelled c n /\ In n known) /\
      Forall2 (fun e o => exists c d, e = Params (Some c) d /\ spelled c (fst o) /\ snd o = Some d) chosen lists /\ (NoDup l -> NoDup chosen).
Proof.
  intros D known top l objs NK H HU. unfold instantiate_manager in H. apply bind_Ok in H. destruct H as (vars & HV & H). unfold manager in H. apply bind_Ok in H. destruct H as (bs & HB & H).
  destruct (output_spec top [] vars HV (NoDup_nil _)) as (NV & OV & _). destruct (instantiate_in known bs) as (r & E & _ & F). rewrite E in H. injection H as <-. rewrite (F NK). clear E F.
  unfold to_build in HB. apply bind_Ok in HB. destruct HB as (nm & HN & HB). cbv zeta in HB. apply bind_Ok in HB. destruct HB as (sec & HS & HB). injection HB as <-. rewrite filter_app.
  do 2 eexists. split; [reflexivity|]. split; [|split].
  - apply NoDup_filter. unfold without_parameters. apply FinFun.Injective_map_NoDup; [intros a b K; congruence|]. apply NoDup_filter.
    assert (G : forall vs, NoDup vs -> (forall v, In v vs -> asked top v) -> NoDup (map underscored vs)).
    { clear -HU. intros vs N. induction N as [|a vs Ha N IH]; intros A; [constructor|]. cbn. constructor; [|apply IH; intros v K; apply A; now right].
      rewrite in_map_iff. intros (b & K & L). apply Ha. rewrite <- (HU b a (underscored a)); [exact L| | | |]; try (apply underscored_spelled; congruence); apply A; [now right|now left]. }
    apply G; [exact NV|]. intros v K. apply OV in K. destruct K as [[]|K]. exact K.
  - apply Forall_forall. intros o K. apply filter_In in K. destruct K as (K & _). unfold without_parameters in K. apply in_map_iff in K. destruct K as (v & <- & _). reflexivity.
  - exists (filter (fun e => match e with Params (Some c) _ => existsb (String.eqb (underscored c)) known | _ => false end) l). split; [|split; [|apply NoDup_filter]].
    + intros e. rewrite filter_In. split; intros (K & L); (split; [exact K|]).
      * destruct e as [|[c|] d]; try discriminate. apply eqb_in in L. exists c, d, (underscored c). split; [reflexivity|]. split; [now apply underscored_spelled|exact L].
      * destruct L as (c & d & n & -> & S & L). apply underscored_spelled in S. subst n. now apply eqb_in.
    + clear HN HV NV OV HU. revert sec HS. induction l as [|[|[c|] d] l IH]; intros sec HS; cbn in HS; try discriminate; [injection HS as <-; constructor|]. destruct (with_parameters l) as [m| |]; try discriminate. injection HS as <-. cbn [filter fst].
      destruct (existsb _ known); [constructor|]; auto. exists c, d. split; [reflexivity|]. split; [now apply underscored_spelled|reflexivity].
Qed.
Print Assumptions C82_once.

(** The run ends with an error exactly if an output list is a single value or an entry of the parameters
    names no class. *)
Theorem C82_errors : forall (D : Type) known top (params : option (list (entry D))),
  (instantiate_manager known (@itself D) top params = Err <-> (exists name, In (name, None) top /\ output_list name) \/ ~ named params) /\ instantiate_manager known (@itself D) top params <> UB.
Proof.
  intros D known top params.
  assert (V : (exists vars, output_variables [] top = Ok vars /\ ~ exists name, In (name, None) top /\ output_list name) \/ (output_variables [] top = Err /\ exists name, In (name, None) top /\ output_list name)).
  { generalize (@nil string). induction top as [|(name, vs) top IH]; intros have; cbn [output_variables]; [left; eexists; split; [reflexivity|]; intros (n & [] & _)|].
    assert (REST : forall have, (vs <> None \/ ~ output_list name) -> (exists vars, output_variables have top = Ok vars /\ ~ exists n, In (n, None) ((name, vs) :: top) /\ output_list n) \/ (output_variables have top = Err /\ exists n, In (n, None) ((name, vs) :: top) /\ output_list n)).
    { intros h N. destruct (IH h) as [(vars & E & X)|(E & n & X & Y)]; [left; exists vars; split; [exact E|]|right; split; [exact E|]; exists n; split; [now right|exact Y]].
      intros (n & [K|K] & O); [injection K as -> ->; intuition congruence|]. apply X. eauto. }
    destruct (has_output name) eqn:HO; [destruct vs as [vs|]|].
    - apply REST. left. discriminate.
    - right. split; [reflexivity|]. exists name. split; [now left|now apply has_output_spec].
    - apply REST. right. rewrite <- has_output_spec. congruence. }
  assert (B : forall vars, (exists bs, to_build (Some vars) params = Ok bs /\ named params) \/ (to_build (Some vars) params = Err /\ ~ named params)).
  { intros vars. unfold to_build, named. destruct params as [l|]; [|left; eexists; split; [reflexivity|]; intros l e K; discriminate]. destruct (class_names_err l) as [E|(ns & E)]; rewrite E; cbn [bind].
    - right. split; [reflexivity|]. intros N. destruct (proj2 (class_names_spec l)) as (ns & E'); [intros e K; now apply (N l)|]. congruence.
    - left. destruct (with_parameters_spec l ns E) as (r & E' & _). rewrite E'. eexists. split; [reflexivity|]. intros l' e K L. injection K as <-. apply (proj1 (class_names_spec l)); eauto. }
  unfold instantiate_manager, manager. destruct V as [(vars & E & X)|(E & X)]; rewrite E; cbn [bind]; [|split; [tauto|discriminate]].
  destruct (B vars) as [(bs & E' & Y)|(E' & Y)]; rewrite E'; cbn [bind]; [|split; [tauto|discriminate]]. destruct (instantiate_in known bs) as (r & E'' & _). rewrite E''. split; [|discriminate]. split; [discriminate|]. tauto.
Qed.
Print Assumptions C82_errors.

(** Written twice with different spelling, a variable gives two objects of one class: each is computed at every output. *)
Theorem C82_once_refuted : forall (D : Type) known n v v' name, NoDup known -> In n known -> spelled v n -> spelled v' n -> v <> v' -> output_list name ->
  instantiate_manager known (@itself D) [(name, Some [v; v'])] None = Ok [(n, None); (n, None)].
Proof.
  intros D known n v v' name NK IN S S' NE O. apply has_output_spec in O. unfold instantiate_manager. cbn [output_variables]. rewrite O. cbn [add_variables existsb app]. destruct (String.eqb_spec v' v) as [E|_]; [congruence|]. cbn [orb add_variables bind app].
  unfold manager, to_build. cbn [bind without_parameters map filter existsb negb]. apply underscored_spelled in S, S'. rewrite S, S'.
  destruct (instantiate_in known ([(n, None); (n, None)] : list (string * option D))) as (r & E & _ & F). cbn [app]. refine (eq_trans E _). rewrite (F NK). cbn [filter fst]. rewrite (proj2 (eqb_in n known) IN). reflexivity.
Qed.
Print Assumptions C82_once_refuted.

(** ** Objects that do something *)

(** Whatever the classes do, the objects are made from those names and parameters, in that order. *)
Theorem C82_constructed : forall (D O : Type) known (construct : string -> option D -> outcome O) top params objs, instantiate_manager known construct top params = Ok objs ->
  exists made, instantiate_manager known (@itself D) top params = Ok made /\ Forall2 (fun m o => construct (fst m) (snd m) = Ok o) made objs.
Proof.
  intros D O known construct top params objs H. unfold instantiate_manager in *. apply bind_Ok in H. destruct H as (vars & HV & H). rewrite HV. cbn [bind]. unfold manager in *. apply bind_Ok in H. destruct H as (bs & HB & H). rewrite HB. cbn [bind]. clear HV HB.
  assert (TC : forall b keys a, try_classes construct keys b = Ok a -> exists m, try_classes (@itself D) keys b = Ok m /\ Forall2 (fun m o => construct (fst m) (snd m) = Ok o) m a).
  { intros b keys. induction keys as [|k keys IH]; intros a K; cbn in *; [injection K as <-; exists []; auto|]. destruct (String.eqb_spec (fst b) k) as [X|N]; [|auto]. apply bind_Ok in K. destruct K as (o & K1 & K). apply bind_Ok in K. destruct K as (r & K2 & K). injection K as <-.
    destruct (IH r K2) as (m & E & F). rewrite E. eexists. split; [reflexivity|]. constructor; [exact K1|exact F]. }
  revert objs H. induction bs as [|b bs IH]; intros objs H; cbn in H; [injection H as <-; exists []; auto|]. apply bind_Ok in H. destruct H as (a & K1 & H). apply bind_Ok in H. destruct H as (r & K2 & H). injection H as <-.
  destruct (TC b known a K1) as (m & E & F). destruct (IH r K2) as (m' & E' & F'). cbn. rewrite E. cbn [bind]. rewrite E'. eexists. split; [reflexivity|]. now apply Forall2_app.
Qed.
Print Assumptions C82_constructed.

(** *** Fields and services *)
Lemma insert_in a l x : In x (insert a l) <-> x = a \/ In x l.
Proof. induction l as [|b l IH]; cbn; [intuition|]. destruct (Nat.leb a b); cbn; [intuition|]. rewrite IH. intuition. Qed.
Lemma sorted_in l x : In x (sorted_ids l) <-> In x l.
Proof. induction l as [|a l IH]; cbn; [tauto|]. rewrite insert_in, IH. intuition. Qed.
Lemma insert_sorted a l : StronglySorted le l -> StronglySorted le (insert a l).
Proof.
  induction 1 as [|b l H IH F]; cbn; [constructor; [constructor|constructor]|]. destruct (Nat.leb_spec a b).
  - constructor; [constructor; assumption|]. constructor; [exact H0|]. eapply Forall_impl; [|exact F]. intros; lia.
  - constructor; [exact IH|]. apply Forall_forall. intros x K. apply insert_in in K. destruct K as [->|K]; [lia|]. rewrite Forall_forall in F. auto.
Qed.
Lemma unique_spec l : StronglySorted le l -> StronglySorted lt (unique l) /\ forall x, In x (unique l) <-> In x l.
Proof.
  induction 1 as [|a l H (IH & IN) F]; [split; [constructor|tauto]|]. destruct l as [|b l]; [split; [repeat constructor|tauto]|].
  change (unique (a :: b :: l)) with (if Nat.eqb a b then unique (b :: l) else a :: unique (b :: l)). destruct (Nat.eqb_spec a b) as [<-|N].
  - split; [exact IH|]. intros x. rewrite IN. cbn. tauto.
  - split; [|intros x; cbn [In]; rewrite IN; cbn; tauto]. constructor; [exact IH|]. apply Forall_forall. intros x K. apply IN in K. apply Forall_inv in F as Fb. inversion H as [|? ? H1 H2]; subst. destruct K as [<-|K]; [lia|]. rewrite Forall_forall in H2. specialize (H2 x K). lia.
Qed.
Theorem C82_fields : forall (O : Type) (fields services : O -> list nat) objs,
  StronglySorted lt (field_ids fields objs) /\ (forall f, In f (field_ids fields objs) <-> exists o, In o objs /\ In f (fields o)) /\
  (forall s, requested services objs s = true <-> exists o, In o objs /\ In s (services o)).
Proof.
  intros O fields services objs. unfold field_ids, requested. assert (S : StronglySorted le (sorted_ids (flat_map fields objs))) by (induction (flat_map fields objs); cbn; [constructor|now apply insert_sorted]).
  destruct (unique_spec _ S) as (A & B). split; [exact A|]. split; [intros f; now rewrite B, sorted_in, in_flat_map|]. intros s. rewrite existsb_exists, <- in_flat_map. split; [intros (x & K & E); apply Nat.eqb_eq in E; now subst|]. intros K. exists s. now rewrite Nat.eqb_refl.
Qed.
Print Assumptions C82_fields.

(** *** Every object is run once, in order: what one leaves is what the next finds. *)
Theorem C82_run : forall (O B : Type) (step : O -> B -> outcome B) objs b b', run_all step objs b = Ok b' <-> one_by_one step objs b b'.
Proof.
  intros O B step objs. unfold run_all. induction objs as [|o l IH]; intros b b'; cbn; split.
  - intros E. injection E as <-. constructor.
  - inversion 1. reflexivity.
  - intros E. apply bind_Ok in E. destruct E as (b1 & E1 & E2). econstructor; [exact E1|]. now apply IH.
  - inversion 1 as [|? ? ? b1 ? E1 E2]; subst. rewrite E1. cbn. now apply IH.
Qed.
Print Assumptions C82_run.

(** ** An input: two outputs, a variable with a space, one that is no compute class, and one with parameters *)
Example C82_met :
  instantiate_manager ["Kinetic_Energy"; "Node_Set_Data"; "Radius"] (@itself nat)
    [("Blocks", None); ("Output1", Some ["Kinetic Energy"; "Displacement"]); ("Output2", Some ["Radius"; "Kinetic Energy"; "Node_Set_Data"])]
    (Some [Params (Some "Node Set Data") 7; Params (Some "Node_Set_Data") 8])
  = Ok [("Kinetic_Energy", None); ("Radius", None); ("Node_Set_Data", Some 7); ("Node_Set_Data", Some 8)] /\
  instantiate_manager ["Radius"] (@itself nat) [("Output", Some ["Radius"])] (Some [Single]) = Err /\
  instantiate_manager ["Kinetic_Energy"] (@itself nat) [("Output", Some ["Kinetic Energy"; "Kinetic_Energy"])] None = Ok [("Kinetic_Energy", None); ("Kinetic_Energy", None)] /\
  field_ids (fun o : list nat => o) [[3; 1]; [2; 3]] = [1; 2; 3].
Proof. repeat split; reflexivity. Qed.
Print Assumptions C82_met.
