From Coq Require Import Reals Lra Lia.
From Verif Require Import Base Num ModelNeigh SpecDamage ModelForce SpecForce ProofData ProofDamage.

(** ** the loop *)
Lemma num_bonds_app : forall a b, num_bonds (a ++ b) = num_bonds a + num_bonds b.
Proof. unfold num_bonds. induction a; intros; simpl; auto. rewrite IHa. lia. Qed.
Lemma offset_app : forall pre js rest, offset (pre ++ js :: rest) (length pre) = num_bonds pre.
Proof. intros. unfold offset. rewrite firstn_app, Nat.sub_diag, firstn_all. simpl. now rewrite app_nil_r. Qed.
Lemma nth_app_here : forall A (pre : list A) a rest, nth_error (pre ++ a :: rest) (length pre) = Some a.
Proof. intros. rewrite nth_error_app2, Nat.sub_diag by lia. reflexivity. Qed.
Lemma bond_at_bound : forall nbrs p k j, bond_at nbrs p k j -> p < length nbrs /\ k < num_bonds nbrs.
Proof.
  intros nbrs p k j (js & n & H1 & H2 & ->).
  assert (Hp : p < length nbrs) by (apply nth_error_Some; congruence). split; auto.
  apply nth_error_split in H1 as (l1 & l2 & -> & <-). rewrite offset_app, num_bonds_app.
  assert (n < length js) by (apply nth_error_Some; congruence).
  change (num_bonds (js :: l2)) with (length js + num_bonds l2). lia.
Qed.
Lemma bond_at_In : forall nbrs p k j (P : nat -> Prop), bond_at nbrs p k j -> Forall (Forall P) nbrs -> P j.
Proof.
  intros nbrs p k j P (js & n & H1 & H2 & _) H. apply nth_error_In in H1, H2.
  rewrite Forall_forall in H. specialize (H _ H1). rewrite Forall_forall in H. auto.
Qed.

Lemma upd_len : forall A (l : list A) i a l', upd l i a = Some l' -> length l' = length l.
Proof.
  induction l; intros i a' l' H; simpl in *; [discriminate|]. destruct i; [injection H as <-; reflexivity|].
  destruct (upd l i a') eqn:E; [|discriminate]. injection H as <-. simpl. f_equal. eauto.
Qed.

Section Generic.
  Context {N : Num}.
  Lemma add_at_len : forall (f f' : list (V3 N)) i v, add_at f i v = Ok f' -> length f' = length f.
  Proof.
    intros f f' i v H. unfold add_at in H. apply bind_Ok in H as [a [H1 H2]]. unfold upd_ub in H2.
    destruct (upd f i (vadd a v)) eqn:E; [|discriminate]. injection H2 as <-. eapply upd_len; eauto.
  Qed.
  Lemma sub_at_len : forall (f f' : list (V3 N)) i v, sub_at f i v = Ok f' -> length f' = length f.
  Proof.
    intros f f' i v H. unfold sub_at in H. apply bind_Ok in H as [a [H1 H2]]. unfold upd_ub in H2.
    destruct (upd f i (vsub a v)) eqn:E; [|discriminate]. injection H2 as <-. eapply upd_len; eauto.
  Qed.
  Lemma upd_lt : forall A (l : list A) i a, i < length l -> exists l', upd l i a = Some l'.
  Proof.
    induction l; intros i b H; simpl in *; [lia|]. destruct i; [eauto|]. destruct (IHl i b) as [l' E]; [lia|]. rewrite E. eauto.
  Qed.
  Lemma add_at_ok : forall (f : list (V3 N)) i v, i < length f -> exists f', add_at f i v = Ok f'.
  Proof.
    intros f i v H. unfold add_at, at_ub. destruct (nth_error f i) as [a|] eqn:E; [|apply nth_error_None in E; lia].
    simpl. unfold upd_ub. destruct (upd_lt _ f i (vadd a v) H) as [l' E']. rewrite E'. eauto.
  Qed.
  Lemma sub_at_ok : forall (f : list (V3 N)) i v, i < length f -> exists f', sub_at f i v = Ok f'.
  Proof.
    intros f i v H. unfold sub_at, at_ub. destruct (nth_error f i) as [a|] eqn:E; [|apply nth_error_None in E; lia].
    simpl. unfold upd_ub. destruct (upd_lt _ f i (vsub a v) H) as [l' E']. rewrite E'. eauto.
  Qed.

  Context {D S : Type} (K : kernel N D S).

  (** everything the loop evaluates succeeds *)
  Definition total_on (nbrs : list (list nat)) (n : nat) : Prop :=
    (forall p js, nth_error nbrs p = Some js -> exists d, pre _ _ K p (offset nbrs p) js = Ok d) /\
    (forall p js d k j, nth_error nbrs p = Some js -> pre _ _ K p (offset nbrs p) js = Ok d -> bond_at nbrs p k j ->
       (exists r, bond _ _ K d p k j = Ok r) /\ (exists r, vols _ _ K p k j = Ok r) /\ p < n /\ j < n).

  (** one bond of the loop *)
  Definition bond_step (nbrs : list (list nat)) (f f2 : list (V3 N)) (p k j : nat) (d : D) (fb : V3 N) (s : S) (vn vs : N) : Prop :=
    exists js f1, nth_error nbrs p = Some js /\ pre _ _ K p (offset nbrs p) js = Ok d /\ bond_at nbrs p k j /\
      bond _ _ K d p k j = Ok (fb, s) /\ vols _ _ K p k j = Ok (vn, vs) /\
      add_at f p (vmulr fb vn) = Ok f1 /\ sub_at f1 j (vmulr fb vs) = Ok f2.

  Lemma bond_loop_total : forall nbrs n, total_on nbrs n -> forall p js d,
    nth_error nbrs p = Some js -> pre _ _ K p (offset nbrs p) js = Ok d ->
    forall post pre_js, js = pre_js ++ post -> forall f, length f = n ->
    exists f' ss, bond_loop K d p (offset nbrs p + length pre_js) post f = Ok (f', ss) /\ length f' = n /\ length ss = length post.
  Proof.
    intros nbrs n [_ HT] p js d Hp Hpre. induction post as [|j post IH]; intros pre_js E f Hf; simpl.
    - eauto.
    - assert (Hb : bond_at nbrs p (offset nbrs p + length pre_js) j).
      { exists js, (length pre_js). subst js. rewrite nth_app_here. auto. }
      destruct (HT p js d _ j Hp Hpre Hb) as ([[fb s] Eb] & [[vn vs] Ev] & Hpn & Hjn).
      rewrite Eb. cbn [bind]. rewrite Ev. cbn [bind].
      destruct (add_at_ok f p (vmulr fb vn)) as [f1 E1]; [lia|]. rewrite E1. cbn [bind].
      assert (L1 := add_at_len _ _ _ _ E1).
      destruct (sub_at_ok f1 j (vmulr fb vs)) as [f2 E2]; [lia|]. rewrite E2. cbn [bind].
      assert (L2 := sub_at_len _ _ _ _ E2).
      destruct (IH (pre_js ++ [j])) with (f := f2) as (f' & ss & R1 & R2 & R3); [subst; now rewrite <- app_assoc|lia|].
      rewrite app_length in R1. simpl in R1.
      replace (Datatypes.S (offset nbrs p + length pre_js)) with (offset nbrs p + (length pre_js + 1)) by lia. rewrite R1. cbn [bind].
      eexists _, _. split; [reflexivity|]. simpl. auto.
  Qed.

  Lemma point_loop_total : forall nbrs n, total_on nbrs n -> forall todo done, nbrs = done ++ todo ->
    forall f, length f = n ->
    exists f' out, point_loop K (length done) (num_bonds done) todo f = Ok (f', out) /\ length f' = n /\
      Forall2 (fun js o => length (snd o) = length js) todo out.
  Proof.
    intros nbrs n HT. induction todo as [|js todo IH]; intros done E f Hf; simpl.
    - exists f, []. auto.
    - assert (Hp : nth_error nbrs (length done) = Some js) by (rewrite E; apply nth_app_here).
      assert (Ho : offset nbrs (length done) = num_bonds done) by (rewrite E; apply offset_app).
      destruct (proj1 HT _ _ Hp) as [d Ed]. rewrite <- Ho, Ed. cbn [bind].
      destruct (bond_loop_total nbrs n HT _ _ _ Hp Ed js [] eq_refl f Hf) as (f1 & ss & R1 & R2 & R3).
      simpl in R1. rewrite Nat.add_0_r in R1. rewrite R1. cbn [bind].
      destruct (IH (done ++ [js])) with (f := f1) as (f2 & out & Q1 & Q2 & Q3); [subst; now rewrite <- app_assoc|auto|].
      rewrite app_length in Q1. simpl in Q1. rewrite Nat.add_1_r in Q1.
      rewrite num_bonds_app in Q1. replace (length js + offset nbrs (length done)) with (num_bonds done + num_bonds [js]) by (rewrite Ho; unfold num_bonds; simpl; lia).
      rewrite Q1. cbn [bind]. eexists _, _. split; [reflexivity|]. split; auto.
  Qed.

  Lemma run_total : forall nbrs f, total_on nbrs (length f) ->
    exists f' out, run_kernel K nbrs f = Ok (f', out) /\ length f' = length f /\
      Forall2 (fun js o => length (snd o) = length js) nbrs out.
  Proof. intros nbrs f HT. apply (point_loop_total nbrs (length f) HT nbrs []); auto. Qed.

  (** invariant of the loop *)
  Lemma bond_loop_inv : forall nbrs (I : list (V3 N) -> Prop),
    (forall f f2 p k j d fb s vn vs, bond_step nbrs f f2 p k j d fb s vn vs -> I f -> I f2) ->
    forall p js d, nth_error nbrs p = Some js -> pre _ _ K p (offset nbrs p) js = Ok d ->
    forall post pre_js, js = pre_js ++ post -> forall f f' ss,
    bond_loop K d p (offset nbrs p + length pre_js) post f = Ok (f', ss) -> I f -> I f'.
  Proof.
    intros nbrs I HI p js d Hp Hpre. induction post as [|j post IH]; intros pre_js E f f' ss H Hf; simpl in H.
    - injection H as <- _. auto.
    - apply bind_Ok in H as [[fb s] [Eb H]]. apply bind_Ok in H as [[vn vs] [Ev H]].
      apply bind_Ok in H as [f1 [E1 H]]. apply bind_Ok in H as [f2 [E2 H]].
      apply bind_Ok in H as [[f3 ss'] [E3 H]]. injection H as <- _.
      assert (Hb : bond_at nbrs p (offset nbrs p + length pre_js) j).
      { exists js, (length pre_js). subst js. rewrite nth_app_here. auto. }
      eapply (IH (pre_js ++ [j])); [subst; now rewrite <- app_assoc| |].
      + rewrite app_length. simpl. replace (offset nbrs p + (length pre_js + 1)) with (Datatypes.S (offset nbrs p + length pre_js)) by lia. eauto.
      + eapply HI; [|exact Hf]. exists js, f1. repeat split; eauto.
  Qed.
  Lemma point_loop_inv : forall nbrs (I : list (V3 N) -> Prop),
    (forall f f2 p k j d fb s vn vs, bond_step nbrs f f2 p k j d fb s vn vs -> I f -> I f2) ->
    forall todo done, nbrs = done ++ todo -> forall f f' out,
    point_loop K (length done) (num_bonds done) todo f = Ok (f', out) -> I f -> I f'.
  Proof.
    intros nbrs I HI. induction todo as [|js todo IH]; intros done E f f' out H Hf; simpl in H.
    - injection H as <- _. auto.
    - apply bind_Ok in H as [d [Ed H]]. apply bind_Ok in H as [[f1 ss] [E1 H]]. apply bind_Ok in H as [[f2 r] [E2 H]].
      injection H as <- _.
      assert (Hp : nth_error nbrs (length done) = Some js) by (rewrite E; apply nth_app_here).
      assert (Ho : offset nbrs (length done) = num_bonds done) by (rewrite E; apply offset_app).
      rewrite <- Ho in Ed, E1.
      eapply (IH (done ++ [js])); [subst; now rewrite <- app_assoc| |].
      + rewrite app_length. simpl. rewrite Nat.add_1_r, num_bonds_app.
        replace (num_bonds done + num_bonds [js]) with (length js + num_bonds done) by (unfold num_bonds; simpl; lia). eauto.
      + eapply (bond_loop_inv nbrs I HI _ _ _ Hp Ed js []); eauto. simpl. rewrite Nat.add_0_r. eauto.
  Qed.
  Lemma run_inv : forall nbrs (I : list (V3 N) -> Prop),
    (forall f f2 p k j d fb s vn vs, bond_step nbrs f f2 p k j d fb s vn vs -> I f -> I f2) ->
    forall f f' out, run_kernel K nbrs f = Ok (f', out) -> I f -> I f'.
  Proof. intros nbrs I HI f f' out. apply (point_loop_inv nbrs I HI nbrs []). reflexivity. Qed.

  (** outputs per point *)
  Lemma bond_loop_out : forall p js d k f f' ss, bond_loop K d p k js f = Ok (f', ss) ->
    length ss = length js /\ forall n j, nth_error js n = Some j -> exists fb s, bond _ _ K d p (k + n) j = Ok (fb, s) /\ nth_error ss n = Some s.
  Proof.
    induction js as [|j js IH]; intros d k f f' ss H; simpl in H.
    - injection H as _ <-. split; auto. intros [|]; discriminate.
    - apply bind_Ok in H as [[fb s] [Eb H]]. apply bind_Ok in H as [[vn vs] [Ev H]].
      apply bind_Ok in H as [f1 [E1 H]]. apply bind_Ok in H as [f2 [E2 H]].
      apply bind_Ok in H as [[f3 ss'] [E3 H]]. injection H as _ <-.
      destruct (IH _ _ _ _ _ E3) as [L R]. split; [simpl; lia|]. intros [|n] j' Hn; simpl in *.
      + injection Hn as <-. rewrite Nat.add_0_r. eauto.
      + destruct (R n j' Hn) as (fb' & s' & R1 & R2). exists fb', s'. split; auto. now rewrite Nat.add_succ_r.
  Qed.
  Lemma point_loop_out : forall nbrs todo done, nbrs = done ++ todo -> forall f f' out,
    point_loop K (length done) (num_bonds done) todo f = Ok (f', out) ->
    length out = length todo /\
    forall p js, nth_error todo p = Some js -> exists d ss, nth_error out p = Some (d, ss) /\
      pre _ _ K (length done + p) (offset nbrs (length done + p)) js = Ok d /\ length ss = length js /\
      forall n j, nth_error js n = Some j -> exists fb s,
        bond _ _ K d (length done + p) (offset nbrs (length done + p) + n) j = Ok (fb, s) /\ nth_error ss n = Some s.
  Proof.
    intros nbrs. induction todo as [|js todo IH]; intros done E f f' out H; simpl in H.
    - injection H as _ <-. split; auto. intros [|]; discriminate.
    - apply bind_Ok in H as [d [Ed H]]. apply bind_Ok in H as [[f1 ss] [E1 H]]. apply bind_Ok in H as [[f2 r] [E2 H]].
      injection H as _ <-.
      assert (Ho : offset nbrs (length done) = num_bonds done) by (rewrite E; apply offset_app).
      destruct (IH (done ++ [js])) with (f := f1) (f' := f2) (out := r) as [L R]; [subst; now rewrite <- app_assoc| |].
      { rewrite app_length. simpl. rewrite Nat.add_1_r, num_bonds_app.
        replace (num_bonds done + num_bonds [js]) with (length js + num_bonds done) by (unfold num_bonds; simpl; lia). auto. }
      split; [simpl; lia|]. intros [|p] js' Hp; simpl in *.
      + injection Hp as <-. rewrite Nat.add_0_r, Ho. destruct (bond_loop_out _ _ _ _ _ _ _ E1) as [L1 R1]. eauto 6.
      + destruct (R p js' Hp) as (d' & ss' & R1 & R2 & R3 & R4). exists d', ss'.
        rewrite app_length in R2, R4. simpl in R2, R4.
        replace (length done + 1 + p) with (length done + Datatypes.S p) in R2, R4 by lia. auto.
  Qed.
  Lemma run_out : forall nbrs f f' out, run_kernel K nbrs f = Ok (f', out) ->
    length out = length nbrs /\
    forall p js, nth_error nbrs p = Some js -> exists d ss, nth_error out p = Some (d, ss) /\
      pre _ _ K p (offset nbrs p) js = Ok d /\ length ss = length js /\
      forall n j, nth_error js n = Some j -> exists fb s,
        bond _ _ K d p (offset nbrs p + n) j = Ok (fb, s) /\ nth_error ss n = Some s.
  Proof. intros nbrs f f' out H. exact (point_loop_out nbrs nbrs [] eq_refl f f' out H). Qed.

  Lemma run_len : forall nbrs f f' out, run_kernel K nbrs f = Ok (f', out) -> length f' = length f.
  Proof.
    intros nbrs f f' out H. apply (run_inv nbrs (fun g => length g = length f)) in H; auto.
    intros g g2 p k j d fb s vn vs (js & f1 & _ & _ & _ & _ & _ & E1 & E2) Hg.
    apply add_at_len in E1. apply sub_at_len in E2. congruence.
  Qed.
End Generic.

(** ** two runs side by side *)
Section Sim.
  Context {N : Num} {D1 S1 D2 S2 : Type} (K1 : kernel N D1 S1) (K2 : kernel N D2 S2).
  Variable L : V3 N -> V3 N.
  Definition linear : Prop :=
    (forall a b, L (vadd a b) = vadd (L a) (L b)) /\ (forall a b, L (vsub a b) = vsub (L a) (L b)) /\
    (forall a k, L (vmulr a k) = vmulr (L a) k).
  Variable RD : nat -> D1 -> D2 -> Prop.
  Variable RS : nat -> S1 -> S2 -> Prop.
  Definition matching (nbrs : list (list nat)) : Prop :=
    (forall p js d1, nth_error nbrs p = Some js -> pre _ _ K1 p (offset nbrs p) js = Ok d1 ->
       exists d2, pre _ _ K2 p (offset nbrs p) js = Ok d2 /\ RD p d1 d2) /\
    (forall p k j d1 d2 fb s, bond_at nbrs p k j -> RD p d1 d2 -> bond _ _ K1 d1 p k j = Ok (fb, s) ->
       exists s2, bond _ _ K2 d2 p k j = Ok (L fb, s2) /\ RS k s s2) /\
    (forall p k j r, bond_at nbrs p k j -> vols _ _ K1 p k j = Ok r -> vols _ _ K2 p k j = Ok r).

  Lemma upd_map : forall A B (g : A -> B) l i a l', upd l i a = Some l' -> upd (map g l) i (g a) = Some (map g l').
  Proof.
    induction l; intros i b l' H; simpl in *; [discriminate|]. destruct i; [injection H as <-; reflexivity|].
    destruct (upd l i b) eqn:E; [|discriminate]. injection H as <-. simpl. now rewrite (IHl _ _ _ E).
  Qed.
  Lemma at_ub_map : forall A B (g : A -> B) l i a, at_ub l i = Ok a -> at_ub (map g l) i = Ok (g a).
  Proof. intros A B g l i a H. apply at_ub_Ok in H. unfold at_ub. now rewrite (map_nth_error g i l H). Qed.
  Lemma add_at_map : linear -> forall f i v f', add_at f i v = Ok f' -> add_at (map L f) i (L v) = Ok (map L f').
  Proof.
    intros (H1 & H2 & H3) f i v f' H. unfold add_at in *. apply bind_Ok in H as [a [E H]].
    rewrite (at_ub_map _ _ _ _ _ _ E). cbn [bind]. unfold upd_ub in *. destruct (upd f i (vadd a v)) eqn:U; [|discriminate].
    injection H as <-. rewrite <- H1. now rewrite (upd_map _ _ L _ _ _ _ U).
  Qed.
  Lemma sub_at_map : linear -> forall f i v f', sub_at f i v = Ok f' -> sub_at (map L f) i (L v) = Ok (map L f').
  Proof.
    intros (H1 & H2 & H3) f i v f' H. unfold sub_at in *. apply bind_Ok in H as [a [E H]].
    rewrite (at_ub_map _ _ _ _ _ _ E). cbn [bind]. unfold upd_ub in *. destruct (upd f i (vsub a v)) eqn:U; [|discriminate].
    injection H as <-. rewrite <- H2. now rewrite (upd_map _ _ L _ _ _ _ U).
  Qed.

  (** bond states with their running index *)
  Fixpoint same_states (k : nat) (a : list S1) (b : list S2) {struct a} : Prop :=
    match a, b with
    | [], [] => True
    | s1 :: a', s2 :: b' => RS k s1 s2 /\ same_states (1 + k) a' b'
    | _, _ => False
    end.
  Fixpoint same_out (p k : nat) (a : list (D1 * list S1)) (b : list (D2 * list S2)) {struct a} : Prop :=
    match a, b with
    | [], [] => True
    | (d1, s1) :: a', (d2, s2) :: b' => RD p d1 d2 /\ same_states k s1 s2 /\ same_out (1 + p) (length s1 + k) a' b'
    | _, _ => False
    end.

  Lemma bond_loop_sim : linear -> forall nbrs, matching nbrs -> forall p js d1 d2, nth_error nbrs p = Some js -> RD p d1 d2 ->
    forall post pre_js, js = pre_js ++ post -> forall f f' ss,
    bond_loop K1 d1 p (offset nbrs p + length pre_js) post f = Ok (f', ss) ->
    exists ss2, bond_loop K2 d2 p (offset nbrs p + length pre_js) post (map L f) = Ok (map L f', ss2) /\
      same_states (offset nbrs p + length pre_js) ss ss2 /\ length ss = length post.
  Proof.
    intros HL nbrs (HP & HB & HV) p js d1 d2 Hp HD. induction post as [|j post IH]; intros pre_js E f f' ss H; simpl in H.
    - injection H as <- <-. exists []. simpl. auto.
    - apply bind_Ok in H as [[fb s] [Eb H]]. apply bind_Ok in H as [[vn vs] [Ev H]].
      apply bind_Ok in H as [f1 [E1 H]]. apply bind_Ok in H as [f2 [E2 H]].
      apply bind_Ok in H as [[f3 ss'] [E3 H]]. injection H as <- <-.
      assert (Hb : bond_at nbrs p (offset nbrs p + length pre_js) j).
      { exists js, (length pre_js). subst js. rewrite nth_app_here. auto. }
      destruct (HB _ _ _ _ _ _ _ Hb HD Eb) as (s2 & Eb2 & HS).
      destruct (IH (pre_js ++ [j])) with (f := f2) (f' := f3) (ss := ss') as (ss2 & R1 & R2 & R3);
        [subst; now rewrite <- app_assoc| |].
      { rewrite app_length. simpl. now replace (offset nbrs p + (length pre_js + 1)) with (S (offset nbrs p + length pre_js)) by lia. }
      rewrite app_length in R1, R2. simpl in R1, R2.
      replace (offset nbrs p + (length pre_js + 1)) with (S (offset nbrs p + length pre_js)) in R1, R2 by lia.
      exists (s2 :: ss2). simpl. rewrite Eb2. cbn [bind]. rewrite (HV _ _ _ _ Hb Ev). cbn [bind].
      destruct HL as (L1 & L2 & L3). rewrite <- !L3.
      rewrite (add_at_map (conj L1 (conj L2 L3)) _ _ _ _ E1). cbn [bind].
      rewrite (sub_at_map (conj L1 (conj L2 L3)) _ _ _ _ E2). cbn [bind]. rewrite R1. cbn [bind]. auto.
  Qed.
  Lemma point_loop_sim : linear -> forall nbrs, matching nbrs -> forall todo done, nbrs = done ++ todo ->
    forall f f' out, point_loop K1 (length done) (num_bonds done) todo f = Ok (f', out) ->
    exists out2, point_loop K2 (length done) (num_bonds done) todo (map L f) = Ok (map L f', out2) /\
      same_out (length done) (num_bonds done) out out2.
  Proof.
    intros HL nbrs HM. induction todo as [|js todo IH]; intros done E f f' out H; simpl in H.
    - injection H as <- <-. exists []. simpl. auto.
    - apply bind_Ok in H as [d [Ed H]]. apply bind_Ok in H as [[f1 ss] [E1 H]]. apply bind_Ok in H as [[f2 r] [E2 H]].
      injection H as <- <-.
      assert (Hp : nth_error nbrs (length done) = Some js) by (rewrite E; apply nth_app_here).
      assert (Ho : offset nbrs (length done) = num_bonds done) by (rewrite E; apply offset_app).
      rewrite <- Ho in Ed, E1.
      destruct (proj1 HM _ _ _ Hp Ed) as (d2 & Ed2 & HD).
      destruct (bond_loop_sim HL nbrs HM _ _ _ _ Hp HD js [] eq_refl f f1 ss) as (ss2 & R1 & R2 & R3).
      { simpl. now rewrite Nat.add_0_r. }
      simpl in R1, R2. rewrite Nat.add_0_r in R1, R2.
      destruct (IH (done ++ [js])) with (f := f1) (f' := f2) (out := r) as (out2 & Q1 & Q2); [subst; now rewrite <- app_assoc| |].
      { rewrite app_length. simpl. rewrite Nat.add_1_r, num_bonds_app.
        now replace (num_bonds done + num_bonds [js]) with (length js + num_bonds done) by (unfold num_bonds; simpl; lia). }
      rewrite app_length in Q1, Q2. simpl in Q1, Q2. rewrite Nat.add_1_r, num_bonds_app in Q1, Q2.
      replace (num_bonds done + num_bonds [js]) with (length js + num_bonds done) in Q1, Q2 by (unfold num_bonds; simpl; lia).
      exists ((d2, ss2) :: out2). simpl. rewrite <- Ho. rewrite Ed2. cbn [bind]. rewrite R1. cbn [bind]. rewrite Ho, Q1. cbn [bind].
      split; auto. split; auto. split; [now rewrite <- Ho|]. rewrite R3. auto.
  Qed.
  Lemma run_sim : linear -> forall nbrs, matching nbrs -> forall f f' out, run_kernel K1 nbrs f = Ok (f', out) ->
    exists out2, run_kernel K2 nbrs (map L f) = Ok (map L f', out2) /\ same_out 0 0 out out2.
  Proof. intros HL nbrs HM f f' out H. exact (point_loop_sim HL nbrs HM nbrs [] eq_refl f f' out H). Qed.
End Sim.

(** ** totals over the reals *)
Section Real.
  Local Open Scope R_scope.
  Local Notation vec := (V3 RN).

  Fixpoint gsum (g : nat -> vec -> R) (i : nat) (f : list vec) : R :=
    match f with [] => 0 | a :: t => g i a + gsum g (S i) t end.
  Definition additive (g : vec -> R) : Prop :=
    (forall a b, g (vadd a b) = g a + g b) /\ (forall a b, g (vsub a b) = g a - g b).

  Lemma gsum_upd : forall g f i0 i a b f', nth_error f i = Some a -> upd f i b = Some f' ->
    gsum g i0 f' = gsum g i0 f - g (i0 + i)%nat a + g (i0 + i)%nat b.
  Proof.
    induction f; intros i0 i c b f' H U; [destruct i; discriminate|]. destruct i; simpl in *.
    - injection H as ->. injection U as <-. simpl. rewrite Nat.add_0_r. ring.
    - destruct (upd f i b) eqn:E; [|discriminate]. injection U as <-. simpl.
      rewrite (IHf _ _ _ _ _ H E). replace (S i0 + i)%nat with (i0 + S i)%nat by lia. ring.
  Qed.
  Lemma gsum_add : forall g f f' i v, additive (g i) -> add_at f i v = Ok f' -> gsum g 0 f' = gsum g 0 f + g i v.
  Proof.
    intros g f f' i v [Ha Hs] H. unfold add_at in H. apply bind_Ok in H as [a [H1 H2]]. apply at_ub_Ok in H1.
    unfold upd_ub in H2. destruct (upd f i (vadd a v)) eqn:E; [|discriminate]. injection H2 as <-.
    rewrite (gsum_upd g f 0 i a _ _ H1 E). simpl. rewrite Ha. ring.
  Qed.
  Lemma gsum_sub : forall g f f' i v, additive (g i) -> sub_at f i v = Ok f' -> gsum g 0 f' = gsum g 0 f - g i v.
  Proof.
    intros g f f' i v [Ha Hs] H. unfold sub_at in H. apply bind_Ok in H as [a [H1 H2]]. apply at_ub_Ok in H1.
    unfold upd_ub in H2. destruct (upd f i (vsub a v)) eqn:E; [|discriminate]. injection H2 as <-.
    rewrite (gsum_upd g f 0 i a _ _ H1 E). simpl. rewrite Hs. ring.
  Qed.

  (** the generic conservation argument *)
  Lemma run_conserves : forall D S (K : kernel RN D S) nbrs (g : nat -> vec -> R),
    (forall i, additive (g i)) ->
    (forall p k j js d fb s vn vs, nth_error nbrs p = Some js -> pre _ _ K p (offset nbrs p) js = Ok d ->
        bond_at nbrs p k j -> bond _ _ K d p k j = Ok (fb, s) -> vols _ _ K p k j = Ok (vn, vs) ->
        g p (vmulr fb vn) = g j (vmulr fb vs)) ->
    forall f f' out, run_kernel K nbrs f = Ok (f', out) -> gsum g 0 f' = gsum g 0 f.
  Proof.
    intros D S K nbrs g Ha Hb f f' out H.
    apply (run_inv K nbrs (fun h => gsum g 0 h = gsum g 0 f)) in H; auto.
    intros h h2 p k j d fb s vn vs (js & f1 & Q1 & Q2 & Q3 & Q4 & Q5 & E1 & E2) Hh.
    rewrite (gsum_sub g _ _ _ _ (Ha j) E2), (gsum_add g _ _ _ _ (Ha p) E1), Hh.
    rewrite (Hb p k j js d fb s vn vs Q1 Q2 Q3 Q4 Q5). ring.
  Qed.

  Lemma nth_tail : forall A (w : list A) i0 d a (v : list A), (forall i, nth (i0 + i) w d = nth i (a :: v) d) ->
    nth i0 w d = a /\ forall i, nth (S i0 + i) w d = nth i v d.
  Proof.
    intros A w i0 d a v H. split; [specialize (H 0%nat); now rewrite Nat.add_0_r in H|].
    intros i. specialize (H (S i)). now rewrite Nat.add_succ_r in H.
  Qed.
  Lemma momentum_gsum : forall (pr : vec -> R), (forall a b, pr (vadd a b) = pr a + pr b) ->
    (forall k a, pr (vscale (N:=RN) k a) = k * pr a) -> pr vzero = 0 ->
    forall f v i0 (w : list R), length v = length f -> (forall i, nth (i0 + i) w 0 = nth i v 0) ->
    pr (momentum v f) = gsum (fun i a => nth i w 0 * pr a) i0 f.
  Proof.
    intros pr Ha Hs H0. induction f as [|a f IH]; intros v i0 w L Hw; simpl.
    - destruct v; auto.
    - destruct v as [|r v]; [discriminate|]. apply nth_tail in Hw as [E Hw].
      rewrite Ha, Hs, E. f_equal. apply IH; auto.
  Qed.

  Lemma additive_scaled : forall (pr : vec -> R) c, (forall a b, pr (vadd a b) = pr a + pr b) ->
    (forall a b, pr (vsub a b) = pr a - pr b) -> additive (fun a => c * pr a).
  Proof. intros pr c H1 H2. split; intros; [rewrite H1|rewrite H2]; ring. Qed.

  Definition balanced {D S} (K : kernel RN D S) (nbrs : list (list nat)) (v : list R) : Prop :=
    forall p k j vn vs, bond_at nbrs p k j -> vols _ _ K p k j = Ok (vn, vs) ->
      nth p v 0 * vn = nth j v 0 * vs.

  Lemma run_momentum : forall D S (K : kernel RN D S) nbrs v, balanced K nbrs v ->
    forall f f' out, length v = length f -> run_kernel K nbrs f = Ok (f', out) -> momentum v f' = momentum v f.
  Proof.
    intros D S K nbrs v Hv f f' out L H. pose proof (run_len K _ _ _ _ H) as L'.
    assert (G : forall pr : vec -> R, (forall a b, pr (vadd a b) = pr a + pr b) -> (forall a b, pr (vsub a b) = pr a - pr b) ->
       (forall k a, pr (vscale (N:=RN) k a) = k * pr a) -> (forall k a, pr (vmulr a k) = pr a * k) -> pr vzero = 0 ->
       pr (momentum v f') = pr (momentum v f)).
    { intros pr P1 P2 P3 P4 P5.
      rewrite !(momentum_gsum pr P1 P3 P5 _ v 0 v) by (auto; congruence).
      eapply run_conserves; [| |exact H].
      - intros i. now apply additive_scaled.
      - intros p k j js d fb s vn vs _ _ Hb _ Hvol. cbv beta. rewrite !P4.
        pose proof (Hv p k j vn vs Hb Hvol) as E.
        replace (nth p v 0 * (pr fb * vn)) with (nth p v 0 * vn * pr fb) by ring. rewrite E. ring. }
    apply v3_ext; [apply (G (@vx RN))|apply (G (@vy RN))|apply (G (@vz RN))]; intros; try reflexivity; destruct a; cbn; to_R; ring.
  Qed.

  Lemma cell_volumes_balanced : forall D S (K : kernel RN D S) nbrs v,
    vols _ _ K = cell_volumes v -> balanced K nbrs v.
  Proof.
    intros D S K nbrs v E p k j vn vs Hb H. rewrite E in H. unfold cell_volumes in H.
    apply bind_Ok in H as [a [H1 H]]. apply bind_Ok in H as [b [H2 H]]. injection H as <- <-.
    apply at_ub_Ok in H1, H2. pose proof (nth_error_nth v j 0 H1) as X1. pose proof (nth_error_nth v p 0 H2) as X2.
    etransitivity; [exact (f_equal (fun r => r * a) X2)|]. etransitivity; [|exact (f_equal (fun r => r * b) (eq_sym X1))]. apply Rmult_comm.
  Qed.

  (** moments *)
  Lemma moment_gsum : forall (pr : vec -> R), (forall a b, pr (vadd a b) = pr a + pr b) ->
    (forall k a, pr (vscale (N:=RN) k a) = k * pr a) -> pr vzero = 0 ->
    forall f v pos i0 (w : list R) (ps : list vec), length v = length f -> length pos = length f ->
      (forall i, nth (i0 + i) w 0 = nth i v 0) -> (forall i, nth (i0 + i) ps vzero = nth i pos vzero) ->
    pr (moment v pos f) = gsum (fun i a => nth i w 0 * pr (vcross (nth i ps vzero) a)) i0 f.
  Proof.
    intros pr Ha Hs H0. induction f as [|a f IH]; intros v pos i0 w ps L1 L2 Hw Hp; simpl.
    - destruct v; auto. destruct pos; auto.
    - destruct v as [|r v]; [discriminate|]. destruct pos as [|q pos]; [discriminate|].
      apply nth_tail in Hw as [E Hw]. apply nth_tail in Hp as [E' Hp].
      rewrite Ha, Hs, E, E'. f_equal. apply IH; auto.
  Qed.

  (** bond force parallel to the bond between positions [pos] *)
  Definition parallel_on {D S} (K : kernel RN D S) (nbrs : list (list nat)) (pos : list vec) : Prop :=
    forall p k j js d fb s, nth_error nbrs p = Some js -> pre _ _ K p (offset nbrs p) js = Ok d ->
      bond_at nbrs p k j -> bond _ _ K d p k j = Ok (fb, s) ->
      vcross (vsub (nth j pos vzero) (nth p pos vzero)) fb = vzero.

  Lemma run_moment : forall D S (K : kernel RN D S) nbrs v pos, balanced K nbrs v -> parallel_on K nbrs pos ->
    forall f f' out, length v = length f -> length pos = length f ->
    run_kernel K nbrs f = Ok (f', out) -> moment v pos f' = moment v pos f.
  Proof.
    intros D S K nbrs v pos Hv Hpar f f' out L1 L2 H. pose proof (run_len K _ _ _ _ H) as L'.
    assert (G : forall pr : vec -> R, (forall a b, pr (vadd a b) = pr a + pr b) -> (forall a b, pr (vsub a b) = pr a - pr b) ->
       (forall k a, pr (vscale (N:=RN) k a) = k * pr a) -> pr vzero = 0 ->
       pr (moment v pos f') = pr (moment v pos f)).
    { intros pr P1 P2 P3 P5.
      assert (Ca : forall q a b : vec, vcross q (vadd a b) = vadd (vcross q a) (vcross q b))
        by (intros [] [] []; apply v3_ext; cbn; to_R; ring).
      assert (Cs : forall q a b : vec, vcross q (vsub a b) = vsub (vcross q a) (vcross q b))
        by (intros [] [] []; apply v3_ext; cbn; to_R; ring).
      assert (Cm : forall (q a : vec) (k : R), vcross q (vmulr (N:=RN) a k) = vscale (N:=RN) k (vcross q a))
        by (intros [] [] ?; apply v3_ext; cbn; to_R; ring).
      rewrite !(moment_gsum pr P1 P3 P5 _ v pos 0 v pos) by (auto; congruence).
      eapply run_conserves; [| |exact H].
      - intros i. split; intros; [rewrite Ca, P1|rewrite Cs, P2]; ring.
      - intros p k j js d fb s vn vs Q1 Q2 Hb Q3 Hvol. cbv beta. rewrite !Cm, !P3.
        pose proof (Hv p k j vn vs Hb Hvol) as E.
        pose proof (Hpar p k j js d fb s Q1 Q2 Hb Q3) as E2.
        assert (E3 : vcross (nth j pos vzero) fb = vcross (nth p pos vzero) fb).
        { revert E2. generalize (nth j pos (@vzero RN)) (nth p pos (@vzero RN)). intros [a1 a2 a3] [b1 b2 b3] E2.
          destruct fb as [c1 c2 c3]. injection E2 as X1 X2 X3. revert X1 X2 X3. cbn. to_R. intros X1 X2 X3.
          apply v3_ext; cbn; to_R; lra. }
        rewrite E3. rewrite <- !Rmult_assoc, E. reflexivity. }
    apply v3_ext; [apply (G (@vx RN))|apply (G (@vy RN))|apply (G (@vz RN))]; intros; reflexivity.
  Qed.
End Real.
