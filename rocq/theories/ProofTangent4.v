From Coq Require Import Reals Lra Lia.
From Verif Require Import Base Num ModelForce ModelTangent SpecCorr SpecTangent ProofData ProofCorr ProofTangent ProofTangent2 ProofTangent3.
Local Open Scope nat_scope.

(** ** one point *)
Definition step_adds (es : list (nat * nat)) (step : scratch RN * matrix RN -> outcome (scratch RN * matrix RN)) (g : nat -> nat -> R) : Prop :=
  forall S M, entries M = es -> exists S' M', step (S, M) = Ok (S', M') /\ entries M' = es /\ forall r c, value M' r c = (value M r c + g r c)%R.

Lemma make_room_dim : forall (S : scratch RN) d, d <= s_dim (make_room S d).
Proof. intros S d. unfold make_room. destruct (Nat.ltb_spec (s_dim S) d); cbn; lia. Qed.

Lemma point_adds : forall jt L eps dt gs U es G g, let nd := l_all L in let dim := nd * length gs in nd <> 0 -> 2 <= length gs -> length (l_vol U) = length gs ->
  (forall D, dim <= D -> writer G D (fun r c => r < dim /\ c < dim) (fun S => fd_columns (N:=RN) L eps dt (length gs - 1) U S)) ->
  (forall S : scratch RN, dim <= s_dim S -> (forall r c, r < dim -> c < dim -> s_data S r c = Some (G r c * nth (r / nd) (l_vol U) 0)%R) -> adds es (fun M => load jt M (indices nd gs) S) g) ->
  step_adds es (fd_point (N:=RN) (fun _ => true) jt L eps dt gs U) g.
Proof.
  intros jt L eps dt gs U es G g nd dim Hnd H2 HV HC HL S M HM. unfold fd_point. cbv zeta. cbn [fst snd].
  destruct (Nat.eqb_spec (length gs - 1) 0); [lia|]. replace (length gs - 1 + 1) with (length gs) by lia. fold nd dim.
  pose proof (make_room_dim S dim) as HD. set (S0 := make_room S dim) in *.
  destruct (HC (s_dim S0) HD S0 eq_refl) as (S1 & E1 & D1 & W1 & _). rewrite E1. cbn [bind].
  destruct (times_volume_ok nd dim (l_vol U) S1 G) as (S2 & E2 & D2 & W2).
  { lia. } { intros r Hr. rewrite HV. apply Nat.div_lt_upper_bound; auto. } { intros; apply W1; auto. }
  rewrite E2. cbn [bind]. rewrite all_finite_ok; [|lia|intros r c Hr Hc; rewrite W2 by auto; discriminate]. cbn [bind].
  destruct (HL S2) with (M := M) as (M' & EM & T & V); auto; [lia|]. rewrite EM. cbn [bind]. exists S2, M'. auto.
Qed.

(** the contribution of a neighbourhood to an entry *)
Definition evaluated (nd : nat) (n : nbhd) (Y V : field) (dt : R) (j b : nat) (s : R) : list R :=
  n_force n (at_points nd (nudge Y j b s) (n_gids n)) (at_points nd (nudge V j b (s / dt)) (n_gids n)).
Definition share (nd : nat) (eps : R) (n : nbhd) (Y V : field) (W : nat -> R) (dt : R) (i a j b : nat) : R :=
  (W i * ((on_point nd (n_gids n) (evaluated nd n Y V dt j b eps) i a - on_point nd (n_gids n) (evaluated nd n Y V dt j b (- eps)) i a) / (2 * eps)))%R.

Lemma column_at : forall nd eps n Y V dt m a m' b j, nth_error (n_gids n) m' = Some j -> b < nd ->
  column nd eps n Y V dt (nd * m' + b) (nd * m + a) =
  ((nth (nd * m + a) (evaluated nd n Y V dt j b eps) 0 - nth (nd * m + a) (evaluated nd n Y V dt j b (- eps)) 0) / (2 * eps))%R.
Proof.
  intros. unfold column. rewrite index_div, index_mod by auto. rewrite (nth_error_nth _ _ 0 H). unfold evaluated.
  unfold Rdiv. rewrite Rinv_mult. ring.
Qed.
Lemma on_point_one : forall nd gs f i a m, NoDup gs -> nth_error gs m = Some i -> on_point nd gs f i a = nth (nd * m + a) f 0%R.
Proof. intros nd gs f i a m ND H. exact (nodup_numbered gs (fun m => nth (nd * m + a) f 0%R) m i ND H). Qed.
Lemma on_point_away : forall nd gs f i a, ~ In i gs -> on_point nd gs f i a = 0%R.
Proof. intros nd gs f i a H. exact (away_numbered gs (fun m => nth (nd * m + a) f 0%R) i H). Qed.

Section Share.
  Context (nd : nat) (eps : R) (n : nbhd) (Y V : field) (W : nat -> R) (dt : R).
  Let gs := n_gids n.
  Context (ND : NoDup gs).
  Let A (r c : nat) : R := (column nd eps n Y V dt c r * nth (r / nd) (map W gs) 0)%R.
  Lemma A_at : forall m a m' b i j, nth_error gs m = Some i -> nth_error gs m' = Some j -> a < nd -> b < nd ->
    A (nd * m + a) (nd * m' + b) = share nd eps n Y V W dt i a j b.
  Proof.
    intros m a m' b i j Hi Hj Ha Hb. unfold A. rewrite (column_at nd eps n Y V dt m a m' b j) by auto. rewrite index_div by auto.
    rewrite (nth_error_nth (map W gs) m 0%R (x := W i)) by now apply map_nth_error. unfold share.
    rewrite !(on_point_one nd (n_gids n) _ i a m) by auto. ring.
  Qed.
  Lemma share_away : forall i a j b, ~ (In i gs /\ In j gs) -> share nd eps n Y V W dt i a j b = 0%R.
  Proof.
    intros i a j b H. unfold share. destruct (in_dec Nat.eq_dec i gs) as [Hi|Hi]; [|rewrite !on_point_away by auto; unfold Rdiv; ring].
    assert (Hj : ~ In j gs) by tauto. unfold evaluated. rewrite !nudge_away by auto. unfold Rdiv. ring.
  Qed.
  Lemma In_nth : forall i, In i gs -> exists m, nth_error gs m = Some i.
  Proof. intros. now apply In_nth_error. Qed.
  Lemma full_share : forall i a j b, a < nd -> b < nd ->
    sum_over (fun ig => ind (Nat.eqb (snd ig) (nd * i + a)) (sum_over (fun jg => ind (Nat.eqb (snd jg) (nd * j + b)) (A (fst ig) (fst jg))) (numbered (indices nd gs)))) (numbered (indices nd gs))
    = share nd eps n Y V W dt i a j b.
  Proof.
    intros i a j b Ha Hb.
    etransitivity; [exact (pick nd gs (fun r _ => sum_over (fun jg => ind (Nat.eqb (snd jg) (nd * j + b)) (A r (fst jg))) (numbered (indices nd gs))) i a Ha)|].
    pose (F m := sum_over (fun mg' => ind (Nat.eqb (snd mg') j) (A (nd * m + a) (nd * fst mg' + b))) (numbered gs)).
    transitivity (sum_over (fun mg => ind (Nat.eqb (snd mg) i) (F (fst mg))) (numbered gs)).
    { apply so_ext. intros [m g] _. cbn [fst snd]. unfold ind. rewrite (pick nd gs (fun c _ => A (nd * m + a) c) j b Hb). reflexivity. }
    destruct (in_dec Nat.eq_dec i gs) as [Hi|Hi]; [|rewrite (away_numbered gs F), share_away; tauto].
    destruct (In_nth _ Hi) as [m Hm]. rewrite (nodup_numbered gs F m i ND Hm). unfold F.
    destruct (in_dec Nat.eq_dec j gs) as [Hj|Hj]; [|rewrite (away_numbered gs (fun m' => A (nd * m + a) (nd * m' + b))), share_away; tauto].
    destruct (In_nth _ Hj) as [m' Hm']. rewrite (nodup_numbered gs (fun m' => A (nd * m + a) (nd * m' + b)) m' j ND Hm'). now apply A_at.
  Qed.
End Share.
Lemma diagonal_share : forall eps n Y V W dt, NoDup (n_gids n) -> forall i a j b, a < 3 -> b < 3 ->
    let A (r c : nat) : R := (column 3 eps n Y V dt c r * nth (r / 3) (map W (n_gids n)) 0)%R in
    sum_over (fun ig => ind (Nat.eqb (snd ig) (3 * i + a))
    (ind (Nat.eqb (3 * (snd ig / 3)) (3 * j + b)) (A (fst ig) (3 * (fst ig / 3))%nat) + ind (Nat.eqb (3 * (snd ig / 3) + 1) (3 * j + b)) (A (fst ig) (3 * (fst ig / 3) + 1)%nat)
     + ind (Nat.eqb (3 * (snd ig / 3) + 2) (3 * j + b)) (A (fst ig) (3 * (fst ig / 3) + 2)%nat))%R) (numbered (indices 3 (n_gids n)))
    = if Nat.eqb i j then share 3 eps n Y V W dt i a j b else 0%R.
Proof.
  intros eps n Y V W dt ND i a j b Ha Hb A. set (gs := n_gids n) in *.
  etransitivity; [exact (pick 3 gs (fun r s => (ind (Nat.eqb (3 * (s / 3)) (3 * j + b)) (A r (3 * (r / 3))%nat) + ind (Nat.eqb (3 * (s / 3) + 1) (3 * j + b)) (A r (3 * (r / 3) + 1)%nat)
     + ind (Nat.eqb (3 * (s / 3) + 2) (3 * j + b)) (A r (3 * (r / 3) + 2)%nat))%R) i a Ha)|].
  pose (F m := (ind (Nat.eqb (3 * i) (3 * j + b)) (A (3 * m + a)%nat (3 * m)%nat) + ind (Nat.eqb (3 * i + 1) (3 * j + b)) (A (3 * m + a)%nat (3 * m + 1)%nat)
     + ind (Nat.eqb (3 * i + 2) (3 * j + b)) (A (3 * m + a)%nat (3 * m + 2)%nat))%R).
  transitivity (sum_over (fun mg => ind (Nat.eqb (snd mg) i) (F (fst mg))) (numbered gs)).
  { apply so_ext. intros [m g] _. cbn [fst snd]. rewrite !index_div by auto. reflexivity. }
  destruct (in_dec Nat.eq_dec i gs) as [Hi|Hi].
  2:{ rewrite (away_numbered gs F) by auto. destruct (Nat.eqb i j); auto. symmetry. apply share_away. tauto. }
  destruct (In_nth_error _ _ Hi) as [m Hm].
  rewrite (nodup_numbered gs F m i ND Hm). unfold F.
  destruct (Nat.eqb_spec i j) as [<-|Ne].
  - rewrite <- (A_at 3 eps n Y V W dt ND m a m b i i Hm Hm Ha Hb). fold gs. change (column 3 eps n Y V dt (3 * m + b) (3 * m + a) * nth ((3 * m + a) / 3) (map W gs) 0)%R with (A (3 * m + a) (3 * m + b)).
    destruct b as [|[|[|b]]]; [| | |lia]; repeat (match goal with |- context [Nat.eqb ?x ?y] => destruct (Nat.eqb_spec x y); try lia end); cbn [ind]; rewrite ?Nat.add_0_r; ring.
  - repeat (match goal with |- context [Nat.eqb ?x ?y] => destruct (Nat.eqb_spec x y); try lia end). cbn [ind]. ring.
Qed.

(** all that the elements of a neighbourhood add *)
Definition gfull (nd : nat) (eps : R) (n : nbhd) (Y V : field) (W : nat -> R) (dt : R) (r c : nat) : R :=
  sum_over (fun ig => ind (Nat.eqb (snd ig) r) (sum_over (fun jg => ind (Nat.eqb (snd jg) c)
    (column nd eps n Y V dt (fst jg) (fst ig) * nth (fst ig / nd) (map W (n_gids n)) 0)%R) (numbered (indices nd (n_gids n))))) (numbered (indices nd (n_gids n))).
Definition gdiag (eps : R) (n : nbhd) (Y V : field) (W : nat -> R) (dt : R) (r c : nat) : R :=
  let A (r c : nat) : R := (column 3 eps n Y V dt c r * nth (r / 3) (map W (n_gids n)) 0)%R in
  sum_over (fun ig => ind (Nat.eqb (snd ig) r)
    (ind (Nat.eqb (3 * (snd ig / 3)) c) (A (fst ig) (3 * (fst ig / 3))%nat) + ind (Nat.eqb (3 * (snd ig / 3) + 1) c) (A (fst ig) (3 * (fst ig / 3) + 1)%nat)
     + ind (Nat.eqb (3 * (snd ig / 3) + 2) c) (A (fst ig) (3 * (fst ig / 3) + 2)%nat))%R) (numbered (indices 3 (n_gids n))).

Lemma room_In : forall nd es gs, (forall i a j b, In i gs -> In j gs -> a < nd -> b < nd -> In (nd * i + a, nd * j + b) es) ->
  forall g g', In g (indices nd gs) -> In g' (indices nd gs) -> In (g, g') es.
Proof. intros nd es gs H g g' H1 H2. apply In_indices in H1 as (i & a & Hi & Ha & ->), H2 as (j & b & Hj & Hb & ->). auto. Qed.

Lemma displacement_point_full : forall Y V W eps dt w n es, holds Y V W w n -> room 3 es [n] ->
  step_adds es (fd_point (N:=RN) (fun _ => true) Full (Layout 3 3 0 None) eps dt (fst w) (snd w)) (gfull 3 eps n Y V W dt).
Proof.
  intros Y V W eps dt [gs U] n es H HR. pose proof H as (E & ND & L2 & HY & HV & HW & HF). cbn [fst snd] in *. subst gs.
  apply point_adds with (G := fun r c => column 3 eps n Y V dt c r); auto; [discriminate|..].
  - rewrite HW. apply map_length.
  - intros D HD. exact (columns_displacement Y V W eps dt _ U n D H HD).
  - intros S HS HA. cbn [l_all] in *. cbn [load]. apply (add_values_adds es (indices 3 (n_gids n)) S (fun r c => column 3 eps n Y V dt c r * nth (r / 3) (map W (n_gids n)) 0)%R); rewrite ?indices_len; auto.
    + intros r c Hr Hc. rewrite HA, HW by auto. reflexivity.
    + apply room_In. intros. apply (HR n); cbn; auto.
Qed.
Lemma displacement_point_diagonal : forall Y V W eps dt w n es, holds Y V W w n -> (forall g a b, In g (n_gids n) -> a < 3 -> b < 3 -> In (3 * g + a, 3 * g + b) es) ->
  step_adds es (fd_point (N:=RN) (fun _ => true) Block_diagonal (Layout 3 3 0 None) eps dt (fst w) (snd w)) (gdiag eps n Y V W dt).
Proof.
  intros Y V W eps dt [gs U] n es H HR. pose proof H as (E & ND & L2 & HY & HV & HW & HF). cbn [fst snd] in *. subst gs.
  apply point_adds with (G := fun r c => column 3 eps n Y V dt c r); auto; [discriminate|..].
  - rewrite HW. apply map_length.
  - intros D HD. exact (columns_displacement Y V W eps dt _ U n D H HD).
  - intros S HS HA. cbn [l_all] in *. cbn [load]. apply (add_diagonal_adds es (n_gids n) S (fun r c => column 3 eps n Y V dt c r * nth (r / 3) (map W (n_gids n)) 0)%R); auto.
    intros r c Hr Hc. rewrite HA, HW by auto. reflexivity.
Qed.
Lemma temperature_point_full : forall Y V W eps dt w n es, holds_temperature Y W w n -> room 1 es [n] ->
  step_adds es (fd_point (N:=RN) (fun _ => true) Full (Layout 1 0 0 (Some 0)) eps dt (fst w) (snd w)) (gfull 1 eps n Y V W dt).
Proof.
  intros Y V W eps dt [gs U] n es H HR. pose proof H as (E & ND & L2 & HY & HW & HF). cbn [fst snd] in *. subst gs.
  apply point_adds with (G := fun r c => column 1 eps n Y V dt c r); auto; [discriminate|..].
  - rewrite HW. apply map_length.
  - cbn [l_all]. intros D HD. replace (1 * length (n_gids n)) with (length (n_gids n)) in * by lia. exact (columns_temperature Y V W eps dt _ U n D H HD).
  - intros S HS HA. cbn [l_all] in *. cbn [load]. apply (add_values_adds es (indices 1 (n_gids n)) S (fun r c => column 1 eps n Y V dt c r * nth (r / 1) (map W (n_gids n)) 0)%R); rewrite ?indices_len; auto.
    + intros r c Hr Hc. rewrite HA, HW by auto. reflexivity.
    + apply room_In. intros. apply (HR n); cbn; auto.
Qed.

(** ** all points *)
Lemma points_adds : forall X B es (step : list nat -> X -> _) (g : B -> nat -> nat -> R) work ns, Forall2 (fun w n => step_adds es (step (fst w) (snd w)) (g n)) work ns ->
  step_adds es (points (N:=RN) step work) (fun r c => sum_over (fun n => g n r c) ns).
Proof.
  intros X B es step g work ns H. induction H as [|w n work ns Hw _ IH]; intros S M HM; unfold points in *; cbn [foldM].
  - exists S, M. repeat split; auto. intros. rewrite so_nil. rring.
  - destruct (Hw S M HM) as (S1 & M1 & E1 & T1 & V1). rewrite E1. cbn [bind].
    destruct (IH S1 M1 T1) as (S2 & M2 & E2 & T2 & V2). exists S2, M2. repeat split; auto. intros. rewrite V2, V1, so_cons. rring.
Qed.
Lemma materials_adds : forall X B es (step : list nat -> X -> _) (g : B -> nat -> nat -> R) works ns,
  Forall2 (fun w n => step_adds es (step (fst w) (snd w)) (g n)) (concat (map snd works)) ns ->
  adds es (materials (N:=RN) step works) (fun r c => sum_over (fun n => g n r c) ns).
Proof.
  intros X B es step g. induction works as [|[S0 work] works IH]; intros ns H M HM; unfold materials in *; cbn [foldM map concat] in *.
  - inversion H; subst. exists M. repeat split; auto. intros. rewrite so_nil. rring.
  - apply Forall2_app_inv_l in H as (n1 & n2 & H1 & H2 & ->). cbn [fst snd] in *.
    destruct (points_adds X B es step g work n1 H1 S0 M HM) as (S1 & M1 & E1 & T1 & V1). rewrite E1. cbn [bind].
    destruct (IH n2 H2 M1 T1) as (M2 & E2 & T2 & V2). exists M2. repeat split; auto. intros. rewrite V2, V1, so_app. rring.
Qed.
Lemma share_sum : forall nd eps ns Y V W dt i a j b, sum_over (fun n => share nd eps n Y V W dt i a j b) ns = (W i * central nd ns Y V eps dt i a j b)%R.
Proof.
  intros. unfold central, body_force, share. rewrite so_mul. f_equal.
  replace (- (eps / dt))%R with (- eps / dt)%R by (unfold Rdiv; ring). rewrite <- so_sub. etransitivity; [|apply Rmult_comm]. rewrite <- so_mul. apply so_ext. intros n _. unfold evaluated, Rdiv. ring.
Qed.
