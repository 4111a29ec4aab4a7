(** * C03: field data follow their global ids when copied *)
From Verif Require Import Base ModelCopy SpecCopy ProofCopy.

(** If the source has all entities of the target with the same element sizes and as
    many vectors, the copy succeeds and every entity of the target then has exactly the
    values of the same global id in the source, in every vector; nothing else of the
    target's shape changes. *)
Theorem C03_copy_by_global_id :
  forall V (s t : multivec V),
    well_formed s -> well_formed t -> covers (mv_map s) (mv_map t) ->
    length (mv_vecs s) = length (mv_vecs t) ->
    exists r, copyMultiVector s t = Ok r /\ mv_map r = mv_map t /\ well_formed r /\
      length (mv_vecs r) = length (mv_vecs s) /\
      forall i vs vr gid, nth_error (mv_vecs s) i = Some vs -> nth_error (mv_vecs r) i = Some vr ->
        In gid (gids (mv_map t)) ->
        exists vals, values_of (mv_map s) vs gid = Some vals /\ values_of (mv_map t) vr gid = Some vals.
Proof. exact @copyMulti_ok. Qed.
Print Assumptions C03_copy_by_global_id.

(** It is refused exactly when an id is missing from the source, an element size or the
    number of vectors differs; it is never undefined. *)
Theorem C03_refused_iff :
  forall V (s t : multivec V),
    well_formed s -> well_formed t -> mv_vecs t <> [] ->
    (copyMultiVector s t = Err <->
     length (mv_vecs s) <> length (mv_vecs t) \/ ~ covers (mv_map s) (mv_map t)).
Proof. exact @copyMulti_err. Qed.
Print Assumptions C03_refused_iff.

Theorem C03_never_undefined :
  forall V (s t : multivec V), well_formed s -> well_formed t -> mv_vecs t <> [] ->
    copyMultiVector s t <> UB.
Proof. exact @copyMulti_noUB. Qed.
Print Assumptions C03_never_undefined.

(** Whole states: whenever the copy of a state reports success, every multivector of
    the target (each point length, and the bonds) exists in the source and has been
    copied by global id. *)
Theorem C03_copy_state :
  forall V (s t r : cstate V),
    Forall opt_ok (c_points s) -> opt_ok (c_bond s) ->
    Forall opt_ok (c_points t) -> opt_ok (c_bond t) ->
    copyState s t = Ok r ->
    opt_copied (c_bond s) (c_bond t) (c_bond r) /\
    length (c_points r) = length (c_points t) /\
    forall i tp rp, nth_error (c_points t) i = Some tp -> nth_error (c_points r) i = Some rp ->
      exists sp, nth_error (c_points s) i = Some sp /\ opt_copied sp tp rp.
Proof. exact @copyState_copied. Qed.
Print Assumptions C03_copy_state.

(** Whole data managers: a reported success has copied each of the three states from the
    state of the same step ... *)
Theorem C03_copy_manager :
  forall V (s0 s1 s2 t0 t1 t2 r0 r1 r2 : option (cstate V)),
    maybe_ok s0 -> maybe_ok s1 -> maybe_ok s2 -> maybe_ok t0 -> maybe_ok t1 -> maybe_ok t2 ->
    copyManager (s0, s1, s2) (t0, t1, t2) = Ok (r0, r1, r2) ->
    maybe_copied s0 t0 r0 /\ maybe_copied s1 t1 r1 /\ maybe_copied s2 t2 r2.
Proof.
  intros V s0 s1 s2 t0 t1 t2 r0 r1 r2 S0 S1 S2 T0 T1 T2 H. unfold copyManager in H.
  assert (K : forall (s t r : option (cstate V)), maybe_ok s -> maybe_ok t -> copyStateOpt s t = Ok r -> maybe_copied s t r).
  { intros [s|] [t|] r Hs Ht E; cbn in E; try discriminate; [|now injection E as <-].
    destruct (copyState s t) as [u| |] eqn:Q; cbn in E; try discriminate. injection E as <-. destruct Hs, Ht. now apply C03_copy_state. }
  destruct (copyStateOpt s0 t0) as [u0| |] eqn:E0; cbn [bind] in H; try discriminate.
  destruct (copyStateOpt s1 t1) as [u1| |] eqn:E1; cbn [bind] in H; try discriminate.
  destruct (copyStateOpt s2 t2) as [u2| |] eqn:E2; cbn [bind] in H; try discriminate.
  injection H as <- <- <-. auto.
Qed.
Print Assumptions C03_copy_manager.

(** ... and a manager that lacks a state the other has is refused. *)
Theorem C03_manager_refused :
  forall V (s0 s1 s2 t0 t1 t2 : option (cstate V)) r,
    copyManager (s0, s1, s2) (t0, t1, t2) = Ok r ->
    (s0 = None <-> t0 = None) /\ (s1 = None <-> t1 = None) /\ (s2 = None <-> t2 = None).
Proof.
  intros V s0 s1 s2 t0 t1 t2 r H. unfold copyManager in H.
  destruct (copyStateOpt s0 t0) as [u0| |] eqn:E0; cbn [bind] in H; try discriminate.
  destruct (copyStateOpt s1 t1) as [u1| |] eqn:E1; cbn [bind] in H; try discriminate.
  destruct (copyStateOpt s2 t2) as [u2| |] eqn:E2; cbn [bind] in H; try discriminate.
  destruct s0, t0, s1, t1, s2, t2; cbn in E0, E1, E2; try discriminate; repeat split; intros; congruence.
Qed.
Print Assumptions C03_manager_refused.

(** Non-vacuity: bond data (elements of different sizes) with another order of ids, and
    a source with more ids than the target. *)
Definition ex_src : multivec nat := MV [(5%Z,2);(7%Z,1);(6%Z,3)] [[1;2;3;4;5;6];[11;12;13;14;15;16]].
Definition ex_tgt : multivec nat := MV [(6%Z,3);(5%Z,2)] [[0;0;0;0;0];[0;0;0;0;0]].
Example C03_nonvacuous :
  well_formed ex_src /\ well_formed ex_tgt /\ covers (mv_map ex_src) (mv_map ex_tgt) /\
  copyMultiVector ex_src ex_tgt =
    Ok (MV [(6%Z,3);(5%Z,2)] [[4;5;6;1;2];[14;15;16;11;12]]) /\
  copyMultiVector ex_tgt ex_src = Err.
Proof.
  split; [|split; [|split; [|split; vm_compute; reflexivity]]].
  - split; [repeat constructor; cbn; intuition congruence | repeat constructor].
  - split; [repeat constructor; cbn; intuition congruence | repeat constructor].
  - intros gid [<-|[<-|[]]]; reflexivity.
Qed.

(** The same in a manager without stateNONE, with different data at the two steps *)
Definition ex_state (mv : multivec nat) : option (cstate nat) := Some (CState [Some mv; None] None).
Definition ex_src2 : multivec nat := MV [(5%Z,2);(7%Z,1);(6%Z,3)] [[21;22;23;24;25;26];[31;32;33;34;35;36]].
Example C03_manager_met :
  maybe_ok (ex_state ex_src) /\ maybe_ok (ex_state ex_tgt) /\
  copyManager (None, ex_state ex_src, ex_state ex_src2) (None, ex_state ex_tgt, ex_state ex_tgt) =
    Ok (None, ex_state (MV [(6%Z,3);(5%Z,2)] [[4;5;6;1;2];[14;15;16;11;12]]),
              ex_state (MV [(6%Z,3);(5%Z,2)] [[24;25;26;21;22];[34;35;36;31;32]])).
Proof.
  destruct C03_nonvacuous as (A & B & _). split; [|split; [|vm_compute; reflexivity]].
  - split; [|exact I]. constructor; [split; [exact A|discriminate]|repeat constructor].
  - split; [|exact I]. constructor; [split; [exact B|discriminate]|repeat constructor].
Qed.
