(** * C01: the field registry is a stable bijection *)
From Coq Require Import String.
From Verif Require Import Base ModelField SpecField ProofField.
Local Open Scope string_scope.

(** The same request always gets the same id. *)
Theorem C01_same_request_same_id :
  forall h r i j, accepted h r i -> accepted h r j -> i = j.
Proof. exact C01_deterministic. Qed.
Print Assumptions C01_same_request_same_id.

(** Ids identify labels up to case: equal ids mean identical requests, and labels
    that differ only by case never get two ids. *)
Theorem C01_ids_identify_labels :
  forall h r r' i j, accepted h r i -> accepted h r' j ->
    (i = j <-> same_label_ignoring_case (rq_label r) (rq_label r')) /\ (i = j -> r = r').
Proof. exact C01_injective. Qed.
Print Assumptions C01_ids_identify_labels.

(** The ids in use are exactly 0..n-1. *)
Theorem C01_ids_dense :
  forall h i j r, accepted h r i -> j <= i -> exists r', accepted h r' j.
Proof. exact C01_dense. Qed.
Print Assumptions C01_ids_dense.

(** After history [h], a further request is refused exactly when a different field
    with the same label up to case was accepted before; it is never undefined. *)
Theorem C01_refused_iff :
  forall h r,
    snd (getFieldId (after h) r) = Err <->
    (exists r' i, accepted h r' i /\ same_label_ignoring_case (rq_label r') (rq_label r)) /\
    (forall i, ~ accepted h r i).
Proof. exact C01_refusal. Qed.
Print Assumptions C01_refused_iff.

Theorem C01_no_undefined_behaviour :
  forall g r, snd (getFieldId g r) <> UB.
Proof. exact getFieldId_never_UB. Qed.
Print Assumptions C01_no_undefined_behaviour.

(** A refused request leaves no trace: the registry and all other answers are as if
    it had not been made. *)
Theorem C01_refused_leaves_no_trace :
  forall h1 r h2,
    snd (getFieldId (after h1) r) = Err ->
    after (h1 ++ r :: h2) = after (h1 ++ h2) /\
    answers (h1 ++ r :: h2) = (answers h1 ++ Err :: skipn (length h1) (answers (h1 ++ h2)))%list.
Proof. exact C01_refused_no_effect. Qed.
Print Assumptions C01_refused_leaves_no_trace.

(** Once a request was accepted with id [i], every lookup by id or label returns it,
    at that time and after any further history [h']; asking again changes nothing. *)
Theorem C01_lookup_stable :
  forall h h' r i, accepted h r i ->
    getFieldSpec (after (h ++ h')) (Z.of_nat i) = Ok (Spec r i) /\
    getFieldIdByLabel (after (h ++ h')) (rq_label r) = Ok i /\
    getFieldSpecByLabel (after (h ++ h')) (rq_label r) = Ok (Spec r i) /\
    hasField (after (h ++ h')) (rq_label r) = true /\
    isGlobalSpec (after (h ++ h')) i = Ok (is_global_rel (rq_rel r)) /\
    snd (getFieldId (after (h ++ h')) r) = Ok i /\
    fst (getFieldId (after (h ++ h')) r) = after (h ++ h').
Proof. exact C01_lookup. Qed.
Print Assumptions C01_lookup_stable.

(** Labels and ids that were never handed out are reported as missing. *)
Theorem C01_unknown_label_rejected :
  forall h lab, (forall r i, accepted h r i -> rq_label r <> lab) ->
    hasField (after h) lab = false /\ getFieldIdByLabel (after h) lab = Err /\
    getFieldSpecByLabel (after h) lab = Err.
Proof. exact C01_unknown. Qed.
Print Assumptions C01_unknown_label_rejected.

Theorem C01_unknown_id_rejected :
  forall h z, (forall r i, accepted h r i -> Z.of_nat i <> z) -> getFieldSpec (after h) z = Err.
Proof. exact C01_unknown_id. Qed.
Print Assumptions C01_unknown_id_rejected.

(** Non-vacuity: a history with a repetition, a refusal and three fields. *)
Definition ex_h : list request :=
  [Req NODE VECTOR TWO_STEP "Displacement"; Req ELEMENT SCALAR CONSTANT "Volume";
   Req NODE VECTOR TWO_STEP "Displacement"; Req NODE VECTOR TWO_STEP "VOLUME";
   Req GLOBAL SCALAR CONSTANT "Time"].
Example C01_example_answers : answers ex_h = [Ok 0; Ok 1; Ok 0; Err; Ok 2].
Proof. reflexivity. Qed.
Example C01_example_accepted :
  accepted ex_h (Req NODE VECTOR TWO_STEP "Displacement") 0 /\
  accepted ex_h (Req GLOBAL SCALAR CONSTANT "Time") 2.
Proof. split; [exists 2 | exists 4]; split; reflexivity. Qed.
Example C01_example_refused :
  snd (getFieldId (after (firstn 3 ex_h)) (Req NODE VECTOR TWO_STEP "VOLUME")) = Err.
Proof. reflexivity. Qed.
