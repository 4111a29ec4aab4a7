(** * C02: two-step fields keep exactly one step of history *)
From Coq Require Import String.
From Verif Require Import Base ModelField ModelData SpecData ProofData.
Local Open Scope string_scope.

(** [reached n h w]: the world [w] is what a process with [n] data managers has after
    the operations [h] (allocations, writes, updates, in any order and number). *)
Definition reached {Vec} (zero_vec : nat -> nat -> Vec) g n h w : Prop :=
  do_ops zero_vec g (initial_world n) h = Ok w.

(** Reading a point or bond field after an update of its manager: N gives what N+1
    gave before, the single-step data are untouched; other managers see no change.
    Holds for every world, including error and undefined outcomes of the read. *)
Theorem C02_update_local :
  forall Vec (g : registry) (w : world Vec) m f,
    isGlobalSpec g f = Ok false ->
    getData g (updateState w m) m f STEP_N = getData g w m f STEP_NP1 /\
    getData g (updateState w m) m f STEP_NP1 = getData g w m f STEP_N /\
    getData g (updateState w m) m f STEP_NONE = getData g w m f STEP_NONE.
Proof. exact (fun Vec => @update_local Vec). Qed.
Print Assumptions C02_update_local.

Theorem C02_update_other_manager :
  forall Vec (g : registry) (w : world Vec) m k f s,
    isGlobalSpec g f = Ok false -> k <> m ->
    getData g (updateState w m) k f s = getData g w k f s.
Proof. exact (fun Vec => @update_local_other Vec). Qed.
Print Assumptions C02_update_other_manager.

(** Global fields are shared by all managers: however many managers (at least one) are
    updated, in whatever order, N then equals N+1 and N+1 is unchanged. *)
Theorem C02_update_globals :
  forall Vec (zero_vec : nat -> nat -> Vec) g n h w ms f k,
    reached zero_vec g n h w -> isGlobalSpec g f = Ok true -> ms <> [] ->
    getData g (fold_left updateState ms w) k f STEP_N = getData g w k f STEP_NP1 /\
    getData g (fold_left updateState ms w) k f STEP_NP1 = getData g w k f STEP_NP1.
Proof.
  exact (fun Vec z g n h w ms f k H => update_all_globals z g ms w f k
           (GInv_ops z g h _ _ (GInv_init n) H)).
Qed.
Print Assumptions C02_update_globals.

(** Whole histories: whatever is written and updated, the two readable values of a
    field are those of the two-box reference of SpecData. *)
Theorem C02_history_local :
  forall Vec (zero_vec : nat -> nat -> Vec) g m f h w b w',
    isGlobalSpec g f = Ok false -> Forall no_alloc h ->
    getData g w m f STEP_N = Ok (at_N b) /\ getData g w m f STEP_NP1 = Ok (at_NP1 b) ->
    do_ops zero_vec g w h = Ok w' ->
    getData g w' m f STEP_N = Ok (at_N (fold_left (local_effect m f) h b)) /\
    getData g w' m f STEP_NP1 = Ok (at_NP1 (fold_left (local_effect m f) h b)).
Proof. exact (fun Vec => @local_refines Vec). Qed.
Print Assumptions C02_history_local.

Theorem C02_history_global :
  forall Vec (zero_vec : nat -> nat -> Vec) g n h0 k f h w w' b,
    reached zero_vec g n h0 w ->
    isGlobalSpec g f = Ok true -> Forall no_alloc h ->
    getData g w k f STEP_N = Ok (at_N b) /\ getData g w k f STEP_NP1 = Ok (at_NP1 b) ->
    do_ops zero_vec g w h = Ok w' ->
    getData g w' k f STEP_N = Ok (at_N (fold_left (global_effect f) h b)) /\
    getData g w' k f STEP_NP1 = Ok (at_NP1 (fold_left (global_effect f) h b)).
Proof.
  exact (fun Vec z g n h0 k f h w w' b R Hg Ha => global_refines z g k f h w b w' Hg Ha
           (GInv_ops z g h0 _ _ (GInv_init n) R)).
Qed.
Print Assumptions C02_history_global.

(** Single-step data only change when written. *)
Theorem C02_history_single_step_local :
  forall Vec (zero_vec : nat -> nat -> Vec) g m f h w v w',
    isGlobalSpec g f = Ok false -> Forall no_alloc h ->
    getData g w m f STEP_NONE = Ok v -> do_ops zero_vec g w h = Ok w' ->
    getData g w' m f STEP_NONE = Ok (fold_left (local_none_effect m f) h v).
Proof. exact (fun Vec => @none_refines_local Vec). Qed.
Print Assumptions C02_history_single_step_local.

Theorem C02_history_single_step_global :
  forall Vec (zero_vec : nat -> nat -> Vec) g n h0 k f h w v w',
    reached zero_vec g n h0 w ->
    isGlobalSpec g f = Ok true -> Forall no_alloc h ->
    getData g w k f STEP_NONE = Ok v -> do_ops zero_vec g w h = Ok w' ->
    getData g w' k f STEP_NONE = Ok (fold_left (global_none_effect f) h v).
Proof.
  exact (fun Vec z g n h0 k f h w v w' R Hg Ha => none_refines_global z g k f h w v w' Hg Ha
           (GInv_ops z g h0 _ _ (GInv_init n) R)).
Qed.
Print Assumptions C02_history_single_step_global.

(** The value last written at N+1 before the latest update is what N shows, whatever
    else happens in between. *)
Theorem C02_last_write_becomes_N :
  forall Vec (zero_vec : nat -> nat -> Vec) g w m f v h1 h2 w' b,
    isGlobalSpec g f = Ok false ->
    getData g w m f STEP_N = Ok (at_N b) /\ getData g w m f STEP_NP1 = Ok (at_NP1 b) ->
    Forall no_alloc h1 -> Forall no_alloc h2 ->
    Forall (fun o => ~ is_update_of m o) h1 -> Forall (fun o => ~ writes m f STEP_NP1 o) h1 ->
    Forall (fun o => ~ is_update_of m o) h2 -> Forall (fun o => ~ writes m f STEP_N o) h2 ->
    do_ops zero_vec g w (Write m f STEP_NP1 v :: h1 ++ Update m :: h2) = Ok w' ->
    getData g w' m f STEP_N = Ok v.
Proof. exact (fun Vec => @last_write_survives Vec). Qed.
Print Assumptions C02_last_write_becomes_N.

(** Allocating a field makes it readable, zero-filled, at the steps its kind has. *)
Theorem C02_allocated_fields_readable :
  forall Vec (zero_vec : nat -> nat -> Vec) g w m fids w' f s,
    allocateData zero_vec g w m fids = Ok w' -> In f fids ->
    getFieldSpec g (Z.of_nat f) = Ok s ->
    isGlobalSpec g f = Ok false ->
    (rq_rel (fs_req s) = BOND \/ rq_rel (fs_req s) = NODE \/ rq_rel (fs_req s) = ELEMENT) ->
    (rq_tmp (fs_req s) = TWO_STEP ->
       getData g w' m f STEP_N = Ok (zero_vec m f) /\
       getData g w' m f STEP_NP1 = Ok (zero_vec m f)) /\
    (rq_tmp (fs_req s) = CONSTANT -> getData g w' m f STEP_NONE = Ok (zero_vec m f)).
Proof. exact (fun Vec => @alloc_local Vec). Qed.
Print Assumptions C02_allocated_fields_readable.

(** Non-vacuity: two blocks, a two-step node field, a bond field, a constant element
    field and a two-step global. *)
Definition ex_reg : registry :=
  after [Req NODE VECTOR TWO_STEP "Displacement"; Req BOND SCALAR TWO_STEP "Bond_Damage";
         Req ELEMENT SCALAR CONSTANT "Volume"; Req GLOBAL SCALAR TWO_STEP "Energy"].
Definition ex_ops : list (op nat) :=
  [Alloc 0 [0;1;2;3]; Alloc 1 [0;2;3];
   Write 0 0 STEP_NP1 7; Write 1 0 STEP_NP1 8; Write 0 3 STEP_NP1 9; Update 0; Update 1;
   Write 0 0 STEP_NP1 17; Write 0 1 STEP_NP1 18; Write 0 2 STEP_NONE 3; Update 0; Update 1].
Example C02_nonvacuous :
  exists w, reached (fun _ _ => 0) ex_reg 2 ex_ops w /\
    isGlobalSpec ex_reg 0 = Ok false /\ isGlobalSpec ex_reg 3 = Ok true /\
    getData ex_reg w 0 0 STEP_N = Ok 17 /\ getData ex_reg w 0 0 STEP_NP1 = Ok 7 /\
    getData ex_reg w 1 0 STEP_N = Ok 0 /\ getData ex_reg w 1 0 STEP_NP1 = Ok 8 /\
    getData ex_reg w 0 1 STEP_N = Ok 18 /\ getData ex_reg w 0 2 STEP_NONE = Ok 3 /\
    getData ex_reg w 1 3 STEP_N = Ok 9 /\ getData ex_reg w 0 3 STEP_NP1 = Ok 9.
Proof. eexists; split; [vm_compute; reflexivity | vm_compute; repeat split]. Qed.

(** * C53: a state asked for its field ids without arguments *)

(** The header promises the complete list; the code compares every field with
    "undefined" and so returns none of them, whatever is stored. *)
Theorem C53_getFieldIds_default_is_empty :
  forall Vec (g : registry) (s : state Vec) l,
    (forall f sp, getFieldSpec g f = Ok sp -> rq_len (fs_req sp) <> UNDEFINED_LENGTH) ->
    stateFieldIdsDefault g s = Ok l -> l = [].
Proof. exact (fun Vec g s l H => default_ids_empty g s l H). Qed.
Print Assumptions C53_getFieldIds_default_is_empty.

Example C53_complete_list_refuted :
  exists (s : state nat), stateHas s 0 = true /\ stateFieldIdsDefault ex_reg s = Ok [] /\
    stateFieldIds ex_reg s NODE VECTOR = Ok [0].
Proof. exists [Some 5]; vm_compute; auto. Qed.

(** Two lengths with the same dimension cannot be allocated together: a legal request
    (a scalar and a LENGTH_1 field) is refused. *)
Example C53_scalar_and_length1_refused :
  allocateData (fun _ _ => 0)
    (after [Req NODE SCALAR TWO_STEP "A"; Req NODE LENGTH_1 TWO_STEP "B"])
    (initial_world 1) 0 [0;1] = Err.
Proof. vm_compute; reflexivity. Qed.
