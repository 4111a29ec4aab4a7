(** * What a user expects of a converted mesh (C75) *)
From Coq Require Import String.
From Verif Require Import Base Num ModelInput ModelMesh.
Local Open Scope string_scope.
Local Open Scope list_scope.

Section Spec.
  Context {N : Num}.
  (** Point number [g] of a loaded mesh is [p]. *)
  Definition point_at (r : loaded N) (g : Z) (p : mpoint N) : Prop :=
    exists e, nth_error (lo_ids r) e = Some g /\ nth_error (lo_points r) e = Some p.
  (** Point [g] belongs to the block or node set [name]. *)
  Definition in_block (r : loaded N) (name : string) (g : Z) : Prop := exists l, In (name, l) (lo_blocks r) /\ In g l.
  Definition in_set (r : loaded N) (name : string) (g : Z) : Prop := exists l, In (name, l) (lo_sets r) /\ In g l.
  Definition has_set (r : loaded N) (name : string) : Prop := In name (map fst (lo_sets r)).

  (** The points are numbered from zero without gaps, and in order. *)
  Definition in_range (r : loaded N) : Prop := forall g, In g (lo_ids r) -> (0 <= g < Z.of_nat (length (lo_ids r)))%Z.
  Definition in_order (r : loaded N) : Prop := lo_ids r = map Z.of_nat (seq 0 (length (lo_ids r))).

  (** The sets that the converter adds for a boundary layer *)
  Definition layer_names : list string :=
    ["initial_velocity_node_set"; "max_x_face"; "max_y_face"; "max_z_face"; "min_x_face"; "min_y_face"; "min_z_face"].
  (** No set has the name of one that will be added. *)
  Definition names_free (layer : option N) (r : loaded N) : Prop := layer <> None -> forall n, In n layer_names -> ~ has_set r n.
  (** All names fit the file format. *)
  Definition short_names (r : loaded N) : Prop :=
    (forall n, In n (map fst (lo_blocks r)) \/ In n (map fst (lo_sets r)) -> String.length n <= 32).
  (** Every block name ends in a number of its own (see C46). *)
  Definition numbered_blocks (r : loaded N) : Prop :=
    exists id : string -> Z, (forall n, In n (map fst (lo_blocks r)) -> block_id n = Ok (id n)) /\ NoDup (map id (map fst (lo_blocks r))).
End Spec.

(** The faces by name: the coordinate, and whether the upper or the lower side *)
Definition layer_faces {N : Num} : list (string * ((V3 N -> N) * bool)) :=
  [("min_x_face", (vx (N:=N), false)); ("min_y_face", (vy (N:=N), false)); ("min_z_face", (vz (N:=N), false));
   ("max_x_face", (vx (N:=N), true)); ("max_y_face", (vy (N:=N), true)); ("max_z_face", (vz (N:=N), true))].
