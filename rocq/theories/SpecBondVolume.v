(** * What the volume of a bond is (C81) *)
From Coq Require Import Reals List Arith.
From Verif Require Import Base Num ModelForce ModelGeom SpecGeom.
Import ListNotations.
Local Open Scope R_scope.

(** A brick of given sides around a point *)
Definition in_brick (a b c : R) (middle q : point) : Prop :=
  Rabs (vx q - vx middle) <= a / 2 /\ Rabs (vy q - vy middle) <= b / 2 /\ Rabs (vz q - vz middle) <= c / 2.

(** A brick is cut into sixteen parts along each side: the middle of the part [t] *)
Definition part := (nat * (nat * nat))%type.
Definition part_ok (t : part) : Prop := (fst t < 16 /\ fst (snd t) < 16 /\ snd (snd t) < 16)%nat.
Definition part_middle (a b c : R) (middle : point) (t : part) : point :=
  v3 (N:=RN) (vx middle + (INR (fst t) - 15 / 2) * (a / 16)) (vy middle + (INR (fst (snd t)) - 15 / 2) * (b / 16)) (vz middle + (INR (snd (snd t)) - 15 / 2) * (c / 16)).
Definition in_part (a b c : R) (middle : point) (t : part) (q : point) : Prop :=
  in_brick (a / 16) (b / 16) (c / 16) (part_middle a b c middle t) q.

Definition shifted (d p : point) : point := vadd p d.

(** A cell of a tube around an axis through [axis], parallel to z, with the middle [middle]: a sector
    of angle [angle] between two radii *)
Definition in_sector (width angle height : R) (axis middle q : point) : Prop :=
  exists rho phi r theta, 0 <= rho /\ vx middle - vx axis = rho * cos phi /\ vy middle - vy axis = rho * sin phi /\
    Rabs (r - rho) <= width / 2 /\ Rabs (theta - phi) <= angle / 2 /\ Rabs (vz q - vz middle) <= height / 2 /\
    vx q = vx axis + r * cos theta /\ vy q = vy axis + r * sin theta.
(** How far a point is from that axis *)
Definition from_axis (axis q : point) : R := sqrt ((vx q - vx axis) * (vx q - vx axis) + (vy q - vy axis) * (vy q - vy axis)).

(** the angle of a point of the plane, as atan2 of the C library *)
Definition an_angle (atan2f : R -> R -> R) : Prop :=
  forall x y, x = sqrt (x * x + y * y) * cos (atan2f y x) /\ y = sqrt (x * x + y * y) * sin (atan2f y x).

(** A neighbourhood list: for each point the number of neighbours, then the neighbours *)
Definition flat (nbrs : list (list nat)) : list nat := flat_map (fun l => length l :: l) nbrs.
(** The bonds of a neighbourhood list, in its order: point and neighbour *)
Definition bonds_from (first : nat) (nbrs : list (list nat)) : list (nat * nat) :=
  concat (map (fun c => map (fun q => (fst c, q)) (snd c)) (combine (seq first (length nbrs)) nbrs)).
