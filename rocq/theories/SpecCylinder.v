(** * What a mesh of a cylinder is (C76) *)
From Coq Require Import Reals.
From Verif Require Import Base Num ModelScalar ModelGrid SpecGeom.
Local Open Scope R_scope.

(** A tube between two radii: rings around the axis, rays and layers along it *)
Record tube := Tube { t_inner : R; t_outer : R; t_length : R; t_bottom : R; t_rings : nat; t_rays : nat; t_layers : nat }.
Section Tube.
  Variable t : tube.
  Definition ring_width : R := (t_outer t - t_inner t) / INR (t_rings t).
  Definition mean_radius : R := (t_inner t + t_outer t) / 2.
  Definition ray_angle : R := 2 * PI / INR (t_rays t).
  Definition layer_height : R := t_length t / INR (t_layers t).
  (** The arc of a cell at the mean radius *)
  Definition mean_arc : R := ray_angle * mean_radius.

  (** The input names the number of rings only: there are as many rays and layers as make cells no
      longer than a ring is wide, and one less would not. *)
  Definition sized : Prop :=
    (INR (t_rays t) - 1) * ring_width <= 2 * PI * mean_radius < INR (t_rays t) * ring_width /\
    (INR (t_layers t) - 1) * ring_width <= t_length t < INR (t_layers t) * ring_width.

  Definition tube_cells : nat := (t_rings t * t_rays t * t_layers t)%nat.
  (** Cells are numbered along the rings first, then the rays, then the layers. *)
  Definition ring_of (n : nat) : nat := (n mod t_rings t)%nat.
  Definition ray_of (n : nat) : nat := ((n / t_rings t) mod t_rays t)%nat.
  Definition layer_of (n : nat) : nat := (n / (t_rings t * t_rays t))%nat.
  Definition cell_number (i j k : nat) : nat := (i + j * t_rings t + k * t_rings t * t_rays t)%nat.
  Definition ring_radius (i : nat) : R := t_inner t + (INR i + / 2) * ring_width.
  (** The middle of a cell of a tube whose axis passes through (x, y) *)
  Definition place (x y : R) (n : nat) : point :=
    let r := ring_radius (ring_of n) in
    let theta := (INR (ray_of n) + / 2) * ray_angle in
    v3 (N:=RN) (r * cos theta + x) (r * sin theta + y) (t_bottom t + (INR (layer_of n) + / 2) * layer_height).
  (** Its volume: a sector between two radii, times the height *)
  Definition sector_volume (n : nat) : R :=
    let r := ring_radius (ring_of n) in
    ((r + ring_width / 2) * (r + ring_width / 2) - (r - ring_width / 2) * (r - ring_width / 2)) / 2 * ray_angle * layer_height.

  Definition within (h : R) (n m : nat) : Prop := (m < tube_cells)%nat /\ m <> n /\ distance (place 0 0 n) (place 0 0 m) < h.
  (** How many rays apart, the shorter way round *)
  Definition rays_apart (j j' : nat) : nat := Nat.min ((j + t_rays t - j') mod t_rays t) ((j' + t_rays t - j) mod t_rays t).
End Tube.

(** [n] is the whole number next to [x], halves upward, but at most [top]. *)
Definition nearest (top n : nat) (x : R) : Prop := (n <= top)%nat /\ INR n <= x + / 2 /\ (x - / 2 < INR n \/ n = top).

(** The entry of the point at place [i] of a share, found through the pointers: the number of
    neighbours, then the neighbours *)
Definition listed (d : grid_data RN) (i : nat) (ns : list nat) : Prop :=
  exists offset, nth_error (gd_ptr d) i = Some offset /\ firstn (S (length ns)) (skipn offset (gd_list d)) = length ns :: ns /\ (offset + S (length ns) <= gd_size d)%nat.

(** What the input must satisfy: a tube with a hole or none, a horizon, few enough cells and neighbours
    for the type int; the last condition is for a number that the code computes and does not use. *)
Definition tube_ok (procs : nat) (h : R) (t : tube) : Prop :=
  sized t /\ (0 < procs)%nat /\ (0 < t_rings t)%nat /\ 0 <= t_inner t < t_outer t /\ 0 < t_length t /\ 0 <= h /\
  INR (tube_cells t) * ((2 * (h / ring_width t) + 2) * (2 * (h / mean_arc t) + 2) * (2 * (h / layer_height t) + 2)) <= IZR int_max /\
  h / ray_angle t < 2 ^ 64.
