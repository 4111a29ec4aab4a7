(** * What a user expects of the interfaces between elements (C71) and of their apertures (C72) *)
From Coq Require Import Reals.
From Verif Require Import Base Num ModelInterface.

(** The faces of a hexahedron whose corners 0 1 2 3 go round the bottom and 4 5 6 7 lie above them *)
Definition hex_faces : list (list nat) :=
  [[0; 1; 2; 3]; [4; 5; 6; 7]; [0; 1; 5; 4]; [1; 2; 6; 5]; [2; 3; 7; 6]; [3; 0; 4; 7]].
(** [l] goes round the same polygon as [l'], starting anywhere, in either direction *)
Definition same_polygon {A} (l l' : list A) : Prop :=
  exists k, l = skipn k l' ++ firstn k l' \/ l = skipn k (rev l') ++ firstn k (rev l').
(** [q] lists the four corners of a face of the hexahedron with corners [a] in polygon order. *)
Definition face_of (a q : list Z) : Prop :=
  exists f p, In f hex_faces /\ Forall2 (fun k c => nth_error a k = Some c) f p /\ same_polygon q p.
(** The nodes of [a] that belong to [b] *)
Definition shared (a b : list Z) : list Z := filter (fun c => if in_dec Z.eq_dec c b then true else false) a.

(** A processor's elements: [conn] their nodes (the owned ones come first), [gids] their global
    numbers, [lists] the neighbours of the owned ones by local number.  In memory the lists are
    stored one after the other, each after its length. *)
Definition stored_lists (lists : list (list nat)) : list nat := flat_map (fun l => length l :: l) lists.
Record elements_wf (conn : list (list Z)) (gids : list Z) (lists : list (list nat)) : Prop := {
  ew_gids : NoDup gids; ew_number : length gids = length conn; ew_owned : length lists <= length conn;
  ew_positive : Forall (fun g => 0 <= g)%Z gids;
  ew_lists : Forall (@NoDup nat) lists; ew_range : Forall (Forall (fun j => j < length conn)) lists;
  ew_nodes : Forall (@NoDup Z) conn }.
(** Element [i] has [j] as a neighbour; [a] and [b] are their nodes. *)
Definition neighbours (conn : list (list Z)) (lists : list (list nat)) (i j : nat) (a b : list Z) : Prop :=
  (exists l, nth_error lists i = Some l /\ In j l) /\ nth_error conn i = Some a /\ nth_error conn j = Some b.
(** The interface is one between the elements [i] and [j]. *)
Definition between (gids : list Z) (f : iface) (i j : nat) : Prop :=
  nth_error gids i = Some (if_left f) /\ nth_error gids j = Some (if_right f).

(** Every interface is recorded once: no two have the same sides ... *)
Definition once (fs : list iface) : Prop := NoDup (map (fun f => (if_left f, if_right f)) fs).
(** ... and they are the neighbours that touch, seen from the smaller number. *)
Definition exactly (touch : list Z -> list Z -> Prop) conn gids lists (fs : list iface) : Prop :=
  forall g h, In (g, h) (map (fun f => (if_left f, if_right f)) fs) <->
    exists i j a b, neighbours conn lists i j a b /\ nth_error gids i = Some g /\ nth_error gids j = Some h /\ (g < h)%Z /\ touch a b.

(** Two hexahedra touch if at least three corners of a face of one belong to the other; in a
    conforming mesh it is then all four. *)
Definition hex_touch (a b : list Z) : Prop := exists q, face_of a q /\ 3 <= length (shared q b).
Definition conforming (a b : list Z) : Prop := forall q, face_of a q -> length (shared q b) <> 3.
(** Any other elements touch if they share at least three nodes. *)
Definition touch (a b : list Z) : Prop := 3 <= length (shared a b).

(** The opening of an interface: how much further the two elements are apart than at the start.
    [c] gives the reference and the current position of every element. *)
Notation config N := ((Z -> V3 N) * (Z -> V3 N))%type.
Definition opening (c : config RN) (f : iface) : R :=
  (vlen (N:=RN) (vsub (snd c (if_right f)) (snd c (if_left f))) - vlen (N:=RN) (vsub (fst c (if_right f)) (fst c (if_left f))))%R.
Definition quads (fs : list iface) : list iface := filter (fun f => if_count f =? 4) fs.
Definition tris (fs : list iface) : list iface := filter (fun f => if_count f =? 3) fs.
Definition polygons (fs : list iface) : Prop := Forall (fun f => (if_count f = 4 \/ if_count f = 3) /\ if_count f <= length (if_nodes f)) fs.
(** What the [k]-th output of the history [h] should hold, and what a program holds that is one
    output late *)
Definition current (h : list (config RN)) (k : nat) (f : iface) (v : R) : Prop := exists c, nth_error h k = Some c /\ v = opening c f.
Definition late (h : list (config RN)) (k : nat) (f : iface) (v : R) : Prop :=
  match k with O => v = 0%R | S k' => current h k' f v end.
