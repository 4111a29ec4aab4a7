(** * What the force kernel properties talk about *)
From Coq Require Import Reals.
From Verif Require Import Base Num ModelNeigh SpecDamage ModelForce.

(** ** Well-shaped inputs *)

(** n points (owned ones first) with coordinates and volumes; neighbours are points. *)
Definition cloud_ok {N : Num} (n : nat) (nbrs : list (list nat)) (x y : list (V3 N)) (v : list N) : Prop :=
  length x = n /\ length y = n /\ length v = n /\ length nbrs <= n /\
  Forall (Forall (fun j => j < n)) nbrs.
Definition per_point {N : Num} (nbrs : list (list nat)) (l : list N) : Prop := length l = length nbrs.
Definition per_bond {N : Num} (nbrs : list (list nat)) (l : list N) : Prop := length l = num_bonds nbrs.
Definition opt_ok {A} (P : A -> Prop) (o : option A) : Prop := match o with None => True | Some a => P a end.

(** Bond number [k] joins owned point [p] to its neighbour [j]. *)
Definition bond_at (nbrs : list (list nat)) (p k j : nat) : Prop :=
  exists js n, nth_error nbrs p = Some js /\ nth_error js n = Some j /\ k = offset nbrs p + n.

(** ** Totals *)
Section Totals.
  Local Open Scope R_scope.
  (** sum of volume times force density *)
  Fixpoint momentum (v : list R) (f : list (V3 RN)) {struct f} : V3 RN :=
    match v, f with
    | a :: v', b :: f' => vadd (vscale (N:=RN) a b) (momentum v' f')
    | _, _ => vzero
    end.
  (** sum of volume times position cross force density *)
  Fixpoint moment (v : list R) (pos f : list (V3 RN)) {struct f} : V3 RN :=
    match v, pos, f with
    | a :: v', q :: pos', b :: f' => vadd (vscale (N:=RN) a (vcross q b)) (moment v' pos' f')
    | _, _, _ => vzero
    end.
End Totals.

(** ** Rigid motions *)
Record rot := Rot { col1 : V3 RN; col2 : V3 RN; col3 : V3 RN }.
Definition orthogonal (Q : rot) : Prop :=
  (vdot (col1 Q) (col1 Q) = 1 /\ vdot (col2 Q) (col2 Q) = 1 /\ vdot (col3 Q) (col3 Q) = 1 /\
   vdot (col1 Q) (col2 Q) = 0 /\ vdot (col1 Q) (col3 Q) = 0 /\ vdot (col2 Q) (col3 Q) = 0)%R.
(** matrix with these columns times vector *)
Definition rotate (Q : rot) (a : V3 RN) : V3 RN :=
  vadd (vadd (vscale (N:=RN) (vx a) (col1 Q)) (vscale (N:=RN) (vy a) (col2 Q))) (vscale (N:=RN) (vz a) (col3 Q)).
Definition move (Q : rot) (c : V3 RN) (a : V3 RN) : V3 RN := vadd (rotate Q a) c.

(** ** Inputs of the kernels: array lengths that fit the neighbour list *)
Section Inputs.
  Context {N : Num}.
  Definition part_ok (nbrs : list (list nat)) (part : option (list N * list N)) : Prop :=
    opt_ok (fun sn => per_bond nbrs (fst sn) /\ per_bond nbrs (snd sn)) part.
  Definition lps_inputs n nbrs (x y : list (V3 N)) (v m theta dmg : list N) (deltaT : option (list N)) part : Prop :=
    cloud_ok n nbrs x y v /\ per_point nbrs m /\ per_point nbrs theta /\ per_bond nbrs dmg /\
    opt_ok (per_point nbrs) deltaT /\ part_ok nbrs part.
  Definition bb_inputs n nbrs (x y : list (V3 N)) (v dmg : list N) : Prop :=
    cloud_ok n nbrs x y v /\ per_bond nbrs dmg.
  Definition visco_inputs n nbrs (x yN yNP1 : list (V3 N)) (v m thN thNP1 dmg edbN : list N) : Prop :=
    cloud_ok n nbrs x yN v /\ cloud_ok n nbrs x yNP1 v /\ per_point nbrs m /\ per_point nbrs thN /\ per_point nbrs thNP1 /\
    per_bond nbrs dmg /\ per_bond nbrs edbN.
  Definition ep_inputs n nbrs (x y : list (V3 N)) (v m theta dmg edpN lambdaN : list N) : Prop :=
    cloud_ok n nbrs x y v /\ per_point nbrs m /\ per_point nbrs theta /\ per_point nbrs lambdaN /\
    per_bond nbrs dmg /\ per_bond nbrs edpN.
End Inputs.

(** ** Relative motion *)

(** The relative position of the ends of the bond is the same in the two configurations. *)
Definition same_relative (y y' : list (V3 RN)) (p j : nat) : Prop :=
  forall Y YP Y' YP', nth_error y p = Some Y -> nth_error y j = Some YP ->
    nth_error y' p = Some Y' -> nth_error y' j = Some YP' -> vsub YP Y = vsub YP' Y'.
(** ... for every bond that is not broken. *)
Definition same_but_broken (nbrs : list (list nat)) (dmg : list R) (y y' : list (V3 RN)) : Prop :=
  length y = length y' /\
  forall p k j, bond_at nbrs p k j -> nth_error dmg k <> Some 1%R -> same_relative y y' p j.

(** All bonds that reach point [i], from either side, are broken. *)
Definition cut_off (nbrs : list (list nat)) (dmg : list R) (i : nat) : Prop :=
  forall p k j, bond_at nbrs p k j -> p = i \/ j = i -> nth_error dmg k = Some 1%R.

(** ** Weighted volume and isotropic expansion *)
Definition weighted_volume (omega : R -> R -> R) (h : R) (X : V3 RN) (nb : list (V3 RN * R)) : R :=
  fold_right (fun pv acc => omega (dist X (fst pv)) h * Rsqr (dist X (fst pv)) * snd pv + acc)%R 0%R nb.
(** neighbours' positions and volumes *)
Definition looks_up (x : list (V3 RN)) (v : list R) (js : list nat) (nb : list (V3 RN * R)) : Prop :=
  Forall2 (fun j pv => nth_error x j = Some (fst pv) /\ nth_error v j = Some (snd pv)) js nb.
Definition expand (e : R) (c a : V3 RN) : V3 RN := vadd c (vscale (N:=RN) (1 + e)%R a).
