(** * Short range contact force

    src/contact/Peridigm_ShortRangeForceContactModel.cpp.  The time dependent variant
    (Peridigm_UserDefinedTimeDependentShortRangeForceContactModel.cpp:145-309) runs the same
    loop with a friction coefficient obtained from an input expression (107-143); the
    expression parser is not modelled, so both are the function below with a given
    coefficient. *)
From Coq Require Import ZArith.
From Verif Require Import Base Num ModelNeigh ModelForce.

Section Contact.
  Context {N : Num}.
  Local Open Scope num_scope.

  (** m_contactRadius, m_springConstant, m_frictionCoefficient, m_horizon (65-76); any
      values are accepted *)
  Record contact_model := { c_radius : N; c_spring : N; c_friction : N; c_horizon : N }.

  Definition vopp (a : V3 N) : V3 N := v3 (- vx a) (- vy a) (- vz a).

  (** 142-143 *)
  Definition stiffness (c : contact_model) (d : N) : N :=
    let h := c_horizon c in
    let k := ofZ 9 * c_spring c / (pi * h * h * h * h) in
    k * (c_radius c - d) / h.

  (** 154-184: velocity of a point across the normal *)
  Definition across (v n : V3 N) : V3 N := vsub v (vscale (vdot v n) n).
  (** 214-234: friction on one of the two points *)
  Definition friction_force (mu normNormal : N) (vrel : V3 N) : V3 N :=
    let norm := vlen vrel in
    if negb (norm =? 0) then along (- mu * normNormal) vrel norm else v3 0 0 0.

  (** 137-257: what one entry of the contact list adds to the two points: to the node p with
      position X, velocity V and volume vol, and to the neighbour *)
  Definition contact_pair (c : contact_model) (y vel : list (V3 N)) (vols : list N) (X V : V3 N) (vol : N) (p j : nat)
    (f : list (V3 N)) : outcome (list (V3 N)) :=
    let? Y := at_ub y j in
    let d2 := vdot (vsub X Y) (vsub X Y) in
    if d2 <? c_radius c * c_radius c then
      let d := vlen (vsub X Y) in
      let temp := stiffness c d in
      let? nvol := at_ub vols j in
      let e := vsub Y X in
      if negb (c_friction c =? 0) then
        let? W := at_ub vel j in
        let normal := vdivr e d in
        let vperp := across V normal in
        let wperp := across W normal in
        let vcm := vscale (lit 1 2) (vadd vperp wperp) in
        let vrel := vsub vperp vcm in
        let wrel := vsub wperp vcm in
        let cur := vopp (along (temp * nvol) e d) in
        let nb := along (temp * vol) e d in
        let curF := friction_force (c_friction c) (vlen cur) vrel in
        let nbF := friction_force (c_friction c) (vlen nb) wrel in
        let? f := add_at f p (vadd cur curF) in
        add_at f j (vadd nb nbF)
      else
        let? f := sub_at f p (along (temp * nvol) e d) in
        add_at f j (along (temp * vol) e d)
    else Ok f.

  (** 134-258; 136 terminates on a negative id *)
  Definition contact_neighbors (c : contact_model) (y vel : list (V3 N)) (vols : list N) (X V : V3 N) (vol : N) (p : nat)
    (js : list Z) (f : list (V3 N)) : outcome (list (V3 N)) :=
    foldM (fun f j => if Z.ltb j 0 then Err else contact_pair c y vel vols X V vol p (Z.to_nat j) f) f js.

  (** 123-260: the walk over the flat contact list.  A list that ends early is undefined
      behaviour at once, not in the middle of the point. *)
  Fixpoint contact_walk (c : contact_model) (y vel : list (V3 N)) (vols : list N) (owned : list nat) (flat : list Z)
    (f : list (V3 N)) {struct owned} : outcome (list (V3 N)) :=
    match owned with
    | [] => Ok f
    | p :: rest =>
      match flat with
      | [] => UB
      | n :: tl =>
        if Z.ltb 0 n then
          if Nat.ltb (length tl) (Z.to_nat n) then UB
          else
            let? X := at_ub y p in
            let? V := at_ub vel p in
            let? vol := at_ub vols p in
            let? f := contact_neighbors c y vel vols X V vol p (firstn (Z.to_nat n) tl) f in
            contact_walk c y vel vols rest (skipn (Z.to_nat n) tl) f
        else contact_walk c y vel vols rest tl f
      end
    end.

  (** 98-261; [f] is the old contact force density, overwritten with zeros (105) *)
  Definition computeForce (c : contact_model) (y vel : list (V3 N)) (vols : list N) (owned : list nat) (flat : list Z)
    (f : list (V3 N)) : outcome (list (V3 N)) :=
    contact_walk c y vel vols owned flat (map (fun _ => v3 0 0 0) f).
End Contact.
Arguments contact_model : clear implicits.
