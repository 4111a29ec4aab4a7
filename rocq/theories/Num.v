(** * Scalars of the numeric kernels

    The numeric code of Peridigm works on [double] (and, for automatic
    differentiation, on a template scalar).  The model of a kernel is written once,
    over a record [Num] of scalar operations, and instantiated
    - at [RN], the real numbers, for the algebraic properties, and
    - at [FN], IEEE-754 binary64 with round-to-nearest-even as specified in
      [Coq.Floats.SpecFloat] (no axioms, no primitive floats), for statements about
      rounding, infinities and NaN. *)
From Coq Require Import ZArith Reals SpecFloat Lra.
From Verif Require Import Base.

Record Num := {
  T :> Type;
  add : T -> T -> T;
  sub : T -> T -> T;
  mul : T -> T -> T;
  div : T -> T -> T;
  opp : T -> T;
  sqr_root : T -> T;            (* std::sqrt *)
  ltb : T -> T -> bool;         (* a < b; false when either is NaN *)
  leb : T -> T -> bool;         (* a <= b; false when either is NaN *)
  eqb : T -> T -> bool;         (* a == b; false when either is NaN *)
  ofZ : Z -> T;                 (* conversion of an integer *)
  lit : Z -> positive -> T;     (* the literal n/d, rounded once *)
  pi : T                        (* M_PI *)
}.
Arguments add {n}. Arguments sub {n}. Arguments mul {n}. Arguments div {n}.
Arguments opp {n}. Arguments sqr_root {n}. Arguments ltb {n}. Arguments leb {n}.
Arguments eqb {n}. Arguments ofZ {n}. Arguments lit {n}. Arguments pi {n}.

Declare Scope num_scope.
Delimit Scope num_scope with num.
Infix "+" := add : num_scope.
Infix "-" := sub : num_scope.
Infix "*" := mul : num_scope.
Infix "/" := div : num_scope.
Notation "- x" := (opp x) : num_scope.
Infix "<?" := ltb : num_scope.
Infix "<=?" := leb : num_scope.
Infix "=?" := eqb : num_scope.
Notation "0" := (ofZ 0%Z) : num_scope.
Notation "1" := (ofZ 1%Z) : num_scope.
Notation "2" := (ofZ 2%Z) : num_scope.
Notation "3" := (ofZ 3%Z) : num_scope.

(** ** Real numbers *)
Definition Rltb (a b : R) : bool := if Rlt_dec a b then true else false.
Definition Rleb (a b : R) : bool := if Rle_dec a b then true else false.
Definition Reqb (a b : R) : bool := if Req_EM_T a b then true else false.

(** Division by zero has no agreed value in the reals; every theorem at [RN] whose truth
    depends on a quotient states the non-vanishing of the denominator; the others hold
    whatever value the quotient has. *)
Definition RN : Num := {|
  T := R; add := Rplus; sub := Rminus; mul := Rmult; div := Rdiv; opp := Ropp;
  sqr_root := R_sqrt.sqrt; ltb := Rltb; leb := Rleb; eqb := Reqb;
  ofZ := IZR; lit := fun n d => (IZR n / IZR (Zpos d))%R; pi := PI
|}.

Lemma Rltb_true a b : Rltb a b = true <-> (a < b)%R.
Proof. unfold Rltb; destruct (Rlt_dec a b); split; intros; try easy; contradiction. Qed.
Lemma Rltb_false a b : Rltb a b = false <-> (b <= a)%R.
Proof. unfold Rltb; destruct (Rlt_dec a b); split; intros; try easy; lra. Qed.
Lemma Rleb_true a b : Rleb a b = true <-> (a <= b)%R.
Proof. unfold Rleb; destruct (Rle_dec a b); split; intros; try easy; contradiction. Qed.
Lemma Rleb_false a b : Rleb a b = false <-> (b < a)%R.
Proof. unfold Rleb; destruct (Rle_dec a b); split; intros; try easy; lra. Qed.
Lemma Reqb_true a b : Reqb a b = true <-> a = b.
Proof. unfold Reqb; destruct (Req_EM_T a b); split; intros; try easy; contradiction. Qed.
Lemma Reqb_false a b : Reqb a b = false <-> a <> b.
Proof. unfold Reqb; destruct (Req_EM_T a b); split; intros; try easy; contradiction. Qed.

(** ** IEEE binary64 *)
Definition fprec := 53%Z.
Definition femax := 1024%Z.
Definition fofZ (z : Z) : spec_float := binary_normalize fprec femax z 0 false.
Definition FN : Num := {|
  T := spec_float;
  add := SFadd fprec femax; sub := SFsub fprec femax; mul := SFmul fprec femax;
  div := SFdiv fprec femax; opp := SFopp; sqr_root := SFsqrt fprec femax;
  ltb := SFltb; leb := SFleb; eqb := SFeqb;
  ofZ := fofZ;
  lit := fun n d => SFdiv fprec femax (fofZ n) (fofZ (Zpos d));
  pi := S754_finite false 7074237752028440 (-51)
|}.

(** Turn the operations of [RN] into those of the real numbers. *)
Ltac to_R := cbn [T add sub mul div opp sqr_root ltb leb eqb ofZ lit pi RN] in *.

(** ** Points and vectors *)
Record V3 (N : Num) := v3 { vx : N; vy : N; vz : N }.
Arguments v3 {N}. Arguments vx {N}. Arguments vy {N}. Arguments vz {N}.

Section Vec.
  Context {N : Num}.
  Local Open Scope num_scope.
  Definition vadd (a b : V3 N) := v3 (vx a + vx b) (vy a + vy b) (vz a + vz b).
  Definition vsub (a b : V3 N) := v3 (vx a - vx b) (vy a - vy b) (vz a - vz b).
  Definition vscale (k : N) (a : V3 N) := v3 (k * vx a) (k * vy a) (k * vz a).
  Definition vzero : V3 N := v3 0 0 0.
  Definition vdot (a b : V3 N) := vx a * vx b + vy a * vy b + vz a * vz b.
  Definition vcross (a b : V3 N) :=
    v3 (vy a * vz b - vz a * vy b) (vz a * vx b - vx a * vz b) (vx a * vy b - vy a * vx b).
  (** sqrt(dx*dx+dy*dy+dz*dz), the length computed throughout the kernels *)
  Definition vlen (a : V3 N) := sqr_root (vdot a a).
End Vec.

Lemma v3_ext {N : Num} (a b : V3 N) : vx a = vx b -> vy a = vy b -> vz a = vz b -> a = b.
Proof. destruct a, b; cbn; congruence. Qed.
