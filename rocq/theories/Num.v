(** Scalar operations the model is generic in, with the instances R and Q.

    [R]: exact real arithmetic, used by the theorems.  [Q]: exact rational
    arithmetic, computable, used for concrete executions.
    Neither models the rounding of the C++ type double. *)
From Coq Require Import ZArith QArith Qround Reals.
From Verif Require Import Base.

Class Num (T : Type) := {
  nofZ : Z -> T;
  nadd : T -> T -> T;
  nsub : T -> T -> T;
  nmul : T -> T -> T;
  ndiv : T -> T -> T;
  nltb : T -> T -> bool;
  nleb : T -> T -> bool;
  nfloor : T -> Z
}.

Declare Scope num_scope.
Delimit Scope num_scope with num.
Infix "+" := nadd : num_scope.
Infix "-" := nsub : num_scope.
Infix "*" := nmul : num_scope.
Infix "/" := ndiv : num_scope.
Infix "<?" := nltb (at level 70) : num_scope.
Infix "<=?" := nleb (at level 70) : num_scope.
Notation "# z" := (nofZ z%Z) (at level 1, format "# z") : num_scope.

(** Floor on R: the largest integer not above x. *)
Definition Rfloor (x : R) : Z := (up x - 1)%Z.
Definition Rltb (x y : R) : bool := if Rlt_dec x y then true else false.
Definition Rleb (x y : R) : bool := if Rle_dec x y then true else false.

#[global] Instance NumR : Num R := {
  nofZ := IZR; nadd := Rplus; nsub := Rminus; nmul := Rmult; ndiv := Rdiv;
  nltb := Rltb; nleb := Rleb; nfloor := Rfloor }.

#[global] Instance NumQ : Num Q := {
  nofZ := inject_Z;
  nadd := fun a b => Qred (Qplus a b);
  nsub := fun a b => Qred (Qminus a b);
  nmul := fun a b => Qred (Qmult a b);
  ndiv := fun a b => Qred (Qdiv a b);
  nltb := fun a b => negb (Qle_bool b a);
  nleb := Qle_bool;
  nfloor := Qfloor }.
