(** Vocabulary for a level set carried along by a rigid rotation. *)
From Coq Require Import ZArith Reals.
From Verif Require Import Base Num ModelVec.
Open Scope R_scope.

(** The level set f after turning with angular speed w about (cx, cy) for the time t: its value at (x, y) is that of f where (x, y) came from. *)
Definition turned (f : R -> R -> R) (w cx cy t x y : R) : R :=
  f (cx + cos (w * t) * (x - cx) + sin (w * t) * (y - cy)) (cy - sin (w * t) * (x - cx) + cos (w * t) * (y - cy)).
(** The function a x + b y + c and its derivatives. *)
Definition plane (a b c : R) (i j k : nat) (x y z : R) : R :=
  match i, j, k with O, O, O => a * x + b * y + c | S O, O, O => a | O, S O, O => b | _, _, _ => 0 end.
