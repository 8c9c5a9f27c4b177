(** The surface spanned by the control values of one cell of the lattice of nodes. *)
From Coq Require Import ZArith List Reals.
From Verif Require Import Base Num ModelVec ModelGrid SpecGrid SpecInterp.
Open Scope R_scope.

(** The cubic Bezier curve of four control values, or (d) its derivative. *)
Definition blend (d : bool) (t : R) (f : nat -> R) : R :=
  if d then 3 * ((f 1%nat - f 0%nat) * (1 - t) ^ 2 + (f 2%nat - f 1%nat) * (2 * t * (1 - t)) + (f 3%nat - f 2%nat) * t ^ 2)
  else bezier (f 0%nat) (f 1%nat) (f 2%nat) (f 3%nat) t.

(** The tensor product of such curves over the used axes, at local coordinates e (0 at the lower
    corner of the cell, 1 at the upper one), differentiated along the axis s if one is given. *)
Definition along (s : option axis) (a : axis) : bool := match s with Some a' => axis_eqb a a' | None => false end.
Definition patch (s : option axis) (dim : nat) (e : vec3 R) (f : nat -> nat -> nat -> R) : R :=
  blend (along s AX) (vx e) (fun p =>
    if used dim AY then blend (along s AY) (vy e) (fun q =>
      if used dim AZ then blend (along s AZ) (vz e) (fun r => f p q r) else f p q 0%nat)
    else f p 0%nat 0%nat).
