(** Vocabulary for the accuracy of the mixed derivatives of the reference programs. *)
From Coq Require Import ZArith Reals.
From Flocq Require Import BinarySingleNaN.
From Verif Require Import NumB64 SpecB64 SpecRound.
Open Scope R_scope.

(** The derivatives of D are bounded by M in the rectangle from (a, c) to (b, d). *)
Definition bounded_on (a b c d : R) (D : nat -> nat -> R -> R -> R) (M : nat -> nat -> R) : Prop := forall i j u v, (i <= 4)%nat -> (j <= 4)%nat ->
  a <= u <= b -> c <= v <= d -> Rabs (D i j u v) <= M i j.
(** Error of the mixed derivative at node (k, l) of a grid of ny rows and nx columns with steps h and hy, when the slopes at the nodes have the error e:
    corners, other nodes of the first and last row, other nodes of the first and last column, inner nodes. *)
Definition mixed_bound (nx ny k l : Z) (h hy : R) (M : nat -> nat -> R) (e : R) : R :=
  let row := ((k =? 0) || (k =? ny - 1))%Z%bool in let col := ((l =? 0) || (l =? nx - 1))%Z%bool in
  if (row && col)%bool then 7 / 24 * (h ^ 2 * M 3%nat 1%nat + hy ^ 2 * M 1%nat 3%nat) + h * hy / 4 * M 2%nat 2%nat + 2 * (e / h + e / hy)
  else if row then h ^ 2 / 6 * M 3%nat 1%nat + e / h
  else if col then hy ^ 2 / 6 * M 1%nat 3%nat + e / hy
  else (h ^ 2 / 6 * M 3%nat 1%nat + e / h + (hy ^ 2 / 6 * M 1%nat 3%nat + e / hy)) / 2.
(** Finite doubles for the grid steps, neither tiny nor huge, at least w. *)
Definition steps64 (dx dy : b64) (w : R) : Prop := is_finite dx = true /\ is_finite dy = true /\ moderate (real dx) /\ moderate (real dy) /\ moderate w /\ w <= real dx /\ w <= real dy.
(** Finite doubles for the slopes at the nodes, at most S in size. *)
Definition slopes64 (nx ny : Z) (px py : Z -> Z -> b64) (S : R) : Prop := moderate S /\ forall k l, (0 <= k < ny)%Z -> (0 <= l < nx)%Z ->
  (is_finite (px k l) = true /\ Rabs (real (px k l)) <= S) /\ (is_finite (py k l) = true /\ Rabs (real (py k l)) <= S).
