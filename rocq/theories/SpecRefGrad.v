(** Vocabulary for the error of the gradient after one time step of the reference programs. *)
From Coq Require Import ZArith Reals.
From Coquelicot Require Import Derive_2d.
From Verif Require Import Base Num ModelVec ModelRefMath ModelRefMem ModelRef SpecRef SpecRefRun SpecRefStep.
Open Scope R_scope.

(** Error of the interpolated x slope on a cell of size h times k, with data errors e0, e1 and e2. *)
Definition slope_x_bound (h k : R) (M : nat -> nat -> R) (e0 e1 e2 : R) : R :=
  h ^ 3 / 24 * M 4%nat 0%nat + 3 / h * (k ^ 4 / 384 * M 0%nat 4%nat + (e0 + k / 4 * e1)) + (k ^ 4 / 384 * M 1%nat 4%nat + (e1 + k / 4 * e2)).
(** The same for the y slope. *)
Definition slope_y_bound (h k : R) (M : nat -> nat -> R) (e0 e1 e2 : R) : R :=
  h ^ 4 / 384 * M 4%nat 1%nat + (k ^ 3 / 24 * M 0%nat 4%nat + (3 / k * e0 + e1)) + h / 4 * (k ^ 3 / 24 * M 1%nat 4%nat + (3 / k * e1 + e2)).
(** A map of the plane into itself has at (x, y) the derivatives Xx, Xy of the first and Yx, Yy of the second coordinate. *)
Definition derivatives_of (T : R -> R -> R * R) (x y Xx Xy Yx Yy : R) : Prop :=
  differentiable_pt_lim (fun a b => fst (T a b)) x y Xx Xy /\ differentiable_pt_lim (fun a b => snd (T a b)) x y Yx Yy.
(** Error of the gradient after a step of length dt in a flow whose velocity is at most V and whose derivatives grow with K, when the place of origin
    is known up to E and the slopes up to ex and ey. *)
Definition gradient_bound (dt V K : R) (M : nat -> nat -> R) (ex ey E : R) : R :=
  2 * (ex + ey) + 2 * (M 2%nat 0%nat + 2 * M 1%nat 1%nat + M 0%nat 2%nat) * E + 5 * (M 1%nat 0%nat + M 0%nat 1%nat) * (V * K ^ 2 * (1 + 2 * V) + 2 * (V * K) ^ 2) * dt ^ 2.
(** The same with the third-order scheme. *)
Definition gradient_bound3 (dt V K : R) (M : nat -> nat -> R) (ex ey E : R) : R :=
  2 * (ex + ey) + 2 * (M 2%nat 0%nat + 2 * M 1%nat 1%nat + M 0%nat 2%nat) * E + 20 * (M 1%nat 0%nat + M 0%nat 1%nat) * (V * K * (K * (1 + 2 * V)) ^ 3) * dt ^ 4.
