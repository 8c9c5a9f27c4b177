(** Vocabulary for statements about the gradient schemes in double: the data in an array of doubles,
    the exact difference quotients, and results within a given distance of them. *)
From Coq Require Import ZArith List Bool Reals.
From Flocq Require Import Core BinarySingleNaN.
From Verif Require Import Base Num NumB64 ModelVec ModelGrid ModelArray SpecGrid SpecB64 SpecRound SpecGradient.
Open Scope R_scope.

(** Every cell, ghosts included, holds a finite double that stands for F of the cell, at most M in size. *)
Definition holds64 (ov : ovmode) (dim : nat) (n : vec3 Z) (pad : Z) (g : grid b64) (al : array b64) (F : cell -> R) (M : R) : Prop :=
  forall i j k, padded_cell dim n pad (i, j, k) ->
    exists z, aget ov g al i j k = Ok z /\ is_real z (F (i, j, k)) /\ Rabs (F (i, j, k)) <= M.
(** The same for an array of vectors, on the used axes. *)
Definition vholds64 (ov : ovmode) (dim : nat) (n : vec3 Z) (pad : Z) (g : grid b64) (al : array (vec3 b64)) (F : axis -> cell -> R) (M : R) : Prop :=
  forall i j k, padded_cell dim n pad (i, j, k) ->
    exists v, aget ov g al i j k = Ok v /\
      forall a, used dim a = true -> is_real (vget v a) (F a (i, j, k)) /\ Rabs (F a (i, j, k)) <= M.

(** The central difference along an axis, and the third-order upwind difference. *)
Definition central (F : cell -> R) (c : cell) (a : axis) (h : R) : R :=
  (F (cshift c a 1) - F (cshift c a (-1))) / (2 * h).
Definition upwind3 (F : cell -> R) (c : cell) (a : axis) (h : R) : R :=
  (2 * F (cshift c a 1) + 3 * F c - 6 * F (cshift c a (-1)) + F (cshift c a (-2))) / (6 * h).

(** In interior cells the component along a used axis a is a finite double within e a of D c a, and
    the others keep their value; ghost cells keep their value. *)
Definition grad_near (ov : ovmode) (dim : nat) (n : vec3 Z) (pad : Z) (g : grid b64)
    (gr gr' : array (vec3 b64)) (D : cell -> axis -> R) (e : axis -> R) : Prop :=
  array_on g gr' /\
  (forall i j k, interior_cell n (i, j, k) -> exists x y,
     aget ov g gr i j k = Ok x /\ aget ov g gr' i j k = Ok y /\
     forall a, if used dim a then is_finite (vget y a) = true /\ Rabs (real (vget y a) - D (i, j, k) a) <= e a
               else vget y a = vget x a) /\
  (forall i j k, padded_cell dim n pad (i, j, k) -> ~ interior_cell n (i, j, k) ->
     aget ov g gr' i j k = aget ov g gr i j k).
(** The same for matrices; r is the row, d the column. *)
Definition mat_near (ov : ovmode) (dim : nat) (n : vec3 Z) (pad : Z) (g : grid b64)
    (gr gr' : array (mat3 b64)) (D : cell -> axis -> axis -> R) (e : axis -> R) : Prop :=
  array_on g gr' /\
  (forall i j k, interior_cell n (i, j, k) -> exists x y,
     aget ov g gr i j k = Ok x /\ aget ov g gr' i j k = Ok y /\
     forall r d, if used dim r && used dim d
       then is_finite (mget y r d) = true /\ Rabs (real (mget y r d) - D (i, j, k) r d) <= e d
       else mget y r d = mget x r d) /\
  (forall i j k, padded_cell dim n pad (i, j, k) -> ~ interior_cell n (i, j, k) ->
     aget ov g gr' i j k = aget ov g gr i j k).
