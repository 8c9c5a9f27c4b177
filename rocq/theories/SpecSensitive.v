(** Vocabulary for the effect of errors in the stored data. *)
From Coq Require Import ZArith Reals.
From Verif Require Import Base Num ModelVec SpecGrid SpecInterp.
Open Scope R_scope.

(** Entry by entry difference. *)
Definition cv_minus (s t : cell_values) : cell_values :=
  CV (cv s - cv t) (cv_x s - cv_x t) (cv_y s - cv_y t) (cv_z s - cv_z t) (cv_xy s - cv_xy t) (cv_yz s - cv_yz t) (cv_zx s - cv_zx t) (cv_xyz s - cv_xyz t).
(** How much an error of the data, derivatives multiplied by the spacings, can grow: 5/4 for each axis in the value, and 4 in place of
    5/4 for the axis of a derivative. *)
Definition value_gain (dim : nat) : R := (5 / 4) ^ dim.
Definition slope_gain (dim : nat) : R := 4 * (5 / 4) ^ (dim - 1).

From Flocq Require Import Core BinarySingleNaN.
From Verif Require Import NumB64 ModelGrid ModelArray SpecB64 SpecRound.
(** In every interior cell velocity and gradient are finite doubles, the displacement is at most three quarters of a cell
    and the entries of the gradient times the time step are at most 1. *)
Definition slow_flow (ov : ovmode) (dim : nat) (n : vec3 Z) (bmin bmax : vec3 b64) (dt : b64) (g : grid b64) (lv : ls_velocity b64) : Prop :=
  forall i j k, interior_cell n (i, j, k) -> exists v m,
    aget ov g (lv_vel lv) i j k = Ok v /\ aget ov g (lv_grad lv) i j k = Ok m /\ slow dim n bmin bmax dt v /\
    forall a b, is_finite (mget m a b) = true /\ Rabs (real (mget m a b) * real dt) <= 1.
