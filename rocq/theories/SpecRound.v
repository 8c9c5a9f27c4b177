(** Vocabulary for statements about rounding errors: what a level set of doubles holds, how large
    its entries are, and which grids are covered. *)
From Coq Require Import ZArith List Reals.
From Flocq Require Import Core BinarySingleNaN.
From Verif Require Import Base Num NumB64 ModelVec ModelGrid ModelArray ModelTemporal SpecGrid SpecInterp SpecB64.
Open Scope R_scope.

(** The box of doubles, as reals. *)
Definition reals (x : vec3 b64) : vec3 R := V3 (real (vx x)) (real (vy x)) (real (vz x)).

(** z is a finite double that stands for r. *)
Definition is_real (z : b64) (r : R) : Prop := is_finite z = true /\ real z = r.

(** The previous fields of a level set of doubles hold, in every cell including ghosts, finite
    numbers, and these are the given reals (on the used axes). *)
Definition stores64 (ov : ovmode) (dim : nat) (n : vec3 Z) (pad : Z) (g : grid b64) (l : levelset b64)
    (S : cell -> cell_values) : Prop :=
  forall i j k, padded_cell dim n pad (i, j, k) -> let s := S (i, j, k) in
    (exists p, aget ov g (ls_phi_prev l) i j k = Ok p /\ is_real p (cv s)) /\
    (exists v, aget ov g (ls_psi_prev l) i j k = Ok v /\ is_real (vx v) (cv_x s) /\
       (used dim AY = true -> is_real (vy v) (cv_y s)) /\ (used dim AZ = true -> is_real (vz v) (cv_z s))) /\
    (exists m, aget ov g (ls_mix_prev l) i j k = Ok m /\ Forall2 is_real m
      (match dim with
       | 1%nat => [] | 2%nat => [cv_xy s] | _ => [cv_xy s; cv_yz s; cv_zx s; cv_xyz s] end)).

(** The entries are at most M once multiplied by the spacings of the axes they are derivatives along. *)
Definition sized (dim : nat) (n : vec3 Z) (pad : Z) (h : vec3 R) (M : R) (S : cell -> cell_values) : Prop :=
  forall c, padded_cell dim n pad c -> let s := S c in
    Rabs (cv s) <= M /\ Rabs (cv_x s) * vx h <= M /\
    (used dim AY = true -> Rabs (cv_y s) * vy h <= M /\ Rabs (cv_xy s) * (vx h * vy h) <= M) /\
    (used dim AZ = true -> Rabs (cv_z s) * vz h <= M /\ Rabs (cv_yz s) * (vy h * vz h) <= M /\
       Rabs (cv_zx s) * (vz h * vx h) <= M /\ Rabs (cv_xyz s) * (vx h * vy h * vz h) <= M).

(** Between 2^-200 and 2^200. *)
Definition moderate (r : R) : Prop := bpow radix2 (-200) <= r <= bpow radix2 200.

(** Finite bounds in the right order, moderate spacings, and a box that lies within rho cells of the
    origin, rho at most 2^30. *)
Definition fine_axis (rho : R) (lo hi : b64) (n : Z) : Prop :=
  is_finite lo = true /\ is_finite hi = true /\ real lo < real hi /\
  moderate (spacing64 lo hi n) /\ reach lo hi <= rho * spacing64 lo hi n.
Definition fine_box (dim : nat) (rho : R) (n : vec3 Z) (bmin bmax : vec3 b64) : Prop :=
  rho <= bpow radix2 30 /\
  forall a, used dim a = true -> fine_axis rho (vget bmin a) (vget bmax a) (vget n a).

(** y is within 2^-46 times the distance of the box from the origin of the position x. *)
Definition near_point (dim : nat) (bmin bmax x : vec3 b64) (y : vec3 R) : Prop :=
  forall a, used dim a = true ->
    Rabs (real (vget x a) - vget y a) <= bpow radix2 (-46) * reach (vget bmin a) (vget bmax a).

(** The error bound, relative to M: rho 2^-34 in 1-D, rho 2^-30 in 2-D, rho 2^-26 in 3-D. *)
Definition round_bound (dim : nat) (rho : R) : R := bpow radix2 (4 * Z.of_nat dim - 38) * rho.

(** The matrix of the numbers nine doubles stand for. *)
Definition mreals (m : mat3 b64) : mat3 R := M3 (reals (row0 m)) (reals (row1 m)) (reals (row2 m)).

(** A velocity of finite doubles and the same velocity in reals: in every interior cell the
    displacement is at most three quarters of a cell, and the nine entries of the gradient times
    the time step are at most 1. *)
Definition same_velocity (ov : ovmode) (dim : nat) (n : vec3 Z) (bmin bmax : vec3 b64) (dt : b64)
    (g : grid b64) (lv : ls_velocity b64) (gR : grid R) (lvR : ls_velocity R) : Prop :=
  forall i j k, interior_cell n (i, j, k) ->
    (exists v w, aget ov g (lv_vel lv) i j k = Ok v /\ aget ov gR (lv_vel lvR) i j k = Ok w /\
       slow dim n bmin bmax dt v /\ forall a, used dim a = true -> vget w a = real (vget v a)) /\
    (exists m, aget ov g (lv_grad lv) i j k = Ok m /\ aget ov gR (lv_grad lvR) i j k = Ok (mreals m) /\
       forall a b, is_finite (mget m a b) = true /\ Rabs (real (mget m a b) * real dt) <= 1).
