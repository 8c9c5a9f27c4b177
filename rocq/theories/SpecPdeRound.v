(** Vocabulary for a semi-Lagrangian step in double arithmetic, compared with the level set equation. *)
From Coq Require Import ZArith List Reals.
From Flocq Require Import Core BinarySingleNaN.
From Verif Require Import Base Num NumB64 ModelVec ModelGrid ModelArray ModelTemporal ModelRefMath SpecGrid SpecInterp SpecAccuracy SpecB64 SpecRound SpecSensitive SpecPde.
Open Scope R_scope.

(** The interior cells hold doubles within eta of the velocity of the flow F at time t at the exact cell centre, and within etag of its
    derivatives: row = component, column = direction. *)
Definition near_flow64 (ov : ovmode) (n : vec3 Z) (bmin bmax : vec3 b64) (g : grid b64) (F : flow R) (Tp t : R) (lv : ls_velocity b64) (eta etag : R) : Prop :=
  forall i j k, interior_cell n (i, j, k) -> let p := centre_pos 2 n (reals bmin) (reals bmax) (i, j, k) in let x := vx p in let y := vy p in
    exists v m, aget ov g (lv_vel lv) i j k = Ok v /\ aget ov g (lv_grad lv) i j k = Ok m /\
      Rabs (real (vx v) - Velx F x y t Tp) <= eta /\ Rabs (real (vy v) - Vely F x y t Tp) <= eta /\
      Rabs (real (mget m AX AX) - gradUx F x y t Tp) <= etag /\ Rabs (real (mget m AX AY) - gradUy F x y t Tp) <= etag /\
      Rabs (real (mget m AY AX) - gradVx F x y t Tp) <= etag /\ Rabs (real (mget m AY AY) - gradVy F x y t Tp) <= etag.
(** Errors of one step, for derivatives D i j k of the initial level set of at most M i j k: interpolation, Euler's method with a velocity that is
    eta off, data that are eps off, and rounding (Mr is the size of the data, rho the position of the box, hm at most the spacings). *)
Definition step_value_error64 (h : vec3 R) (M : nat -> nat -> nat -> R) (dt V K eta eps Mr rho : R) : R :=
  error_bound 2 None h M + (M 1%nat 0%nat 0%nat + M 0%nat 1%nat 0%nat) * (euler_origin dt V K + dt * eta) + value_gain 2 * eps + round_bound 2 rho * Mr.
Definition step_gradient_error64 (h : vec3 R) (M : nat -> nat -> nat -> R) (dt V K eta etag eps Mr rho hm : R) : R :=
  2 * (error_bound 2 (Some AX) h M + error_bound 2 (Some AY) h M) +
  2 * (M 2%nat 0%nat 0%nat + 2 * M 1%nat 1%nat 0%nat + M 0%nat 2%nat 0%nat) * (euler_origin dt V K + dt * eta) +
  (M 1%nat 0%nat 0%nat + M 0%nat 1%nat 0%nat) * (4 * (V * K ^ 2 * (1 + 2 * V) + 2 * (V * K) ^ 2) * dt ^ 2 + dt * etag) +
  2 * slope_gain 2 * (eps / vx h + eps / vy h) + 8 * round_bound 2 rho * (Mr / hm).
