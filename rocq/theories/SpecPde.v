(** Vocabulary for the comparison of a semi-Lagrangian step with the level set equation. *)
From Coq Require Import ZArith List Reals.
From Verif Require Import Base Num ModelVec ModelGrid ModelArray ModelTemporal ModelRefMath SpecGrid SpecInterp SpecAccuracy.
Open Scope R_scope.

(** The interior cells hold the velocity of the flow F at time t and its derivatives: row = component, column = direction. *)
Definition holds_flow (ov : ovmode) (n : vec3 Z) (g : grid R) (F : flow R) (Tp t : R) (lv : ls_velocity R) : Prop :=
  forall i j k p, interior_cell n (i, j, k) -> node ov g i j k = Ok p -> let x := vx p in let y := vy p in
    (exists w, aget ov g (lv_vel lv) i j k = Ok (V3 (Velx F x y t Tp) (Vely F x y t Tp) w)) /\
    exists m, aget ov g (lv_grad lv) i j k = Ok m /\
      mget m AX AX = gradUx F x y t Tp /\ mget m AX AY = gradUy F x y t Tp /\ mget m AY AX = gradVx F x y t Tp /\ mget m AY AY = gradVy F x y t Tp.
(** Error of the place of origin after an Euler step of length dt in a flow of speed V whose derivatives are at most V K, V K^2. *)
Definition euler_origin (dt V K : R) : R := V * K * (1 + 2 * V) / 2 * dt ^ 2.
(** Errors of one step: of the value and of the gradient, for a level set whose derivative D i j k is at most M i j k. *)
Definition step_value_error (n : vec3 Z) (bmin bmax : vec3 R) (M : nat -> nat -> nat -> R) (dt V K : R) : R :=
  error_bound 2 None (spacings n bmin bmax) M + (M 1%nat 0%nat 0%nat + M 0%nat 1%nat 0%nat) * euler_origin dt V K.
Definition step_gradient_error (n : vec3 Z) (bmin bmax : vec3 R) (M : nat -> nat -> nat -> R) (dt V K : R) : R :=
  5 / 4 * (error_bound 2 (Some AX) (spacings n bmin bmax) M + error_bound 2 (Some AY) (spacings n bmin bmax) M) +
  5 / 4 * (M 2%nat 0%nat 0%nat + 2 * M 1%nat 1%nat 0%nat + M 0%nat 2%nat 0%nat) * euler_origin dt V K +
  4 * (M 1%nat 0%nat 0%nat + M 0%nat 1%nat 0%nat) * (V * K ^ 2 * (1 + 2 * V) + 2 * (V * K) ^ 2) * dt ^ 2.
