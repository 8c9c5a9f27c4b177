(** Property C146: one semi-Lagrangian step of the library, compared with the solution of the level set equation. *)
From Coq Require Import ZArith List Reals.
From Coquelicot Require Import Derive_2d.
From Verif Require Import Base Num ModelVec ModelGrid ModelArray ModelInterp ModelTemporal ModelRefMath SpecGrid SpecInterp SpecGradient SpecTemporal SpecAccuracy SpecRef SpecRefOrder SpecRefSolve SpecPde
  ProofsInterpApi ProofsPde ProofsPdeCases.
Open Scope R_scope.

(** In a smooth flow F in the plane whose velocity and velocity derivatives the arrays hold, on a level set with all derivatives right, and for a step in
    which nothing travels a whole cell: the new values are those of the solution u of the level set equation up to the interpolation error and dt^2, and for
    V K dt <= 1/4 the new gradient is the gradient of u up to the interpolation error and dt^2, with the explicit constants of SpecPde. *)
Theorem C146_step_solves : forall ov n bmin bmax (g : grid R) dt lv (l : levelset R),
  built ov 2 n 1 bmin bmax g -> levelset_on g l -> velocity_on g lv -> proper_box 2 bmin bmax -> interp_defined ov 2 -> 0 <= dt -> forall D M, smooth D ->
  (forall i j k p, (i <= 4)%nat -> (j <= 4)%nat -> (k <= 4)%nat -> centre_box 2 n bmin bmax p -> Rabs (D i j k (vx p) (vy p) (vz p)) <= M i j k) ->
  stores ov 2 n 1 g l (fun c => jet D (centre_pos 2 n bmin bmax c)) ->
  forall (F : flow R) Tp V K lo u, graded_velocity 2 V K F Tp -> true_gradients F Tp -> solves F Tp lo (lo + dt) u -> (forall x y, u x y lo = D 0%nat 0%nat 0%nat x y 0) ->
  holds_flow ov n g F Tp (lo + dt) lv ->
  V * dt < spacing (vx bmin) (vx bmax) (vx n) -> V * dt < spacing (vy bmin) (vy bmax) (vy n) ->
  exists l', sl_compute ov g dt lv l = Ok l' /\ only_interior ov 2 n 1 g l l' /\
  forall i j k, interior_cell n (i, j, k) -> exists p phi psi, node ov g i j k = Ok p /\ aget ov g (ls_phi l') i j k = Ok phi /\ aget ov g (ls_psi l') i j k = Ok psi /\
    Rabs (phi - u (vx p) (vy p) (lo + dt)) <= step_value_error n bmin bmax M dt V K /\
    (V * K * dt <= 1 / 4 -> exists ux uy, differentiable_pt_lim (fun x y => u x y (lo + dt)) (vx p) (vy p) ux uy /\
      Rabs (vx psi - ux) <= step_gradient_error n bmin bmax M dt V K /\ Rabs (vy psi - uy) <= step_gradient_error n bmin bmax M dt V K).
Proof. exact step_solves. Qed.
Print Assumptions C146_step_solves.
(** sin x sin y in the swirling flow of the reference programs, on a grid of 4 by 3 cells, at time 1/5 with a step of 1/100 *)
Example C146_case : exists g lv l u, built Wrap 2 (V3 4 3 1)%Z 1 lo1 hi1 g /\ levelset_on g l /\ velocity_on g lv /\ proper_box 2 lo1 hi1 /\ interp_defined Wrap 2 /\ smooth ripple /\
  (forall i j k p, (i <= 4)%nat -> (j <= 4)%nat -> (k <= 4)%nat -> centre_box 2 (V3 4 3 1)%Z lo1 hi1 p -> Rabs (ripple i j k (vx p) (vy p) (vz p)) <= 1) /\
  stores Wrap 2 (V3 4 3 1)%Z 1 g l (fun c => jet ripple (centre_pos 2 (V3 4 3 1)%Z lo1 hi1 c)) /\
  graded_velocity 2 1 8 vortex 1 /\ true_gradients vortex 1 /\ solves vortex 1 (1 / 5) (1 / 5 + 1 / 100) u /\ (forall x y, u x y (1 / 5) = ripple 0 0 0 x y 0) /\
  holds_flow Wrap (V3 4 3 1)%Z g vortex 1 (1 / 5 + 1 / 100) lv /\
  1 * (1 / 100) < spacing (vx lo1) (vx hi1) 4 /\ 1 * (1 / 100) < spacing (vy lo1) (vy hi1) 3 /\ 1 * 8 * (1 / 100) <= 1 / 4 /\
  ripple 0 0 0 (PI / 2) (PI / 2) 0 = 1.
Proof. exact pde_case. Qed.
