(** Property C148: one semi-Lagrangian step of the library in double arithmetic, compared with the solution of the level set equation. *)
From Coq Require Import ZArith List Reals.
From Flocq Require Import Core BinarySingleNaN.
From Coquelicot Require Import Derive_2d.
From Verif Require Import Base Num NumB64 ModelVec ModelGrid ModelArray ModelInterp ModelTemporal ModelRefMath SpecGrid SpecInterp SpecGradient SpecTemporal SpecAccuracy SpecB64 SpecRound SpecSensitive SpecPde SpecPdeRound
  SpecRef SpecRefOrder SpecRefSolve ProofsInterpApi ProofsPdeCases ProofsRoundField ProofsSensitiveCases ProofsPdeRound ProofsPdeRoundCases.
Open Scope R_scope.

(** In a smooth flow F in the plane, with arrays of doubles that hold the velocity up to eta and its derivatives up to etag, on data that are a smooth
    level set and its derivatives up to eps, every displacement at most three quarters of a cell: the step completes, everything it stores is finite, the new
    values are those of the solution u of the level set equation, and for V K dt <= 1/4 the new gradients are those of u, up to the constants of SpecPdeRound. *)
Theorem C148_step_solves64 : forall ov n bmin bmax (g : grid b64) l S Mr rho,
  let lo0 := reals bmin in let hi0 := reals bmax in let h := spacings n lo0 hi0 in let pos := centre_pos 2 n lo0 hi0 in
  built ov 2 n 1 bmin bmax g -> levelset_on g l -> stores64 ov 2 n 1 g l S -> interp_defined ov 2 -> fine_box 2 rho n bmin bmax ->
  moderate Mr -> sized 2 n 1 h Mr S -> forall D M eps, smooth D ->
  (forall i j k p, (i <= 4)%nat -> (j <= 4)%nat -> (k <= 4)%nat -> centre_box 2 n lo0 hi0 p -> Rabs (D i j k (vx p) (vy p) (vz p)) <= M i j k) ->
  sized 2 n 1 h eps (fun c => cv_minus (S c) (jet D (pos c))) ->
  forall lv dt hm, velocity_on g lv -> slow_flow ov 2 n bmin bmax dt g lv -> moderate hm -> hm <= vx h /\ hm <= vy h -> 0 <= real dt ->
  forall (F : flow R) Tp V K lo eta etag u, graded_velocity 2 V K F Tp -> true_gradients F Tp -> solves F Tp lo (lo + real dt) u ->
  (forall x y, u x y lo = D 0%nat 0%nat 0%nat x y 0) -> near_flow64 ov n bmin bmax g F Tp (lo + real dt) lv eta etag ->
  V * real dt < vx h -> V * real dt < vy h ->
  exists l', sl_compute ov g dt lv l = Ok l' /\
  forall i j k, interior_cell n (i, j, k) -> exists phi psi, aget ov g (ls_phi l') i j k = Ok phi /\ aget ov g (ls_psi l') i j k = Ok psi /\
    let p := pos (i, j, k) in is_finite phi = true /\ is_finite (vx psi) = true /\ is_finite (vy psi) = true /\
    Rabs (real phi - u (vx p) (vy p) (lo + real dt)) <= step_value_error64 h M (real dt) V K eta eps Mr rho /\
    (V * K * real dt <= 1 / 4 -> exists ux uy, differentiable_pt_lim (fun x y => u x y (lo + real dt)) (vx p) (vy p) ux uy /\
      Rabs (real (vx psi) - ux) <= step_gradient_error64 h M (real dt) V K eta etag eps Mr rho hm /\ Rabs (real (vy psi) - uy) <= step_gradient_error64 h M (real dt) V K eta etag eps Mr rho hm).
Proof. exact step_solves64. Qed.
Print Assumptions C148_step_solves64.
(** sin x sin y and the swirling flow, both stored as multiples of 2^-40, on the square [-1, 1]^2 cut into 4 by 3 cells, with a step of 1/128 from time 1/5 *)
Example C148_case : exists (g : grid b64) (l : levelset b64) (lv : ls_velocity b64) u,
  let lo := reals (sq (-1)) in let hi := reals (sq 1) in let h := spacings n43 lo hi in let pos := centre_pos 2 n43 lo hi in
  let S c := cv_map held (jet ripple (pos c)) in let dt := b64_make 1 (-7) in
  built Wrap 2 n43 1 (sq (-1)) (sq 1) g /\ levelset_on g l /\ stores64 Wrap 2 n43 1 g l S /\ interp_defined Wrap 2 /\ fine_box 2 2 n43 (sq (-1)) (sq 1) /\
  moderate 2 /\ sized 2 n43 1 h 2 S /\ smooth ripple /\
  (forall i j k p, (i <= 4)%nat -> (j <= 4)%nat -> (k <= 4)%nat -> centre_box 2 n43 lo hi p -> Rabs (ripple i j k (vx p) (vy p) (vz p)) <= 1) /\
  sized 2 n43 1 h (bpow radix2 (-41)) (fun c => cv_minus (S c) (jet ripple (pos c))) /\
  velocity_on g lv /\ slow_flow Wrap 2 n43 (sq (-1)) (sq 1) dt g lv /\ moderate (/ 2) /\ (/ 2 <= vx h /\ / 2 <= vy h) /\ 0 <= real dt /\
  graded_velocity 2 1 8 vortex 1 /\ true_gradients vortex 1 /\ solves vortex 1 (1 / 5) (1 / 5 + real dt) u /\ (forall x y, u x y (1 / 5) = ripple 0 0 0 x y 0) /\
  near_flow64 Wrap n43 (sq (-1)) (sq 1) g vortex 1 (1 / 5 + real dt) lv (bpow radix2 (-41)) (bpow radix2 (-41)) /\
  1 * real dt < vx h /\ 1 * real dt < vy h /\ 1 * 8 * real dt <= 1 / 4 /\ ripple 0 0 0 (PI / 2) (PI / 2) 0 = 1.
Proof. exact pde64_case. Qed.
