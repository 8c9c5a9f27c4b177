(** Property C145: what the programs keep on the walls of the swirling flow is exact except for the derivative across the wall. *)
From Coq Require Import ZArith List String Reals.
From Coquelicot Require Import Derive_2d.
From Verif Require Import Base Num NumB64 ModelVec SpecGradient ModelRefMath ModelRefMem ModelRef SpecRef SpecRefRun SpecRefOrder SpecRefStep SpecRefSolve SpecRefExist
  ProofsRefSolveCases ProofsRefWallGrad.
Open Scope R_scope.

(** Claimed: after every number of steps the stored level set and gradient at the wall nodes are those of the exact solution.
    True of the level set itself and of the derivative along the wall.  The derivative across the wall is kept at its start,
    while that of the exact solution has moved by a multiple of the other derivative. *)
Theorem C145_walls_partial : forall whole s k u i j, proper s -> unit_square s -> 0 <= s_dt s -> s_Tp s <> 0 ->
  solves vortex (s_Tp s) 0 (INR k * s_dt s) u -> (forall x y, u x y 0 = initialize x y) ->
  (0 <= i < s_ny s)%Z -> (0 <= j < s_nx s)%Z -> (i = 0 \/ i = s_ny s - 1 \/ j = 0 \/ j = s_nx s - 1)%Z ->
  let x := node_x s j in let y := node_y s i in let q := 2 * s_Tp s * sin (PI * (INR k * s_dt s) / s_Tp s) in
  exists m0 m gx gy ux uy, setup s = Ok m0 /\ steps whole vortex s k m0 = Ok m /\
    m (MPhi, i, j) = Some (ModelRefMem.D (u x y (INR k * s_dt s))) /\ m (MPsix, i, j) = Some (ModelRefMem.D gx) /\ m (MPsiy, i, j) = Some (ModelRefMem.D gy) /\
    gx = derivxinit x y /\ gy = derivyinit x y /\
    differentiable_pt_lim (fun x y => u x y (INR k * s_dt s)) x y ux uy /\
    ((j = 0 \/ j = s_nx s - 1)%Z -> gy = uy /\ ux - gx = q * sin (PI * y) ^ 2 * gy) /\
    ((i = 0 \/ i = s_ny s - 1)%Z -> gx = ux /\ uy - gy = - q * sin (PI * x) ^ 2 * gx).
Proof. exact run_walls. Qed.
Print Assumptions C145_walls_partial.

(** With the settings of the program: half way through the period psix in the middle of the left wall is off by more than one half. *)
Theorem C145_wall_gradient_refuted : exists u m0 m gx ux uy, (forall lo hi, solves vortex (s_Tp gals_s) lo hi u) /\ (forall x y, u x y 0 = initialize x y) /\
  setup gals_s = Ok m0 /\ steps true vortex gals_s 128 m0 = Ok m /\ m (MPsix, 64%Z, 0%Z) = Some (ModelRefMem.D gx) /\
  differentiable_pt_lim (fun x y => u x y (1 / 2)) 0 (64 / 127) ux uy /\ 1 / 2 < ux - gx.
Proof. exact walls_gals. Qed.
Print Assumptions C145_wall_gradient_refuted.

(** The exact derivatives on a wall, between any two times. *)
Theorem C145_exact_walls : forall Tp lo hi u x y a b lx ly, Tp <> 0 -> lo <= hi -> solves vortex Tp lo hi u ->
  differentiable_pt_lim (fun x y => u x y lo) x y a b -> differentiable_pt_lim (fun x y => u x y hi) x y lx ly ->
  let q := 2 * Tp * (sin (PI * hi / Tp) - sin (PI * lo / Tp)) in
  (x = 0 \/ x = 1 -> u x y hi = u x y lo /\ lx = a + q * sin (PI * y) ^ 2 * b /\ ly = b) /\
  (y = 0 \/ y = 1 -> u x y hi = u x y lo /\ lx = a /\ ly = b - q * sin (PI * x) ^ 2 * a).
Proof. exact wall_exact. Qed.
Print Assumptions C145_exact_walls.
Example C145_case : proper gals_s /\ unit_square gals_s /\ 0 <= s_dt gals_s /\ s_Tp gals_s <> 0 /\
  exists u, (forall lo hi, solves vortex (s_Tp gals_s) lo hi u) /\ forall x y, u x y 0 = initialize x y.
Proof. exact walls_case. Qed.
