(** Property C144: the first time step of the programs, from the initial level set they set up, is that of the exact solution up to explicit errors. *)
From Coq Require Import ZArith List String Reals.
From Coquelicot Require Import Derive_2d.
From Verif Require Import Base Num NumB64 ModelVec SpecGradient ModelRefMath ModelRefMem ModelRef SpecRef SpecRefRun SpecRefOrder SpecRefStep SpecRefSolve SpecRefExist
  ProofsRefSolveCases ProofsRefFirst.
Open Scope R_scope.

(** For every grid on the unit square: the level set set up by the program, advanced by one step in the swirling flow, differs at no node from the solution
    of the level set equation by more than the stated bound; with SuperConsistent and RK3 neither does its gradient at the inner nodes. *)
Theorem C144_first_step : forall whole s K, proper s -> unit_square s -> 0 <= s_dt s -> s_Tp s <> 0 -> 2 * PI <= K -> Rabs (PI / s_Tp s) <= K ->
  let E := if s_rk3 s then K ^ 3 * s_dt s ^ 4 * (25 + 3 * K * s_dt s) else K * s_dt s ^ 2 * (3 / 2) in let h := s_dx s in let k := s_dy s in
  E < h * (1 - K * s_dt s) -> E < k * (1 - K * s_dt s) ->
  exists u m0 m1, (forall lo hi, solves vortex (s_Tp s) lo hi u) /\ (forall x y, u x y 0 = initialize x y) /\
    setup s = Ok m0 /\ step whole vortex s 0 m0 = Ok m1 /\
    (forall i j, (0 <= i < s_ny s)%Z -> (0 <= j < s_nx s)%Z -> exists v, m1 (MPhi, i, j) = Some (ModelRefMem.D v) /\
      Rabs (v - u (node_x s j) (node_y s i) (s_dt s)) <= h ^ 4 / 32 + k ^ 4 / 32 + h * k ^ 4 / 128 + 2 * E) /\
    (s_psischeme s = "SuperConsistent"%string -> s_rk3 s = true -> K * s_dt s <= 1 / 4 ->
     forall i j, (0 < i < s_ny s - 1)%Z -> (0 < j < s_nx s - 1)%Z ->
      exists gx gy ux uy, m1 (MPsix, i, j) = Some (ModelRefMem.D gx) /\ m1 (MPsiy, i, j) = Some (ModelRefMem.D gy) /\
        differentiable_pt_lim (fun x y => u x y (s_dt s)) (node_x s j) (node_y s i) ux uy /\
        let b := 2 * (h ^ 3 / 2 + 3 * k ^ 4 / (32 * h) + k ^ 4 / 32 + h ^ 4 / 32 + k ^ 3 / 2 + h * k ^ 3 / 8) + 12 * E + 1080 * K ^ 4 * s_dt s ^ 4 in
        Rabs (gx - ux) <= b /\ Rabs (gy - uy) <= b).
Proof. exact first_step. Qed.
Print Assumptions C144_first_step.
(** With the settings of the program the errors are below 6e-6 (values) and 1/900 (gradients). *)
Example C144_case : proper gals_s /\ unit_square gals_s /\ 0 <= s_dt gals_s /\ s_Tp gals_s <> 0 /\ 2 * PI <= 8 /\ Rabs (PI / s_Tp gals_s) <= 8 /\
  s_psischeme gals_s = "SuperConsistent"%string /\ s_rk3 gals_s = true /\ 8 * s_dt gals_s <= 1 / 4 /\
  let E := 8 ^ 3 * s_dt gals_s ^ 4 * (25 + 3 * 8 * s_dt gals_s) in let h := s_dx gals_s in let k := s_dy gals_s in
  E < h * (1 - 8 * s_dt gals_s) /\ E < k * (1 - 8 * s_dt gals_s) /\
  h ^ 4 / 32 + k ^ 4 / 32 + h * k ^ 4 / 128 + 2 * E < 6 / 1000000 /\
  2 * (h ^ 3 / 2 + 3 * k ^ 4 / (32 * h) + k ^ 4 / 32 + h ^ 4 / 32 + k ^ 3 / 2 + h * k ^ 3 / 8) + 12 * E + 1080 * 8 ^ 4 * s_dt gals_s ^ 4 < 1 / 900.
Proof. exact first_case. Qed.
