(** Property C141: the gradient after one time step of the reference programs with the third-order scheme. *)
From Coq Require Import ZArith List String Reals.
From Coquelicot Require Import Derive_2d.
From Verif Require Import Base Num ModelVec SpecGradient ModelRefMath ModelRefMem ModelRef SpecRef SpecRefRun SpecRefOrder SpecRefStep SpecRefSolve SpecRefGrad
  ProofsRefRunCases ProofsRefStepCases ProofsRefSolveCases ProofsRefGradThird ProofsRefGradCases.
Open Scope R_scope.

(** With SuperConsistent and RK3 the new gradient at a node that is not too close to the edges is that of the solution of the level set equation at the new
    time, up to the interpolation errors, the errors of the data, the error of the place of origin and a term of order four in the time step. *)
Theorem C141_gradient_order : forall whole (F : flow R) s t f m D M e0 e1 e2 V K u, proper s -> s_psischeme s = "SuperConsistent"%string -> s_rk3 s = true -> step_number t -> 0 <= s_dt s -> 0 < K -> V * K * s_dt s <= 1 / 4 ->
  graded_velocity 4 V K F (s_Tp s) -> true_gradients F (s_Tp s) -> smooth2 D -> bounded_in_box s D M ->
  nodes_at (s_nx s) (s_ny s) (node_x s) (node_y s) m -> contains (s_nx s) (s_ny s) f m -> near_samples s D f e0 e1 e2 ->
  let lo := IZR t * s_dt s in let hi := (IZR t + 1) * s_dt s in let E := origin_bound true (s_dt s) V K in
  let ex := slope_x_bound (s_dx s) (s_dy s) M e0 e1 e2 in let ey := slope_y_bound (s_dx s) (s_dy s) M e0 e1 e2 in
  solves F (s_Tp s) lo hi u -> (forall x y, u x y lo = D 0%nat 0%nat x y) ->
  exists m', step whole F s t m = Ok m' /\
    forall i j, (0 <= i < s_ny s)%Z -> (0 <= j < s_nx s)%Z -> whole = true \/ (i < s_ny s - 1 /\ j < s_nx s - 1)%Z ->
      deep s (node_x s j) (node_y s i) (V * s_dt s + E) ->
      exists gx gy ux uy, m' (MPsix, i, j) = Some (ModelRefMem.D gx) /\ m' (MPsiy, i, j) = Some (ModelRefMem.D gy) /\
        differentiable_pt_lim (fun x y => u x y hi) (node_x s j) (node_y s i) ux uy /\
        Rabs (gx - ux) <= gradient_bound3 (s_dt s) V K M ex ey E /\ Rabs (gy - uy) <= gradient_bound3 (s_dt s) V K M ex ey E.
Proof. exact step_third. Qed.
Print Assumptions C141_gradient_order.
Example C141_case : proper case_s /\ s_psischeme case_s = "SuperConsistent"%string /\ s_rk3 case_s = true /\ step_number 0 /\ 0 <= s_dt case_s /\ 1 * 1 * s_dt case_s <= 1 / 4 /\
  graded_velocity 4 1 1 shear (s_Tp case_s) /\ true_gradients shear (s_Tp case_s) /\ smooth2 ripple /\ bounded_in_box case_s ripple (fun _ _ => 1) /\
  (exists m, nodes_at 5 4 (node_x case_s) (node_y case_s) m /\ contains 5 4 (offset case_s) m) /\ near_samples case_s ripple (offset case_s) (1 / 1000) 0 0 /\
  let lo := IZR 0 * s_dt case_s in let hi := (IZR 0 + 1) * s_dt case_s in let E := origin_bound true (s_dt case_s) 1 1 in
  solves shear (s_Tp case_s) lo hi sheared /\ (forall x y, sheared x y lo = ripple 0 0 x y) /\ deep case_s (node_x case_s 2) (node_y case_s 1) (1 * s_dt case_s + E).
Proof. exact third_case. Qed.

(** In the swirling flow on the unit square this holds at every inner node. *)
Theorem C141_vortex_order : forall whole s t f m D M e0 e1 e2 K u, proper s -> unit_square s -> s_psischeme s = "SuperConsistent"%string -> s_rk3 s = true -> step_number t -> 0 <= s_dt s ->
  2 * PI <= K -> Rabs (PI / s_Tp s) <= K -> K * s_dt s <= 1 / 4 -> smooth2 D -> bounded_in_box s D M ->
  nodes_at (s_nx s) (s_ny s) (node_x s) (node_y s) m -> contains (s_nx s) (s_ny s) f m -> near_samples s D f e0 e1 e2 ->
  let lo := IZR t * s_dt s in let hi := (IZR t + 1) * s_dt s in
  let E := K ^ 3 * s_dt s ^ 4 * (25 + 3 * K * s_dt s) in
  let ex := slope_x_bound (s_dx s) (s_dy s) M e0 e1 e2 in let ey := slope_y_bound (s_dx s) (s_dy s) M e0 e1 e2 in
  E < s_dx s * (1 - K * s_dt s) -> E < s_dy s * (1 - K * s_dt s) ->
  solves vortex (s_Tp s) lo hi u -> (forall x y, u x y lo = D 0%nat 0%nat x y) ->
  exists m', step whole vortex s t m = Ok m' /\
    forall i j, (0 < i < s_ny s - 1)%Z -> (0 < j < s_nx s - 1)%Z ->
      exists gx gy ux uy, m' (MPsix, i, j) = Some (ModelRefMem.D gx) /\ m' (MPsiy, i, j) = Some (ModelRefMem.D gy) /\
        differentiable_pt_lim (fun x y => u x y hi) (node_x s j) (node_y s i) ux uy /\
        Rabs (gx - ux) <= gradient_bound3 (s_dt s) 1 K M ex ey E /\ Rabs (gy - uy) <= gradient_bound3 (s_dt s) 1 K M ex ey E.
Proof. exact step_third_vortex. Qed.
Print Assumptions C141_vortex_order.
(** The settings of the program meet the hypotheses (see also C134_vortex_case). *)
Example C141_vortex_case : s_psischeme gals_s = "SuperConsistent"%string /\ s_rk3 gals_s = true /\ 8 * s_dt gals_s <= 1 / 4 /\
  let M i j := 8 ^ (i + j) in let E := 8 ^ 3 * s_dt gals_s ^ 4 * (25 + 3 * 8 * s_dt gals_s) in
  gradient_bound3 (s_dt gals_s) 1 8 M (slope_x_bound (s_dx gals_s) (s_dy gals_s) M 0 0 0) (slope_y_bound (s_dx gals_s) (s_dy gals_s) M 0 0 0) E < 1 / 50.
Proof. exact third_vortex_case. Qed.
