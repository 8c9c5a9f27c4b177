(** Properties C139 and C140: the error of the gradient after one time step of the reference programs. *)
From Coq Require Import ZArith List String Reals.
From Coquelicot Require Import Derive_2d.
From Verif Require Import Base Num ModelVec SpecGradient ModelRefMath ModelRefMem ModelRef SpecRef SpecRefRun SpecRefOrder SpecRefStep SpecRefSolve SpecRefGrad
  ProofsRefRunCases ProofsRefStepCases ProofsRefSolveCases ProofsRefGrad ProofsRefGradSolve ProofsRefGradCases.
Open Scope R_scope.

(** With the SuperConsistent scheme the new gradient at a node is that of the old function followed back along the numerical trace,
    up to the interpolation errors of the slopes and the errors of the data. *)
Theorem C139_gradient : forall whole (F : flow R) s t f m D M e0 e1 e2, proper s -> s_psischeme s = "SuperConsistent"%string -> true_gradients F (s_Tp s) ->
  smooth2 D -> bounded_in_box s D M ->
  nodes_at (s_nx s) (s_ny s) (node_x s) (node_y s) m -> contains (s_nx s) (s_ny s) f m -> near_samples s D f e0 e1 e2 ->
  let ex := slope_x_bound (s_dx s) (s_dy s) M e0 e1 e2 in let ey := slope_y_bound (s_dx s) (s_dy s) M e0 e1 e2 in
  exists m', step whole F s t m = Ok m' /\
    forall i j, (0 <= i < s_ny s)%Z -> (0 <= j < s_nx s)%Z -> whole = true \/ (i < s_ny s - 1 /\ j < s_nx s - 1)%Z ->
      let trace a b := back_trace F (s_rk3 s) a b t (s_dt s) (s_Tp s) in let p := trace (node_x s j) (node_y s i) in
      inside (s_xlim1 s) (s_xlim2 s) (fst p) -> inside (s_ylim1 s) (s_ylim2 s) (snd p) ->
      exists gx gy vx vy, m' (MPsix, i, j) = Some (ModelRefMem.D gx) /\ m' (MPsiy, i, j) = Some (ModelRefMem.D gy) /\
        differentiable_pt_lim (fun a b => D 0%nat 0%nat (fst (trace a b)) (snd (trace a b))) (node_x s j) (node_y s i) vx vy /\
        exists Xx Xy Yx Yy, derivatives_of trace (node_x s j) (node_y s i) Xx Xy Yx Yy /\
        vx = D 1%nat 0%nat (fst p) (snd p) * Xx + D 0%nat 1%nat (fst p) (snd p) * Yx /\ vy = D 1%nat 0%nat (fst p) (snd p) * Xy + D 0%nat 1%nat (fst p) (snd p) * Yy /\
        Rabs (gx - vx) <= ex * Rabs Xx + ey * Rabs Yx /\ Rabs (gy - vy) <= ex * Rabs Xy + ey * Rabs Yy.
Proof. exact step_slopes. Qed.
Print Assumptions C139_gradient.
Example C139_case : proper case_s /\ s_psischeme case_s = "SuperConsistent"%string /\ true_gradients shear (s_Tp case_s) /\ smooth2 ripple /\ bounded_in_box case_s ripple (fun _ _ => 1) /\
  (exists m, nodes_at 5 4 (node_x case_s) (node_y case_s) m /\ contains 5 4 (offset case_s) m) /\ near_samples case_s ripple (offset case_s) (1 / 1000) 0 0 /\
  let p := back_trace shear (s_rk3 case_s) (node_x case_s 2) (node_y case_s 1) 0 (s_dt case_s) (s_Tp case_s) in
  inside (s_xlim1 case_s) (s_xlim2 case_s) (fst p) /\ inside (s_ylim1 case_s) (s_ylim2 case_s) (snd p) /\ fst p <> node_x case_s 2.
Proof. exact slopes_case. Qed.

(** At a node that is not too close to the edges the new gradient is that of the solution of the level set equation at the new time,
    up to the interpolation errors, the errors of the data, the error of the place of origin and a term of order two in the time step. *)
Theorem C140_gradient_solution : forall whole (F : flow R) s t f m D M e0 e1 e2 V K u, proper s -> s_psischeme s = "SuperConsistent"%string -> step_number t -> 0 <= s_dt s -> 0 < K -> V * K * s_dt s <= 1 / 4 ->
  graded_velocity 3 V K F (s_Tp s) -> true_gradients F (s_Tp s) -> smooth2 D -> bounded_in_box s D M ->
  nodes_at (s_nx s) (s_ny s) (node_x s) (node_y s) m -> contains (s_nx s) (s_ny s) f m -> near_samples s D f e0 e1 e2 ->
  let lo := IZR t * s_dt s in let hi := (IZR t + 1) * s_dt s in let E := origin_bound (s_rk3 s) (s_dt s) V K in
  let ex := slope_x_bound (s_dx s) (s_dy s) M e0 e1 e2 in let ey := slope_y_bound (s_dx s) (s_dy s) M e0 e1 e2 in
  solves F (s_Tp s) lo hi u -> (forall x y, u x y lo = D 0%nat 0%nat x y) ->
  exists m', step whole F s t m = Ok m' /\
    forall i j, (0 <= i < s_ny s)%Z -> (0 <= j < s_nx s)%Z -> whole = true \/ (i < s_ny s - 1 /\ j < s_nx s - 1)%Z ->
      deep s (node_x s j) (node_y s i) (V * s_dt s + E) ->
      exists gx gy ux uy, m' (MPsix, i, j) = Some (ModelRefMem.D gx) /\ m' (MPsiy, i, j) = Some (ModelRefMem.D gy) /\
        differentiable_pt_lim (fun x y => u x y hi) (node_x s j) (node_y s i) ux uy /\
        Rabs (gx - ux) <= gradient_bound (s_dt s) V K M ex ey E /\ Rabs (gy - uy) <= gradient_bound (s_dt s) V K M ex ey E.
Proof. exact step_gradient. Qed.
Print Assumptions C140_gradient_solution.
Example C140_case : proper case_s /\ s_psischeme case_s = "SuperConsistent"%string /\ step_number 0 /\ 0 <= s_dt case_s /\ 1 * 1 * s_dt case_s <= 1 / 4 /\
  graded_velocity 3 1 1 shear (s_Tp case_s) /\ true_gradients shear (s_Tp case_s) /\ smooth2 ripple /\ bounded_in_box case_s ripple (fun _ _ => 1) /\
  (exists m, nodes_at 5 4 (node_x case_s) (node_y case_s) m /\ contains 5 4 (offset case_s) m) /\ near_samples case_s ripple (offset case_s) (1 / 1000) 0 0 /\
  let lo := IZR 0 * s_dt case_s in let hi := (IZR 0 + 1) * s_dt case_s in let E := origin_bound (s_rk3 case_s) (s_dt case_s) 1 1 in
  solves shear (s_Tp case_s) lo hi sheared /\ (forall x y, sheared x y lo = ripple 0 0 x y) /\ deep case_s (node_x case_s 2) (node_y case_s 1) (1 * s_dt case_s + E).
Proof. exact gradient_case. Qed.

(** In the swirling flow on the unit square this holds at every inner node. *)
Theorem C140_vortex_gradient : forall whole s t f m D M e0 e1 e2 K u, proper s -> unit_square s -> s_psischeme s = "SuperConsistent"%string -> step_number t -> 0 <= s_dt s ->
  2 * PI <= K -> Rabs (PI / s_Tp s) <= K -> K * s_dt s <= 1 / 4 -> smooth2 D -> bounded_in_box s D M ->
  nodes_at (s_nx s) (s_ny s) (node_x s) (node_y s) m -> contains (s_nx s) (s_ny s) f m -> near_samples s D f e0 e1 e2 ->
  let lo := IZR t * s_dt s in let hi := (IZR t + 1) * s_dt s in
  let E := if s_rk3 s then K ^ 3 * s_dt s ^ 4 * (25 + 3 * K * s_dt s) else K * s_dt s ^ 2 * (3 / 2) in
  let ex := slope_x_bound (s_dx s) (s_dy s) M e0 e1 e2 in let ey := slope_y_bound (s_dx s) (s_dy s) M e0 e1 e2 in
  E < s_dx s * (1 - K * s_dt s) -> E < s_dy s * (1 - K * s_dt s) ->
  solves vortex (s_Tp s) lo hi u -> (forall x y, u x y lo = D 0%nat 0%nat x y) ->
  exists m', step whole vortex s t m = Ok m' /\
    forall i j, (0 < i < s_ny s - 1)%Z -> (0 < j < s_nx s - 1)%Z ->
      exists gx gy ux uy, m' (MPsix, i, j) = Some (ModelRefMem.D gx) /\ m' (MPsiy, i, j) = Some (ModelRefMem.D gy) /\
        differentiable_pt_lim (fun x y => u x y hi) (node_x s j) (node_y s i) ux uy /\
        Rabs (gx - ux) <= gradient_bound (s_dt s) 1 K M ex ey E /\ Rabs (gy - uy) <= gradient_bound (s_dt s) 1 K M ex ey E.
Proof. exact step_gradient_vortex. Qed.
Print Assumptions C140_vortex_gradient.
(** The settings of the program meet the hypotheses (see also C134_vortex_case). *)
Example C140_vortex_case : s_psischeme gals_s = "SuperConsistent"%string /\ 8 * s_dt gals_s <= 1 / 4 /\
  let M i j := 8 ^ (i + j) in let E := if s_rk3 gals_s then 8 ^ 3 * s_dt gals_s ^ 4 * (25 + 3 * 8 * s_dt gals_s) else 8 * s_dt gals_s ^ 2 * (3 / 2) in
  gradient_bound (s_dt gals_s) 1 8 M (slope_x_bound (s_dx gals_s) (s_dy gals_s) M 0 0 0) (slope_y_bound (s_dx gals_s) (s_dy gals_s) M 0 0 0) E < 1.
Proof. exact gradient_vortex_case. Qed.
