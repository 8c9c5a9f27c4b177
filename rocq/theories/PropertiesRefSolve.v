(** C134: one time step of the reference programs and the level set equation. *)
From Coq Require Import ZArith List String Reals.
From Verif Require Import Base Num ModelVec ModelRefMath ModelRefMem ModelRef SpecRef SpecRefRun SpecRefOrder SpecRefStep SpecRefSolve
  ProofsRefScale ProofsRefSolve ProofsRefSolveCases ProofsRefStepCases ProofsRefRunCases.
Open Scope R_scope.

(** C134: through every point passes exactly one trajectory. *)
Theorem C134_trajectories : forall F Tp V K lo hi x y, graded_velocity 1 V K F Tp -> lo <= hi ->
  exists X Y, follows F Tp lo hi X Y /\ X hi = x /\ Y hi = y /\
    (forall s, lo <= s <= hi -> Rabs (X s - x) <= V * (hi - s) /\ Rabs (Y s - y) <= V * (hi - s)) /\
    forall X' Y', follows F Tp lo hi X' Y' -> X' hi = x -> Y' hi = y -> forall s, lo <= s <= hi -> X' s = X s /\ Y' s = Y s.
Proof. exact one_through. Qed.
Print Assumptions C134_trajectories.
Example C134_trajectories_case : forall n Tp K, 2 * PI <= K -> Rabs (PI / Tp) <= K -> graded_velocity n 1 K vortex Tp.
Proof. exact vortex_graded. Qed.

(** One step takes a node that is not too close to the edges to the solution of the level set equation at the new time, up to the
    interpolation error, the errors of the data and the error of the trace. *)
Theorem C134_step_solution : forall whole (F : flow R) s t f m D M e0 e1 e2 V K u, proper s -> step_number t -> 0 <= s_dt s -> 0 < K ->
  graded_velocity 3 V K F (s_Tp s) -> smooth2 D -> bounded_in_box s D M ->
  nodes_at (s_nx s) (s_ny s) (node_x s) (node_y s) m -> contains (s_nx s) (s_ny s) f m -> near_samples s D f e0 e1 e2 ->
  let lo := IZR t * s_dt s in let hi := (IZR t + 1) * s_dt s in let E := origin_bound (s_rk3 s) (s_dt s) V K in
  solves F (s_Tp s) lo hi u -> (forall x y, u x y lo = D 0%nat 0%nat x y) ->
  exists m', step whole F s t m = Ok m' /\
    forall i j, (0 <= i < s_ny s)%Z -> (0 <= j < s_nx s)%Z -> whole = true \/ (i < s_ny s - 1 /\ j < s_nx s - 1)%Z ->
      deep s (node_x s j) (node_y s i) (V * s_dt s + E) ->
      exists v, m' (MPhi, i, j) = Some (ModelRefMem.D v) /\
        Rabs (v - u (node_x s j) (node_y s i) hi) <= value_bound (s_dx s) (s_dy s) M e0 e1 e2 + (M 1%nat 0%nat + M 0%nat 1%nat) * E.
Proof. exact step_solves. Qed.
Print Assumptions C134_step_solution.
Example C134_step_case : proper case_s /\ step_number 0 /\ 0 <= s_dt case_s /\ graded_velocity 3 1 1 shear (s_Tp case_s) /\ smooth2 ripple /\ bounded_in_box case_s ripple (fun _ _ => 1) /\
  (exists m, nodes_at 5 4 (node_x case_s) (node_y case_s) m /\ contains 5 4 (offset case_s) m) /\ near_samples case_s ripple (offset case_s) (1 / 1000) 0 0 /\
  let lo := IZR 0 * s_dt case_s in let hi := (IZR 0 + 1) * s_dt case_s in let E := origin_bound (s_rk3 case_s) (s_dt case_s) 1 1 in
  solves shear (s_Tp case_s) lo hi sheared /\ (forall x y, sheared x y lo = ripple 0 0 x y) /\ deep case_s (node_x case_s 2) (node_y case_s 1) (1 * s_dt case_s + E).
Proof. exact solve_case_shear. Qed.

(** In the swirling flow on the unit square this holds at every node, walls included. *)
Theorem C134_vortex_step : forall whole s t f m D M e0 e1 e2 K u, proper s -> unit_square s -> step_number t -> 0 <= s_dt s ->
  2 * PI <= K -> Rabs (PI / s_Tp s) <= K -> smooth2 D -> bounded_in_box s D M ->
  nodes_at (s_nx s) (s_ny s) (node_x s) (node_y s) m -> contains (s_nx s) (s_ny s) f m -> near_samples s D f e0 e1 e2 ->
  let lo := IZR t * s_dt s in let hi := (IZR t + 1) * s_dt s in
  let E := if s_rk3 s then K ^ 3 * s_dt s ^ 4 * (25 + 3 * K * s_dt s) else K * s_dt s ^ 2 * (3 / 2) in
  E < s_dx s * (1 - K * s_dt s) -> E < s_dy s * (1 - K * s_dt s) ->
  solves vortex (s_Tp s) lo hi u -> (forall x y, u x y lo = D 0%nat 0%nat x y) ->
  exists m', step whole vortex s t m = Ok m' /\
    forall i j, (0 <= i < s_ny s)%Z -> (0 <= j < s_nx s)%Z ->
      exists v, m' (MPhi, i, j) = Some (ModelRefMem.D v) /\
        Rabs (v - u (node_x s j) (node_y s i) hi) <= value_bound (s_dx s) (s_dy s) M e0 e1 e2 + (M 1%nat 0%nat + M 0%nat 1%nat) * E.
Proof. exact step_vortex. Qed.
Print Assumptions C134_vortex_step.
Example C134_vortex_case : proper gals_s /\ unit_square gals_s /\ (forall t, (0 <= t < 256)%Z -> step_number t) /\ 0 <= s_dt gals_s /\ 2 * PI <= 8 /\ Rabs (PI / s_Tp gals_s) <= 8 /\
  smooth2 stream /\ bounded_in_box gals_s stream (fun i j => 8 ^ (i + j)) /\
  (exists m, nodes_at 128 128 (node_x gals_s) (node_y gals_s) m /\ contains 128 128 (raised gals_s) m) /\ near_samples gals_s stream (raised gals_s) (1 / 1000) 0 0 /\
  let E := if s_rk3 gals_s then 8 ^ 3 * s_dt gals_s ^ 4 * (25 + 3 * 8 * s_dt gals_s) else 8 * s_dt gals_s ^ 2 * (3 / 2) in
  E < s_dx gals_s * (1 - 8 * s_dt gals_s) /\ E < s_dy gals_s * (1 - 8 * s_dt gals_s) /\ E < 1 / 100000 /\
  forall lo hi, solves vortex (s_Tp gals_s) lo hi (fun x y _ => stream 0 0 x y).
Proof. exact solve_case_vortex. Qed.
