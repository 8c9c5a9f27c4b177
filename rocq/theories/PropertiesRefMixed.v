(** Property C153: the accuracy of the mixed derivatives of the reference programs. *)
From Coq Require Import ZArith List String Reals.
From Verif Require Import Base Num ModelVec SpecGradient ModelRefMath ModelRefMem ModelRef SpecRef SpecRefRun SpecRefOrder SpecRefStep SpecRefSolve SpecRefGrad SpecRefMixed
  ProofsRefRunCases ProofsRefStepCases ProofsRefSolveCases ProofsRefMixed ProofsRefMixedStep.
Import ListNotations.
Open Scope R_scope.

(** The update of the mixed derivatives on slopes that are those of a function with bounded derivatives up to the error e: at every node, including edges and
    corners, the new value is the mixed derivative of the function up to terms of order two in the grid steps and the error of the slopes divided by a step. *)
Theorem C153_mixed_accuracy : forall nx ny x0 y0 dx dy D M e px py m, (2 <= nx < 4294967296)%Z -> (2 <= ny < 4294967296)%Z -> 0 < dx -> 0 < dy ->
  let X := even_nodes x0 dx in let Y := even_nodes y0 dy in smooth2 D -> bounded_on (X 0%Z) (X (nx - 1)%Z) (Y 0%Z) (Y (ny - 1)%Z) D M ->
  holds Psix ny nx px m -> holds Psiy ny nx py m -> present Psixy ny nx m ->
  (forall k l, (0 <= k < ny)%Z -> (0 <= l < nx)%Z -> Rabs (px k l - D 1%nat 0%nat (X l) (Y k)) <= e /\ Rabs (py k l - D 0%nat 1%nat (X l) (Y k)) <= e) ->
  exists m', runs (update_mixed_derivatives nx ny dx dy 0 nx) (mixed_vars m) = Ok m' /\ only_changes [Psixy; Dxy1; Dxy2; D1; D2; D3; D4] m m' /\
    forall k l, (0 <= k < ny)%Z -> (0 <= l < nx)%Z -> exists v, m' (Psixy, k, l) = Some (ModelRefMem.D v) /\ Rabs (v - D 1%nat 1%nat (X l) (Y k)) <= mixed_bound nx ny k l dx dy M e.
Proof. exact mixed_accuracy. Qed.
Print Assumptions C153_mixed_accuracy.
Example C153_case : let X := even_nodes (-1) (1 / 2) in let Y := even_nodes 2 (1 / 4) in smooth2 ripple /\ bounded_on (X 0%Z) (X 4%Z) (Y 0%Z) (Y 3%Z) ripple (fun _ _ => 1) /\
  (exists m, holds Psix 4 5 (fun k l => slope_x (X l) (Y k)) m /\ holds Psiy 4 5 (fun k l => slope_y (X l) (Y k)) m /\ present Psixy 4 5 m) /\
  forall k l, Rabs (slope_x (X l) (Y k) - ripple 1 0 (X l) (Y k)) <= 1 / 1000 /\ Rabs (slope_y (X l) (Y k) - ripple 0 1 (X l) (Y k)) <= 1 / 1000.
Proof. exact mixed_data_case. Qed.

(** One time step with the SuperConsistent scheme. At a node whose neighbours are not too close to the edges the new mixed derivative is that of the solution
    of the level set equation at the new time, described by D'. *)
Theorem C153_step_mixed : forall whole (F : flow R) s t f m D M e0 e1 e2 V K u D' M', proper s -> s_psischeme s = "SuperConsistent"%string -> step_number t -> 0 <= s_dt s -> 0 < K -> V * K * s_dt s <= 1 / 4 ->
  graded_velocity 3 V K F (s_Tp s) -> true_gradients F (s_Tp s) -> smooth2 D -> bounded_in_box s D M ->
  nodes_at (s_nx s) (s_ny s) (node_x s) (node_y s) m -> contains (s_nx s) (s_ny s) f m -> near_samples s D f e0 e1 e2 ->
  let lo := IZR t * s_dt s in let hi := (IZR t + 1) * s_dt s in let E := origin_bound (s_rk3 s) (s_dt s) V K in
  let ex := slope_x_bound (s_dx s) (s_dy s) M e0 e1 e2 in let ey := slope_y_bound (s_dx s) (s_dy s) M e0 e1 e2 in
  solves F (s_Tp s) lo hi u -> (forall x y, u x y lo = D 0%nat 0%nat x y) -> smooth2 D' -> bounded_in_box s D' M' -> (forall x y, u x y hi = D' 0%nat 0%nat x y) ->
  exists m', step whole F s t m = Ok m' /\
    forall i j, (0 < i < s_ny s - 2)%Z -> (0 < j < s_nx s - 2)%Z ->
      deep s (node_x s (j - 1)) (node_y s (i - 1)) (V * s_dt s + E) -> deep s (node_x s (j + 1)) (node_y s (i + 1)) (V * s_dt s + E) ->
      exists v, m' (MPsixy, i, j) = Some (ModelRefMem.D v) /\
        Rabs (v - D' 1%nat 1%nat (node_x s j) (node_y s i)) <= mixed_bound (s_nx s) (s_ny s) i j (s_dx s) (s_dy s) M' (gradient_bound (s_dt s) V K M ex ey E).
Proof. exact step_mixed. Qed.
Print Assumptions C153_step_mixed.
Example C153_step_case : let s := wide_s in let F := case_flow 1 0 in proper s /\ s_psischeme s = "SuperConsistent"%string /\ step_number 0 /\ 0 <= s_dt s /\ 1 * 1 * s_dt s <= 1 / 4 /\
  graded_velocity 3 1 1 F (s_Tp s) /\ true_gradients F (s_Tp s) /\ smooth2 ripple /\ bounded_in_box s ripple (fun _ _ => 1) /\
  (exists m, nodes_at 7 6 (node_x s) (node_y s) m /\ contains 7 6 (offset s) m) /\ near_samples s ripple (offset s) (1 / 1000) 0 0 /\
  let lo := IZR 0 * s_dt s in let hi := (IZR 0 + 1) * s_dt s in let E := origin_bound (s_rk3 s) (s_dt s) 1 1 in let u x y r := ripple 0 0 (x - r) y in
  solves F (s_Tp s) lo hi u /\ (forall x y, u x y lo = ripple 0 0 x y) /\ smooth2 blown /\ bounded_in_box s blown (fun _ _ => 1) /\ (forall x y, u x y hi = blown 0 0 x y) /\
  deep s (node_x s (3 - 1)) (node_y s (2 - 1)) (1 * s_dt s + E) /\ deep s (node_x s (3 + 1)) (node_y s (2 + 1)) (1 * s_dt s + E).
Proof. exact mixed_case. Qed.

(** In the swirling flow on the unit square this holds at every node with at least two nodes between it and each edge, edge included. *)
Theorem C153_vortex_mixed : forall whole s t f m D M e0 e1 e2 K u D' M', proper s -> unit_square s -> s_psischeme s = "SuperConsistent"%string -> s_rk3 s = true -> step_number t -> 0 <= s_dt s ->
  2 * PI <= K -> Rabs (PI / s_Tp s) <= K -> K * s_dt s <= 1 / 4 -> smooth2 D -> bounded_in_box s D M ->
  nodes_at (s_nx s) (s_ny s) (node_x s) (node_y s) m -> contains (s_nx s) (s_ny s) f m -> near_samples s D f e0 e1 e2 ->
  let lo := IZR t * s_dt s in let hi := (IZR t + 1) * s_dt s in
  let E := K ^ 3 * s_dt s ^ 4 * (25 + 3 * K * s_dt s) in
  let ex := slope_x_bound (s_dx s) (s_dy s) M e0 e1 e2 in let ey := slope_y_bound (s_dx s) (s_dy s) M e0 e1 e2 in
  E < s_dx s * (1 - K * s_dt s) -> E < s_dy s * (1 - K * s_dt s) ->
  solves vortex (s_Tp s) lo hi u -> (forall x y, u x y lo = D 0%nat 0%nat x y) -> smooth2 D' -> bounded_in_box s D' M' -> (forall x y, u x y hi = D' 0%nat 0%nat x y) ->
  exists m', step whole vortex s t m = Ok m' /\
    forall i j, (1 < i < s_ny s - 2)%Z -> (1 < j < s_nx s - 2)%Z ->
      exists v, m' (MPsixy, i, j) = Some (ModelRefMem.D v) /\
        Rabs (v - D' 1%nat 1%nat (node_x s j) (node_y s i)) <= mixed_bound (s_nx s) (s_ny s) i j (s_dx s) (s_dy s) M' (gradient_bound3 (s_dt s) 1 K M ex ey E).
Proof. exact step_mixed_vortex. Qed.
Print Assumptions C153_vortex_mixed.
(** The settings of the program with data sampled from the stream function, a solution at rest; the remaining hypotheses hold by C134_vortex_case and
    C141_vortex_case. The bound is below a twentieth of the bound 64 of the mixed derivative. *)
Example C153_vortex_case : let M i j := 8 ^ (i + j) in let E := 8 ^ 3 * s_dt gals_s ^ 4 * (25 + 3 * 8 * s_dt gals_s) in
  mixed_bound 128 128 50 70 (s_dx gals_s) (s_dy gals_s) M
    (gradient_bound3 (s_dt gals_s) 1 8 M (slope_x_bound (s_dx gals_s) (s_dy gals_s) M 0 0 0) (slope_y_bound (s_dx gals_s) (s_dy gals_s) M 0 0 0) E) < 64 / 20.
Proof. exact mixed_vortex_case. Qed.
