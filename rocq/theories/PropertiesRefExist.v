(** Property C142: the level set equation that the reference programs approximate has exactly one solution. *)
From Coq Require Import ZArith List String Reals.
From Coquelicot Require Import Derive_2d.
From Verif Require Import Base Num ModelVec SpecGradient ModelRefMath ModelRefMem ModelRef SpecRef SpecRefRun SpecRefOrder SpecRefStep SpecRefSolve SpecRefExist
  ProofsRefRunCases ProofsRefSmoothCases ProofsRefStepCases ProofsRefSolveCases ProofsRefExist ProofsRefReverse.
Open Scope R_scope.

(** In a smooth flow every differentiable level set, given at any time, belongs to exactly one solution of the level set equation. Its value at a place
    and time is a value of the given level set no further away than the flow can carry a point. *)
Theorem C142_one_solution : forall (F : flow R) Tp V K D b, 0 <= K -> graded_velocity 2 V K F Tp -> true_gradients F Tp -> differentiable D ->
  exists u, (forall lo hi, solves F Tp lo hi u) /\ (forall x y, u x y b = D x y) /\
    (forall x y s, exists p q, Rabs (p - x) <= V * Rabs (s - b) /\ Rabs (q - y) <= V * Rabs (s - b) /\ u x y s = D p q) /\
    forall lo hi u', lo <= b <= hi -> solves F Tp lo hi u' -> (forall x y, u' x y b = D x y) -> forall x y s, lo <= s <= hi -> u' x y s = u x y s.
Proof. exact one_solution. Qed.
Print Assumptions C142_one_solution.

(** The swirling flow of the programs is such a flow. *)
Theorem C142_vortex_solution : forall Tp D b, Tp <> 0 -> differentiable D ->
  exists u, (forall lo hi, solves vortex Tp lo hi u) /\ (forall x y, u x y b = D x y) /\
    forall lo hi u', lo <= b <= hi -> solves vortex Tp lo hi u' -> (forall x y, u' x y b = D x y) -> forall x y s, lo <= s <= hi -> u' x y s = u x y s.
Proof. exact vortex_solution. Qed.
Print Assumptions C142_vortex_solution.
(** The circle from which the programs start is differentiable; so is any shear flow smooth. *)
Example C142_case : differentiable initialize /\ graded_velocity 2 1 1 shear (s_Tp case_s) /\ true_gradients shear (s_Tp case_s) /\ exists K, 0 <= K /\ graded_velocity 2 1 K vortex 1.
Proof. exact (conj initialize_differentiable (conj (shear_graded_all 2 _) (conj (shear_true _) (vortex_some 1)))). Qed.

(** One step in the swirling flow takes every node to the one solution, up to the bound of C134. *)
Theorem C142_vortex_step : forall whole s t f m D M e0 e1 e2 K, proper s -> unit_square s -> step_number t -> 0 <= s_dt s -> s_Tp s <> 0 ->
  2 * PI <= K -> Rabs (PI / s_Tp s) <= K -> smooth2 D -> bounded_in_box s D M -> differentiable (D 0%nat 0%nat) ->
  nodes_at (s_nx s) (s_ny s) (node_x s) (node_y s) m -> contains (s_nx s) (s_ny s) f m -> near_samples s D f e0 e1 e2 ->
  let lo := IZR t * s_dt s in let hi := (IZR t + 1) * s_dt s in
  let E := if s_rk3 s then K ^ 3 * s_dt s ^ 4 * (25 + 3 * K * s_dt s) else K * s_dt s ^ 2 * (3 / 2) in
  E < s_dx s * (1 - K * s_dt s) -> E < s_dy s * (1 - K * s_dt s) ->
  exists u m', (forall lo hi, solves vortex (s_Tp s) lo hi u) /\ (forall x y, u x y lo = D 0%nat 0%nat x y) /\
    (forall u', solves vortex (s_Tp s) lo hi u' -> (forall x y, u' x y lo = D 0%nat 0%nat x y) -> forall x y, u' x y hi = u x y hi) /\
    step whole vortex s t m = Ok m' /\
    forall i j, (0 <= i < s_ny s)%Z -> (0 <= j < s_nx s)%Z ->
      exists v, m' (MPhi, i, j) = Some (ModelRefMem.D v) /\
        Rabs (v - u (node_x s j) (node_y s i) hi) <= value_bound (s_dx s) (s_dy s) M e0 e1 e2 + (M 1%nat 0%nat + M 0%nat 1%nat) * E.
Proof. exact step_one. Qed.
Print Assumptions C142_vortex_step.
(** The other hypotheses are those of C134_vortex_case. *)
Example C142_step_case : differentiable (stream 0 0) /\ s_Tp gals_s <> 0.
Proof. exact (conj stream_differentiable R1_neq_R0). Qed.
