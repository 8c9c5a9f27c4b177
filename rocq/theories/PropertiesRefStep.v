(** C133: the error of one time step of the reference programs. *)
From Coq Require Import ZArith List String Reals.
From Verif Require Import Base Num ModelVec ModelRefMath ModelRefMem ModelRef SpecRef SpecRefRun SpecRefOrder SpecRefStep ProofsRefStepErr ProofsRefStepCases ProofsRefRunCases ProofsRefSmoothCases.
Open Scope R_scope.

(** C133: with RK3 the new value of a node is the value of the level set at the place where the fluid came from, up to the
    interpolation error (order four in the spacing), the errors of the data and a multiple of dt^4. *)
Theorem C133_rk3_step_error : forall whole (F : flow R) s t f m D M e0 e1 e2 B, proper s -> s_rk3 s = true -> step_number t -> 0 <= s_dt s ->
  true_gradients F (s_Tp s) -> smooth_velocity 3 B F (s_Tp s) -> smooth2 D -> bounded_in_box s D M ->
  nodes_at (s_nx s) (s_ny s) (node_x s) (node_y s) m -> contains (s_nx s) (s_ny s) f m -> near_samples s D f e0 e1 e2 ->
  let lo := IZR t * s_dt s in let hi := (IZR t + 1) * s_dt s in let E := smooth_bound (s_dt s) B in
  exists m', step whole F s t m = Ok m' /\
    forall i j X Y, (0 <= i < s_ny s)%Z -> (0 <= j < s_nx s)%Z -> whole = true \/ (i < s_ny s - 1 /\ j < s_nx s - 1)%Z ->
      follows F (s_Tp s) lo hi X Y -> X hi = node_x s j -> Y hi = node_y s i ->
      inside (s_xlim1 s + E) (s_xlim2 s - E) (X lo) -> inside (s_ylim1 s + E) (s_ylim2 s - E) (Y lo) ->
      exists v, m' (MPhi, i, j) = Some (ModelRefMem.D v) /\
        Rabs (v - D 0%nat 0%nat (X lo) (Y lo)) <= value_bound (s_dx s) (s_dy s) M e0 e1 e2 + (M 1%nat 0%nat + M 0%nat 1%nat) * E.
Proof. exact step_error_smooth. Qed.
Print Assumptions C133_rk3_step_error.
Example C133_rk3_case : proper case_s /\ s_rk3 case_s = true /\ step_number 0 /\ 0 <= s_dt case_s /\
  true_gradients shear (s_Tp case_s) /\ smooth_velocity 3 1 shear (s_Tp case_s) /\ smooth2 ripple /\ bounded_in_box case_s ripple (fun _ _ => 1) /\
  (exists m, nodes_at 5 4 (node_x case_s) (node_y case_s) m /\ contains 5 4 (offset case_s) m) /\ near_samples case_s ripple (offset case_s) (1 / 1000) 0 0 /\
  let lo := IZR 0 * s_dt case_s in let hi := (IZR 0 + 1) * s_dt case_s in let E := smooth_bound (s_dt case_s) 1 in
  exists X Y, follows shear (s_Tp case_s) lo hi X Y /\ X hi = node_x case_s 2 /\ Y hi = node_y case_s 1 /\
    inside (s_xlim1 case_s + E) (s_xlim2 case_s - E) (X lo) /\ inside (s_ylim1 case_s + E) (s_ylim2 case_s - E) (Y lo).
Proof. exact step_case_rk3. Qed.

(** With any other scheme name the last part is a multiple of dt^2. *)
Theorem C133_euler_step_error : forall whole (F : flow R) s t f m D M e0 e1 e2 K, proper s -> s_rk3 s = false -> step_number t -> 0 <= s_dt s ->
  smooth2 D -> bounded_in_box s D M ->
  nodes_at (s_nx s) (s_ny s) (node_x s) (node_y s) m -> contains (s_nx s) (s_ny s) f m -> near_samples s D f e0 e1 e2 ->
  let lo := IZR t * s_dt s in let hi := (IZR t + 1) * s_dt s in let E := K / 2 * s_dt s ^ 2 in
  exists m', step whole F s t m = Ok m' /\
    forall i j X Y, (0 <= i < s_ny s)%Z -> (0 <= j < s_nx s)%Z -> whole = true \/ (i < s_ny s - 1 /\ j < s_nx s - 1)%Z ->
      follows F (s_Tp s) lo hi X Y -> bounded2 lo hi X K -> bounded2 lo hi Y K -> X hi = node_x s j -> Y hi = node_y s i ->
      inside (s_xlim1 s + E) (s_xlim2 s - E) (X lo) -> inside (s_ylim1 s + E) (s_ylim2 s - E) (Y lo) ->
      exists v, m' (MPhi, i, j) = Some (ModelRefMem.D v) /\
        Rabs (v - D 0%nat 0%nat (X lo) (Y lo)) <= value_bound (s_dx s) (s_dy s) M e0 e1 e2 + (M 1%nat 0%nat + M 0%nat 1%nat) * E.
Proof. exact step_error_euler. Qed.
Print Assumptions C133_euler_step_error.
Example C133_euler_case : proper case_t /\ s_rk3 case_t = false /\ step_number 0 /\ 0 <= s_dt case_t /\ smooth2 ripple /\ bounded_in_box case_t ripple (fun _ _ => 1) /\
  (exists m, nodes_at 5 4 (node_x case_t) (node_y case_t) m /\ contains 5 4 (offset case_t) m) /\ near_samples case_t ripple (offset case_t) (1 / 1000) 0 0 /\
  let lo := IZR 0 * s_dt case_t in let hi := (IZR 0 + 1) * s_dt case_t in let E := 1 / 2 * s_dt case_t ^ 2 in
  exists X Y, follows shear (s_Tp case_t) lo hi X Y /\ bounded2 lo hi X 1 /\ bounded2 lo hi Y 1 /\ X hi = node_x case_t 2 /\ Y hi = node_y case_t 2 /\
    inside (s_xlim1 case_t + E) (s_xlim2 case_t - E) (X lo) /\ inside (s_ylim1 case_t + E) (s_ylim2 case_t - E) (Y lo).
Proof. exact step_case_euler. Qed.
