(** Property C152: the gradients of the reference program in double arithmetic. *)
From Coq Require Import ZArith List String Reals.
From Coquelicot Require Import Derive_2d.
From Flocq Require Import Core BinarySingleNaN.
From Verif Require Import Base Num NumB64 ModelVec ModelRefMath ModelRefMem ModelRef SpecGrid SpecGradient SpecB64 SpecRound SpecRef SpecRefRun SpecRefOrder SpecRefStep SpecRefSolve SpecRefGrad SpecRefRound SpecRefTraceRound SpecRefStepRound SpecRefSuperRound
  ProofsRefStepCases ProofsRefTraceRound ProofsRefTraceRoundCases ProofsRefStepRoundCases ProofsRefSuperRound ProofsRefSuperStep ProofsRefSuperCases.
Open Scope R_scope.

(** The gradient update called SuperConsistent, Euler or RK3. The velocity and its derivatives in double follow the exact ones up to relative errors eps, at
    least 2^-53; one step turns the gradient by at most the factor H dt <= 1; the slopes g, h passed in are at most S. The new gradient is finite and differs
    from the one computed in real numbers by at most a constant times eps S. *)
Theorem C152_gradient_rounding : forall (G : flow b64) (F : flow R) (rk3 : bool) (x y g h dt Tp : b64) (t : Z) (eps X V L W H L' W' Ts S : R),
  bpow radix2 (-53) <= eps <= / 4096 -> moderate X -> moderate V -> moderate H -> moderate Ts -> moderate S -> is_finite dt = true -> moderate (real dt) ->
  V * real dt <= X -> H * real dt <= 1 -> (0 <= t)%Z -> (t + 1 < 2 ^ 32)%Z -> (IZR t + 1) * real dt <= Ts ->
  0 <= L -> 0 <= W -> L * X <= 8 * V -> W * Ts <= 8 * V -> 0 <= L' -> 0 <= W' -> L' * X <= 8 * H -> W' * Ts <= 8 * H ->
  flow_tracks64 G F Tp X V L W eps -> gradients_track64 G F Tp X H L' W' eps ->
  is_finite x = true -> is_finite y = true -> Rabs (real x) <= X -> Rabs (real y) <= X -> is_finite g = true -> is_finite h = true -> Rabs (real g) <= S -> Rabs (real h) <= S ->
  let r := SuperConsistentScheme G rk3 x y g h t dt Tp in let r' := SuperConsistentScheme F rk3 (real x) (real y) (real g) (real h) t (real dt) (real Tp) in
  (is_finite (fst r) = true /\ is_finite (snd r) = true) /\
  Rabs (real (fst r) - fst r') <= super_factor rk3 * eps * S /\ Rabs (real (snd r) - snd r') <= super_factor rk3 * eps * S.
Proof. exact super64. Qed.
Print Assumptions C152_gradient_rounding.
(** the saddle with velocity (y, x), slopes 3/4 and -1, sixth step of length 1/8 from the node (1/4, -1), which meets the remaining hypotheses by C150_case *)
Example C152_case : let eps := bpow radix2 (-53) in let g : b64 := b64_make 3 (-2) in let h : b64 := b64_make (-1) 0 in let dt : b64 := b64_make 1 (-3) in
  moderate 1 /\ 1 * real dt <= 1 /\ 1 * 1 <= 8 * 4 /\ 0 * 2 <= 8 * 4 /\ 0 * 1 <= 8 * 1 /\ 0 * 2 <= 8 * 1 /\ flow_tracks64 saddle saddle (b64_make 8 0) 1 4 1 0 eps /\
  gradients_track64 saddle saddle (b64_make 8 0) 1 1 0 0 eps /\ is_finite g = true /\ is_finite h = true /\ Rabs (real g) <= 1 /\ Rabs (real h) <= 1.
Proof. exact saddle_gradient_case. Qed.

(** One step on a grid with exact coordinates. At every node whose trajectory under the exact velocity began inside the box by more than the margin E, the new
    gradient is finite and it is the gradient of the solution of the level set equation at the new time, up to the bound of C140_gradient_solution, with the
    rounding errors of the interpolated slopes and of the traced position included in ex, ey and E, and the rounding error of the update. *)
Theorem C152_step_gradient : forall whole (G : flow b64) (F : flow R) s t f m D M e0 e1 e2 Mr Sg eps X V K Ts u, let r := real_settings s in
  proper r -> exact_grid s -> s_psischeme s = "SuperConsistent"%string -> box_within s X -> nodes_at (s_nx s) (s_ny s) (node_x s) (node_y s) m -> contains (s_nx s) (s_ny s) f m -> field_size s f Mr ->
  smooth2 D -> bounded_in_box r D M -> near_samples r D (real_fields f) e0 e1 e2 ->
  bpow radix2 (-53) <= eps <= / 4096 -> moderate X -> moderate V -> moderate Ts -> is_finite (s_dt s) = true -> moderate (real (s_dt s)) ->
  V * real (s_dt s) <= X -> step_number t -> (IZR t + 1) * real (s_dt s) <= Ts -> 0 < K -> K * X <= 8 -> K * Ts <= 8 -> moderate (V * K) -> V * K * real (s_dt s) <= 1 / 4 ->
  flow_near64 G F (s_Tp s) V eps -> gradients_near64 G F (s_Tp s) (V * K) eps -> graded_velocity 3 V K F (s_Tp r) -> true_gradients F (s_Tp r) ->
  let lo := IZR t * s_dt r in let hi := (IZR t + 1) * s_dt r in let E := origin_bound (s_rk3 s) (s_dt r) V K + trace_factor (s_rk3 s) 8 * eps * X in
  let ex := slope_x_bound (s_dx r) (s_dy r) M e0 e1 e2 + bpow radix2 (-33) * (Mr / s_dx r) in let ey := slope_y_bound (s_dx r) (s_dy r) M e0 e1 e2 + bpow radix2 (-33) * (Mr / s_dy r) in
  moderate Sg -> M 1%nat 0%nat + ex <= Sg -> M 0%nat 1%nat + ey <= Sg -> solves F (s_Tp r) lo hi u -> (forall x y, u x y lo = D 0%nat 0%nat x y) ->
  exists m', step whole G s t m = Ok m' /\
    forall i j P Q, (0 <= i < s_ny s)%Z -> (0 <= j < s_nx s)%Z -> whole = true \/ (i < s_ny s - 1 /\ j < s_nx s - 1)%Z ->
      follows F (s_Tp r) lo hi P Q -> P hi = node_x r j -> Q hi = node_y r i ->
      inside (s_xlim1 r + E) (s_xlim2 r - E) (P lo) -> inside (s_ylim1 r + E) (s_ylim2 r - E) (Q lo) ->
      exists gx gy ux uy, m' (MPsix, i, j) = Some (ModelRefMem.D gx) /\ m' (MPsiy, i, j) = Some (ModelRefMem.D gy) /\ is_finite gx = true /\ is_finite gy = true /\
        differentiable_pt_lim (fun x y => u x y hi) (node_x r j) (node_y r i) ux uy /\
        let B := gradient_bound (s_dt r) V K M ex ey E + super_factor (s_rk3 s) * eps * Sg in Rabs (real gx - ux) <= B /\ Rabs (real gy - uy) <= B.
Proof. exact step_gradient64. Qed.
Print Assumptions C152_step_gradient.
(** the vortex at 25 nodes of the unit square, sixth step of length 1/128; the remaining hypotheses hold by C151_case; the bound is below 1/4 *)
Example C152_step_case : let s := quarter in let r := real_settings s in let e := bpow radix2 (-41) in let M (_ _ : nat) := 1 in
  s_psischeme s = "SuperConsistent"%string /\ moderate (1 * 8) /\ 1 * 8 * real (s_dt s) <= 1 / 4 /\ gradients_near64 vortex_held vortex (s_Tp s) (1 * 8) e /\ true_gradients vortex (s_Tp r) /\
  let lo := IZR 5 * s_dt r in let hi := (IZR 5 + 1) * s_dt r in
  let ex := slope_x_bound (s_dx r) (s_dy r) M e e e + bpow radix2 (-33) * (2 / s_dx r) in let ey := slope_y_bound (s_dx r) (s_dy r) M e e e + bpow radix2 (-33) * (2 / s_dy r) in
  moderate 2 /\ M 1%nat 0%nat + ex <= 2 /\ M 0%nat 1%nat + ey <= 2 /\ (exists u, solves vortex (s_Tp r) lo hi u /\ forall x y, u x y lo = ripple 0 0 x y) /\
  let E := origin_bound (s_rk3 s) (s_dt r) 1 8 + trace_factor (s_rk3 s) 8 * e * 1 in gradient_bound (s_dt r) 1 8 M ex ey E + super_factor (s_rk3 s) * e * 2 < 1 / 4.
Proof. exact quarter_gradient_case. Qed.
