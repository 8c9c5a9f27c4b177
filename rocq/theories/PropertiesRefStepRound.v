(** Property C151: steps and runs of the reference program in double arithmetic on a grid whose coordinates are exact. *)
From Coq Require Import ZArith List String Reals.
From Flocq Require Import Core BinarySingleNaN.
From Verif Require Import Base Num NumB64 ModelVec ModelRefMath ModelRefMem ModelRef SpecGrid SpecB64 SpecRound SpecRef SpecRefRun SpecRefOrder SpecRefStep SpecRefRound SpecRefTraceRound SpecRefStepRound SpecRefDyadic
  ProofsRefStepCases ProofsRefTraceRoundCases ProofsRefStepRound ProofsRefStepRoundCases ProofsRefDyadic.
Open Scope R_scope.

(** The nodes and cell sizes of the grid are exact in double. The step completes; at every node whose trajectory under the exact velocity began inside the
    box by more than the margin E, the new value is finite and it is the function D where the trajectory began, up to the interpolation error, the error of
    the samples, the variation of D over E and 2^-33 times the size of the data. E is the error of the tracing scheme plus a multiple of eps X. *)
Theorem C151_step_in_double : forall whole (G : flow b64) (F : flow R) s t f m D M e0 e1 e2 Mr eps X V K Ts c, let r := real_settings s in
  proper r -> exact_grid s -> box_within s X -> nodes_at (s_nx s) (s_ny s) (node_x s) (node_y s) m -> contains (s_nx s) (s_ny s) f m -> field_size s f Mr ->
  smooth2 D -> bounded_in_box r D M -> near_samples r D (real_fields f) e0 e1 e2 ->
  bpow radix2 (-53) <= eps <= / 4096 -> moderate X -> moderate V -> moderate Ts -> is_finite (s_dt s) = true -> moderate (real (s_dt s)) ->
  V * real (s_dt s) <= X -> step_number t -> (IZR t + 1) * real (s_dt s) <= Ts -> 0 < K -> c <= 32 -> K * X <= c -> K * Ts <= c ->
  flow_near64 G F (s_Tp s) V eps -> graded_velocity 3 V K F (s_Tp r) ->
  let lo := IZR t * s_dt r in let hi := (IZR t + 1) * s_dt r in let E := origin_bound (s_rk3 s) (s_dt r) V K + trace_factor (s_rk3 s) c * eps * X in
  exists m', step whole G s t m = Ok m' /\
    forall i j P Q, (0 <= i < s_ny s)%Z -> (0 <= j < s_nx s)%Z -> whole = true \/ (i < s_ny s - 1 /\ j < s_nx s - 1)%Z ->
      follows F (s_Tp r) lo hi P Q -> P hi = node_x r j -> Q hi = node_y r i ->
      inside (s_xlim1 r + E) (s_xlim2 r - E) (P lo) -> inside (s_ylim1 r + E) (s_ylim2 r - E) (Q lo) ->
      exists v, m' (MPhi, i, j) = Some (ModelRefMem.D v) /\ is_finite v = true /\
        Rabs (real v - D 0%nat 0%nat (P lo) (Q lo)) <= value_bound (s_dx r) (s_dy r) M e0 e1 e2 + (M 1%nat 0%nat + M 0%nat 1%nat) * E + bpow radix2 (-33) * Mr.
Proof. exact step_origin64. Qed.
Print Assumptions C151_step_in_double.
(** the vortex at 25 nodes of the unit square, data sin x sin y rounded to multiples of 2^-40, sixth step of length 1/128 *)
Example C151_case : let s := quarter in let r := real_settings s in let f := ripple_held r in let e := bpow radix2 (-41) in
  proper r /\ exact_grid s /\ box_within s 1 /\ (exists m, nodes_at (s_nx s) (s_ny s) (node_x s) (node_y s) m /\ contains (s_nx s) (s_ny s) f m) /\ field_size s f 2 /\
  smooth2 ripple /\ bounded_in_box r ripple (fun _ _ => 1) /\ near_samples r ripple (real_fields f) e e e /\
  bpow radix2 (-53) <= e <= / 4096 /\ moderate 1 /\ is_finite (s_dt s) = true /\ moderate (real (s_dt s)) /\
  1 * real (s_dt s) <= 1 /\ step_number 5 /\ (IZR 5 + 1) * real (s_dt s) <= 1 /\ 0 < 8 /\ 8 <= 32 /\ 8 * 1 <= 8 /\
  flow_near64 vortex_held vortex (s_Tp s) 1 e /\ graded_velocity 3 1 8 vortex (s_Tp r) /\
  let lo := IZR 5 * s_dt r in let hi := (IZR 5 + 1) * s_dt r in let E := origin_bound (s_rk3 s) (s_dt r) 1 8 + trace_factor (s_rk3 s) 8 * e * 1 in
  exists P Q, follows vortex (s_Tp r) lo hi P Q /\ P hi = node_x r 2 /\ Q hi = node_y r 1 /\
    inside (s_xlim1 r + E) (s_xlim2 r - E) (P lo) /\ inside (s_ylim1 r + E) (s_ylim2 r - E) (Q lo).
Proof. exact quarter_case. Qed.

(** Whole runs on such a grid complete for every velocity and every sine, cosine and exponential; what they print after step q is the q-th iterate of the step. *)
Theorem C151_run_completes : forall (TG : Trig b64) whole (G : flow b64) (s : settings b64) n, proper (real_settings s) -> exact_grid s -> is_finite (s_dt s) = true -> 0 < real (s_dt s) ->
  step_count s = Ok n -> (0 < print_every s n)%Z -> let every := print_every s n in let x := node_x s in let y := node_y s in
  exists m out, main_ whole G s = Ok (m, out) /\ contains (s_nx s) (s_ny s) (after whole G s x y (Z.to_nat n) (initial x y)) m /\
    Z.of_nat (List.length out) = (1 + n / every)%Z /\
    forall b tm mm, nth_error out b = Some (tm, mm) -> let q := (Z.of_nat b * every)%Z in
      tm = time_at q (s_dt s) /\ contains (s_nx s) (s_ny s) (after whole G s x y (Z.to_nat q) (initial x y)) mm.
Proof. exact run64. Qed.
Print Assumptions C151_run_completes.
Example C151_run_case : proper (real_settings quarter) /\ exact_grid quarter /\ is_finite (s_dt quarter) = true /\ 0 < real (s_dt quarter) /\ step_count quarter = Ok 128%Z /\ print_every quarter 128 = 1%Z.
Proof. exact run_case. Qed.

(** Grids with such coordinates: limits that are integers of at most 25 bits times a power of two, and a power of two of cells along each axis. *)
Theorem C151_exact_grids : forall s : settings b64, dyadic_grid s -> proper (real_settings s) /\ exact_grid s.
Proof. exact dyadic_exact. Qed.
Print Assumptions C151_exact_grids.
Example C151_grid_case : dyadic_grid wide.
Proof. exact wide_dyadic. Qed.
