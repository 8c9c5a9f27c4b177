(** Properties C149 and C150, against exact solutions: interpolation and backward trace of the reference programs in double arithmetic. *)
From Coq Require Import ZArith Reals.
From Flocq Require Import Core BinarySingleNaN.
From Verif Require Import Base Num NumB64 ModelVec ModelRefMath SpecGrid SpecB64 SpecRound SpecRef SpecRefOrder SpecRefRound SpecRefTraceRound
  ProofsRefRound ProofsRefTraceRound ProofsRefTraceRoundCases.
Open Scope R_scope.

(** The double velocity follows the exact one up to a relative error eps, at least 2^-53; the node lies in a box of half width X; one step moves at most X;
    c bounds the variation of the velocity over X and over the time Ts, relative to V. Then the traced position is finite, for both schemes, and differs from
    the position traced in real numbers by at most a fixed polynomial in c times eps X. *)
Theorem C150_trace_rounding : forall (G : flow b64) (F : flow R) (rk3 : bool) (x y dt Tp : b64) (t : Z) (eps X V L W Ts c : R),
  bpow radix2 (-53) <= eps <= / 4096 -> moderate X -> moderate V -> moderate Ts -> is_finite dt = true -> moderate (real dt) -> is_finite x = true -> is_finite y = true ->
  Rabs (real x) <= X -> Rabs (real y) <= X -> V * real dt <= X -> (0 <= t)%Z -> (t + 1 < 2 ^ 32)%Z -> (IZR t + 1) * real dt <= Ts ->
  0 <= c <= 32 -> 0 <= L -> 0 <= W -> L * X <= c * V -> W * Ts <= c * V -> flow_tracks64 G F Tp X V L W eps ->
  let p := back_trace G rk3 x y t dt Tp in let p' := back_trace F rk3 (real x) (real y) t (real dt) (real Tp) in
  (is_finite (fst p) = true /\ is_finite (snd p) = true) /\
  Rabs (real (fst p) - fst p') <= trace_factor rk3 c * eps * X /\ Rabs (real (snd p) - snd p') <= trace_factor rk3 c * eps * X.
Proof. exact trace64. Qed.
Print Assumptions C150_trace_rounding.
(** the saddle with velocity (y, x), from the node (1/4, -1), sixth step of length 1/8 *)
Example C150_case : let dt : b64 := b64_make 1 (-3) in let x : b64 := b64_make 1 (-2) in let y : b64 := b64_make (-1) 0 in
  bpow radix2 (-53) <= bpow radix2 (-53) <= / 4096 /\ moderate 1 /\ moderate 4 /\ moderate 2 /\ is_finite dt = true /\ moderate (real dt) /\ is_finite x = true /\ is_finite y = true /\
  Rabs (real x) <= 1 /\ Rabs (real y) <= 1 /\ 4 * real dt <= 1 /\ (0 <= 5)%Z /\ (5 + 1 < 2 ^ 32)%Z /\ (IZR 5 + 1) * real dt <= 2 /\
  0 <= 1 <= 32 /\ 0 <= 1 /\ 0 <= 0 /\ 1 * 1 <= 1 * 4 /\ 0 * 2 <= 1 * 4 /\ flow_tracks64 saddle saddle (b64_make 8 0) 1 4 1 0 (bpow radix2 (-53)).
Proof. exact saddle_case. Qed.

(** A trajectory of the exact velocity that ends in the node: the traced position is where it began, up to the error of the scheme (order four in dt with
    RK3, order two otherwise) and the rounding error. The velocity has a speed of at most V and every derivative brings a factor K. *)
Theorem C150_origin : forall (G : flow b64) (F : flow R) (rk3 : bool) (x y dt Tp : b64) (t : Z) (eps X V K Ts c : R) (P Q : R -> R),
  bpow radix2 (-53) <= eps <= / 4096 -> moderate X -> moderate V -> moderate Ts -> is_finite dt = true -> moderate (real dt) -> is_finite x = true -> is_finite y = true ->
  Rabs (real x) <= X -> Rabs (real y) <= X -> V * real dt <= X -> step_number t -> (IZR t + 1) * real dt <= Ts ->
  0 < K -> c <= 32 -> K * X <= c -> K * Ts <= c -> flow_near64 G F Tp V eps -> graded_velocity 3 V K F (real Tp) ->
  let lo := IZR t * real dt in let hi := (IZR t + 1) * real dt in follows F (real Tp) lo hi P Q -> P hi = real x -> Q hi = real y ->
  let p := back_trace G rk3 x y t dt Tp in let E := origin_bound rk3 (real dt) V K + trace_factor rk3 c * eps * X in
  (is_finite (fst p) = true /\ is_finite (snd p) = true) /\ Rabs (real (fst p) - P lo) <= E /\ Rabs (real (snd p) - Q lo) <= E.
Proof. exact origin64. Qed.
Print Assumptions C150_origin.
(** the vortex of the programs, its values rounded to multiples of 2^-40, from the node (1/4, 1/2), sixth step of length 1/8 *)
Example C150_origin_case : let dt : b64 := b64_make 1 (-3) in let x : b64 := b64_make 1 (-2) in let y : b64 := b64_make 1 (-1) in let Tp : b64 := b64_make 1 0 in
  exists P Q : R -> R, bpow radix2 (-53) <= bpow radix2 (-41) <= / 4096 /\ moderate 1 /\ is_finite dt = true /\ moderate (real dt) /\ is_finite x = true /\ is_finite y = true /\
  Rabs (real x) <= 1 /\ Rabs (real y) <= 1 /\ 1 * real dt <= 1 /\ step_number 5 /\ (IZR 5 + 1) * real dt <= 1 /\
  0 < 8 /\ 8 <= 32 /\ 8 * 1 <= 8 /\ flow_near64 vortex_held vortex Tp 1 (bpow radix2 (-41)) /\ graded_velocity 3 1 8 vortex (real Tp) /\
  follows vortex (real Tp) (IZR 5 * real dt) ((IZR 5 + 1) * real dt) P Q /\ P ((IZR 5 + 1) * real dt) = real x /\ Q ((IZR 5 + 1) * real dt) = real y.
Proof. exact vortex_origin_case. Qed.

(** The doubles stored at the corners are those of a bicubic polynomial: the interpolation returns its value and its derivatives up to rounding. *)
Theorem C149_bicubics : forall (c : nat -> nat -> nat -> R) (phi psix psiy psixy : quad b64) (x y xo yo dx dy : b64) (M : R),
  within_reach x xo dx -> within_reach y yo dy -> cell_size phi psix psiy psixy (real dx) (real dy) M ->
  let Q f := at_corners f (real xo) (real yo) (real dx) (real dy) in
  qreals phi = Q (bicubic false false c) -> qreals psix = Q (bicubic true false c) -> qreals psiy = Q (bicubic false true c) -> qreals psixy = Q (bicubic true true c) ->
  let at_ f : b64 := f phi psix psiy psixy x y xo yo dx dy in
  Rabs (real (at_ hp) - bicubic false false c (real x) (real y)) <= bpow radix2 (-33) * M /\
  Rabs (real (at_ hermx) - bicubic true false c (real x) (real y)) <= bpow radix2 (-33) * (M / real dx) /\
  Rabs (real (at_ hermy) - bicubic false true c (real x) (real y)) <= bpow radix2 (-33) * (M / real dy).
Proof. exact bicubic64. Qed.
Print Assumptions C149_bicubics.
(** the function x y on a cell of 2 by 3 with its corner at (0, 1), at the position (1, 5) *)
Example C149_bicubics_case : let x : b64 := b64_make 1 0 in let y : b64 := b64_make 5 0 in let xo : b64 := b64_make 0 0 in let yo : b64 := b64_make 1 0 in
  let dx : b64 := b64_make 2 0 in let dy : b64 := b64_make 3 0 in let Q f := at_corners f (real xo) (real yo) (real dx) (real dy) in
  let phi := quad_of 0 2 0 8 in let psix := quad_of 1 1 4 4 in let psiy := quad_of 0 2 0 2 in let psixy := quad_of 1 1 1 1 in
  within_reach x xo dx /\ within_reach y yo dy /\ cell_size phi psix psiy psixy (real dx) (real dy) 100 /\
  qreals phi = Q (bicubic false false coef_xy) /\ qreals psix = Q (bicubic true false coef_xy) /\ qreals psiy = Q (bicubic false true coef_xy) /\ qreals psixy = Q (bicubic true true coef_xy) /\
  bicubic false false coef_xy (real x) (real y) = 5.
Proof. exact bicubic_case. Qed.
