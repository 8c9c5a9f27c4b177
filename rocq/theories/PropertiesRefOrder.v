(** C131, C132: the order of accuracy of the back-trace of the reference code. *)
From Coq Require Import ZArith List Reals.
From Verif Require Import Base Num ModelVec ModelRefMath SpecGradient SpecRef SpecRefOrder ProofsRefOrder ProofsRefSmooth ProofsRefSmoothCases ProofsRefScale ProofsRefSolveCases.
Import ListNotations.
Open Scope R_scope.

(** C131: the RK3 trace ends within a multiple of dt^4 of the place where the fluid was at the beginning of the step. *)
Theorem C131_rk3_trace_order : forall F Tp t dt X Y V M2 M3 M4 L N, step_number t -> 0 <= dt -> 0 <= N -> true_gradients F Tp ->
  let lo := IZR t * dt in let hi := (IZR t + 1) * dt in
  follows F Tp lo hi X Y -> bounded4 lo hi X V M2 M3 M4 -> bounded4 lo hi Y V M2 M3 M4 -> calm F Tp (X hi) (Y hi) lo hi (V * dt) V L N ->
  let p := back_trace F true (X hi) (Y hi) t dt Tp in
  Rabs (X lo - fst p) <= trace_bound dt V M2 M3 M4 L N /\ Rabs (Y lo - snd p) <= trace_bound dt V M2 M3 M4 L N.
Proof. exact rk3_order. Qed.
Print Assumptions C131_rk3_trace_order.
(** Any other scheme name: within a multiple of dt^2. *)
Theorem C131_euler_trace_order : forall F Tp t dt X Y M2, step_number t -> 0 <= dt ->
  let lo := IZR t * dt in let hi := (IZR t + 1) * dt in
  follows F Tp lo hi X Y -> bounded2 lo hi X M2 -> bounded2 lo hi Y M2 ->
  let p := back_trace F false (X hi) (Y hi) t dt Tp in
  Rabs (X lo - fst p) <= M2 / 2 * dt ^ 2 /\ Rabs (Y lo - snd p) <= M2 / 2 * dt ^ 2.
Proof. exact euler_order. Qed.
Print Assumptions C131_euler_trace_order.
Example C131_case : step_number 7 /\ true_gradients swirl 1 /\
  let lo := IZR 7 * (1 / 10) in let hi := (IZR 7 + 1) * (1 / 10) in
  follows swirl 1 lo hi sin cos /\ bounded4 lo hi sin 2 1 1 1 /\ bounded4 lo hi cos 2 1 1 1 /\ bounded2 lo hi sin 1 /\ bounded2 lo hi cos 1 /\
  calm swirl 1 (sin hi) (cos hi) lo hi (2 * (1 / 10)) 2 1 1.
Proof. exact swirl_case. Qed.

(** C132: for a velocity whose partial derivatives up to order three are at most B, one bound holds for every trajectory. *)
Theorem C132_smooth_velocity : forall F Tp t dt X Y B, step_number t -> 0 <= dt -> true_gradients F Tp -> smooth_velocity 3 B F Tp ->
  let lo := IZR t * dt in let hi := (IZR t + 1) * dt in
  follows F Tp lo hi X Y ->
  let p := back_trace F true (X hi) (Y hi) t dt Tp in
  Rabs (X lo - fst p) <= smooth_bound dt B /\ Rabs (Y lo - snd p) <= smooth_bound dt B.
Proof. exact smooth_order. Qed.
Print Assumptions C132_smooth_velocity.
Example C132_case : step_number 7 /\ true_gradients shear 1 /\ smooth_velocity 3 1 shear 1 /\
  follows shear 1 (IZR 7 * (1 / 10)) ((IZR 7 + 1) * (1 / 10)) (fun s => 3 + sin 2 * sin s) (fun _ => 2).
Proof. exact shear_case. Qed.

(** With a speed of at most V, where every derivative brings a factor K, the error is of the form K^3 dt^4 with RK3 and K dt^2 otherwise. *)
Theorem C132_graded_velocity : forall F Tp t dt X Y V K rk3, 0 < K -> step_number t -> 0 <= dt -> graded_velocity 3 V K F Tp ->
  let lo := IZR t * dt in let hi := (IZR t + 1) * dt in
  follows F Tp lo hi X Y ->
  let p := back_trace F rk3 (X hi) (Y hi) t dt Tp in
  Rabs (X lo - fst p) <= origin_bound rk3 dt V K /\ Rabs (Y lo - snd p) <= origin_bound rk3 dt V K.
Proof. exact origin. Qed.
Print Assumptions C132_graded_velocity.
Example C132_graded_case : forall Tp, graded_velocity 3 1 1 shear Tp.
Proof. exact shear_graded. Qed.

(** The vortex of the programs is such a velocity. *)
Theorem C132_vortex : forall Tp K t dt X Y (rk3 : bool), 2 * PI <= K -> Rabs (PI / Tp) <= K -> step_number t -> 0 <= dt ->
  let lo := IZR t * dt in let hi := (IZR t + 1) * dt in
  follows vortex Tp lo hi X Y ->
  let E := if rk3 then K ^ 3 * dt ^ 4 * (25 + 3 * K * dt) else K * dt ^ 2 * (3 / 2) in
  let p := back_trace vortex rk3 (X hi) (Y hi) t dt Tp in Rabs (X lo - fst p) <= E /\ Rabs (Y lo - snd p) <= E.
Proof. exact origin_vortex. Qed.
Print Assumptions C132_vortex.
