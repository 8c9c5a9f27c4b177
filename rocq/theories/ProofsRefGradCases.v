(** Examples for the error of the gradient after one time step of the reference programs. *)
From Coq Require Import ZArith List String Reals Lra Lia.
From Coquelicot Require Import Coquelicot.
From Verif Require Import Base Num ModelVec SpecGradient ModelRefMath ModelRefMem ModelRef SpecRef SpecRefRun SpecRefOrder SpecRefStep SpecRefSolve SpecRefGrad
  ProofsRefMath ProofsRefHermite ProofsRefTrace ProofsRefSmooth ProofsRefSmoothCases ProofsRefScale ProofsRefRunCases ProofsRefStepCases ProofsRefSolve ProofsRefSolveCases ProofsRefGradSolve.
Import ListNotations.
Open Scope R_scope.

(** the trace at the node of the example stays in the box *)
Lemma slopes_case : proper case_s /\ s_psischeme case_s = "SuperConsistent"%string /\ true_gradients shear (s_Tp case_s) /\ smooth2 ripple /\ bounded_in_box case_s ripple (fun _ _ => 1) /\
  (exists m, nodes_at 5 4 (node_x case_s) (node_y case_s) m /\ contains 5 4 (offset case_s) m) /\ near_samples case_s ripple (offset case_s) (1 / 1000) 0 0 /\
  let p := back_trace shear (s_rk3 case_s) (node_x case_s 2) (node_y case_s 1) 0 (s_dt case_s) (s_Tp case_s) in
  inside (s_xlim1 case_s) (s_xlim2 case_s) (fst p) /\ inside (s_ylim1 case_s) (s_ylim2 case_s) (snd p) /\ fst p <> node_x case_s 2.
Proof.
  destruct solve_case_shear as (A1 & A2 & A3 & A4 & A5 & A6 & A7 & A8 & _).
  split; [exact A1|]. split; [reflexivity|]. split; [apply shear_true|]. split; [exact A5|]. split; [exact A6|]. split; [exact A7|]. split; [exact A8|].
  change (s_rk3 case_s) with true. destruct node_s as (-> & ->). cbn [s_dt s_Tp s_xlim1 s_xlim2 s_ylim1 s_ylim2 case_s].
  unfold back_trace, third_back, second_back, euler_back. cbn [fst snd shear Velx Vely]. nr. unfold inside.
  unfold time_mid. rewrite time_at_R1, !time_at_R by (unfold step_number; lia). nr.
  rewrite !Rmult_0_l, ?Rmult_0_r, ?Rplus_0_l, ?Rplus_0_r, ?Rmult_0_r, ?Rminus_0_r. rewrite !cos_0.
  assert (S : 0 < sin (1 / 3) <= 1) by (split; [apply sin_gt_0; pose proof PI2_3_2; lra|apply SIN_bound]).
  assert (C : forall a, 0 <= a <= 1 -> 0 < cos a <= 1) by (intros a Ha; split; [apply cos_gt_0; pose proof PI2_3_2; lra|apply COS_bound]).
  pose proof (C (1 * (1 / 8)) ltac:(lra)) as C1. pose proof (C (1 / 8 / 2) ltac:(lra)) as C2.
  assert (Q : forall c, 0 < c <= 1 -> 0 < sin (1 / 3) * c <= 1).
  { intros c Hc. split; [apply Rmult_lt_0_compat; lra|]. pose proof (Rmult_le_compat (sin (1 / 3)) 1 c 1 ltac:(lra) ltac:(lra) ltac:(lra) ltac:(lra)). lra. }
  pose proof (Q _ C1). pose proof (Q _ C2). split; [lra|]. split; [lra|]. lra.
Qed.
Lemma gradient_case : proper case_s /\ s_psischeme case_s = "SuperConsistent"%string /\ step_number 0 /\ 0 <= s_dt case_s /\ 1 * 1 * s_dt case_s <= 1 / 4 /\
  graded_velocity 3 1 1 shear (s_Tp case_s) /\ true_gradients shear (s_Tp case_s) /\ smooth2 ripple /\ bounded_in_box case_s ripple (fun _ _ => 1) /\
  (exists m, nodes_at 5 4 (node_x case_s) (node_y case_s) m /\ contains 5 4 (offset case_s) m) /\ near_samples case_s ripple (offset case_s) (1 / 1000) 0 0 /\
  let lo := IZR 0 * s_dt case_s in let hi := (IZR 0 + 1) * s_dt case_s in let E := origin_bound (s_rk3 case_s) (s_dt case_s) 1 1 in
  solves shear (s_Tp case_s) lo hi sheared /\ (forall x y, sheared x y lo = ripple 0 0 x y) /\ deep case_s (node_x case_s 2) (node_y case_s 1) (1 * s_dt case_s + E).
Proof.
  destruct solve_case_shear as (A1 & A2 & A3 & A4 & A5 & A6 & A7 & A8 & A9). split; [exact A1|]. split; [reflexivity|]. split; [exact A2|]. split; [exact A3|]. split; [cbn; lra|].
  split; [exact A4|]. split; [apply shear_true|]. split; [exact A5|]. split; [exact A6|]. split; [exact A7|]. split; [exact A8|exact A9].
Qed.
(** the grid and the time step of GALS_Advection.cpp: a bound for data sampled from the stream function *)
Lemma gradient_vortex_case : s_psischeme gals_s = "SuperConsistent"%string /\ 8 * s_dt gals_s <= 1 / 4 /\
  let M i j := 8 ^ (i + j) in let E := if s_rk3 gals_s then 8 ^ 3 * s_dt gals_s ^ 4 * (25 + 3 * 8 * s_dt gals_s) else 8 * s_dt gals_s ^ 2 * (3 / 2) in
  gradient_bound (s_dt gals_s) 1 8 M (slope_x_bound (s_dx gals_s) (s_dy gals_s) M 0 0 0) (slope_y_bound (s_dx gals_s) (s_dy gals_s) M 0 0 0) E < 1.
Proof.
  split; [reflexivity|]. split; [cbn; lra|]. intros M E.
  assert (ED : s_dx gals_s = 1 / 127 /\ s_dy gals_s = 1 / 127).
  { unfold s_dx, s_dy. cbn [s_xlim1 s_xlim2 s_ylim1 s_ylim2 s_nx s_ny gals_s]. nr. change (u32 (128 - 1)) with 127%Z. split; lra. }
  destruct ED as (-> & ->). unfold gradient_bound, slope_x_bound, slope_y_bound, E, M. change (s_rk3 gals_s) with true. cbn [s_dt gals_s Nat.add]. lra.
Qed.
(** the third-order scheme *)
Lemma third_case : proper case_s /\ s_psischeme case_s = "SuperConsistent"%string /\ s_rk3 case_s = true /\ step_number 0 /\ 0 <= s_dt case_s /\ 1 * 1 * s_dt case_s <= 1 / 4 /\
  graded_velocity 4 1 1 shear (s_Tp case_s) /\ true_gradients shear (s_Tp case_s) /\ smooth2 ripple /\ bounded_in_box case_s ripple (fun _ _ => 1) /\
  (exists m, nodes_at 5 4 (node_x case_s) (node_y case_s) m /\ contains 5 4 (offset case_s) m) /\ near_samples case_s ripple (offset case_s) (1 / 1000) 0 0 /\
  let lo := IZR 0 * s_dt case_s in let hi := (IZR 0 + 1) * s_dt case_s in let E := origin_bound true (s_dt case_s) 1 1 in
  solves shear (s_Tp case_s) lo hi sheared /\ (forall x y, sheared x y lo = ripple 0 0 x y) /\ deep case_s (node_x case_s 2) (node_y case_s 1) (1 * s_dt case_s + E).
Proof.
  destruct solve_case_shear as (A1 & A2 & A3 & A4 & A5 & A6 & A7 & A8 & A9). split; [exact A1|]. split; [reflexivity|]. split; [reflexivity|]. split; [exact A2|]. split; [exact A3|]. split; [cbn; lra|].
  split; [apply shear_graded_all|]. split; [apply shear_true|]. split; [exact A5|]. split; [exact A6|]. split; [exact A7|]. split; [exact A8|exact A9].
Qed.
Lemma third_vortex_case : s_psischeme gals_s = "SuperConsistent"%string /\ s_rk3 gals_s = true /\ 8 * s_dt gals_s <= 1 / 4 /\
  let M i j := 8 ^ (i + j) in let E := 8 ^ 3 * s_dt gals_s ^ 4 * (25 + 3 * 8 * s_dt gals_s) in
  gradient_bound3 (s_dt gals_s) 1 8 M (slope_x_bound (s_dx gals_s) (s_dy gals_s) M 0 0 0) (slope_y_bound (s_dx gals_s) (s_dy gals_s) M 0 0 0) E < 1 / 50.
Proof.
  split; [reflexivity|]. split; [reflexivity|]. split; [cbn; lra|]. intros M E.
  assert (ED : s_dx gals_s = 1 / 127 /\ s_dy gals_s = 1 / 127).
  { unfold s_dx, s_dy. cbn [s_xlim1 s_xlim2 s_ylim1 s_ylim2 s_nx s_ny gals_s]. nr. change (u32 (128 - 1)) with 127%Z. split; lra. }
  destruct ED as (-> & ->). unfold gradient_bound3, slope_x_bound, slope_y_bound, E, M. cbn [s_dt gals_s Nat.add]. lra.
Qed.
