(** A case for the mixed derivatives after one time step of the reference program in double arithmetic. *)
From Coq Require Import ZArith List Bool String Lia Reals Lra.
From Coquelicot Require Import Derive_2d.
From Flocq Require Import Core BinarySingleNaN.
From Verif Require Import Base Num NumB64 ModelVec ModelRefMath ModelRefMem ModelRef SpecGrid SpecGradient SpecB64 SpecRound SpecRef SpecRefRun SpecRefOrder SpecRefStep SpecRefSolve SpecRefGrad SpecRefRound SpecRefTraceRound SpecRefStepRound SpecRefSuperRound SpecRefMixed
  ProofsTaylor ProofsB64 ProofsB64Ops ProofsRound ProofsRefSmoothCases ProofsRefRound ProofsRefRunCases ProofsRefStepCases ProofsRefSolve ProofsRefSolveCases ProofsRefStepRoundCases ProofsRefMixedStep.
Import ListNotations.
Open Scope R_scope.

(** a uniform wind along x in double *)
Definition wind64 : flow b64 := mkFlow (fun _ _ _ _ => #1)%num (fun _ _ _ _ => #0)%num (fun _ _ _ _ => #0)%num (fun _ _ _ _ => #0)%num (fun _ _ _ _ => #0)%num (fun _ _ _ _ => #0)%num.
Definition moved (c : R) (i j : nat) (x y : R) : R := ripple i j (x - c) y.
Lemma moved_smooth c : smooth2 (moved c).
Proof.
  intros i j u v. unfold moved. destruct (ripple_smooth i j (u - c) v) as (H1 & H2). split; [|exact H2].
  replace (ripple (S i) j (u - c) v) with (ripple (S i) j (u - c) v * 1) by ring.
  apply (derivable_pt_lim_comp (fun u => u - c) (fun u => ripple i j u v)); [|exact H1].
  eapply ProofsTaylor.d_eq; [apply (derivable_pt_lim_minus (fun u => u) (fun _ => c)); [apply derivable_pt_lim_id|apply derivable_pt_lim_const]|ring].
Qed.
Lemma moved_solves Tp lo hi c : solves (case_flow 1 0) Tp lo hi (fun x y s => moved (s - c) 0 0 x y).
Proof.
  pose proof (diff3_x (fun x => x) (fun _ => 1) derivable_pt_lim_id) as Dx.
  assert (Ds : diff3 (fun _ _ s => s - c) (fun _ _ _ => 0) (fun _ _ _ => 0) (fun _ _ _ => 1)).
  { apply (diff3_s (fun s => s - c) (fun _ => 1)). intros z. eapply ProofsTaylor.d_eq; [apply (derivable_pt_lim_minus (fun u => u) (fun _ => c)); [apply derivable_pt_lim_id|apply derivable_pt_lim_const]|ring]. }
  pose proof (diff3_y (wave 1 1 0 0) (wave 1 1 0 1) (wave_derive 1 1 0 0)) as Dy.
  pose proof (diff3_mul _ _ _ _ _ _ _ _ (diff3_comp (wave 1 1 0 0) (wave 1 1 0 1) _ _ _ _ (wave_derive 1 1 0 0) (diff3_sub _ _ _ _ _ _ _ _ Dx Ds)) Dy) as D.
  eexists _, _, _. split; [exact D|]. intros x y s _. cbn [case_flow Velx Vely]. ring.
Qed.
Lemma wind_case : let s := quarter in let r := real_settings s in let e := bpow radix2 (-41) in let M (_ _ : nat) := 1 in let F := case_flow 1 0 in
  flow_near64 wind64 F (s_Tp s) 1 e /\ gradients_near64 wind64 F (s_Tp s) (1 * 8) e /\ graded_velocity 3 1 8 F (s_Tp r) /\ true_gradients F (s_Tp r) /\
  let lo := IZR 5 * s_dt r in let hi := (IZR 5 + 1) * s_dt r in let E := origin_bound (s_rk3 s) (s_dt r) 1 8 + trace_factor (s_rk3 s) 8 * e * 1 in
  let ex := slope_x_bound (s_dx r) (s_dy r) M e e e + bpow radix2 (-33) * (2 / s_dx r) in let ey := slope_y_bound (s_dx r) (s_dy r) M e e e + bpow radix2 (-33) * (2 / s_dy r) in
  let u x y q := moved (q - lo) 0 0 x y in let D' := moved (/ 128) in let B := gradient_bound (s_dt r) 1 8 M ex ey E + super_factor (s_rk3 s) * e * 2 in
  solves F (s_Tp r) lo hi u /\ (forall x y, u x y lo = ripple 0 0 x y) /\ smooth2 D' /\ bounded_in_box r D' M /\ (forall x y, u x y hi = D' 0%nat 0%nat x y) /\
  steps64 (s_dx s) (s_dy s) (/ 4) /\ real (s_dx s) = s_dx r /\ real (s_dy s) = s_dy r /\ moderate 2 /\ M 1%nat 0%nat + B <= 2 /\ M 0%nat 1%nat + B <= 2 /\
  (0 < 2 < s_ny s - 2)%Z /\ (0 < 2 < s_nx s - 2)%Z /\
  forall P Q i' j', (2 - 1 <= i' <= 2 + 1)%Z -> (2 - 1 <= j' <= 2 + 1)%Z -> follows F (s_Tp r) lo hi P Q -> P hi = node_x r j' -> Q hi = node_y r i' ->
    inside (s_xlim1 r + E) (s_xlim2 r - E) (P lo) /\ inside (s_ylim1 r + E) (s_ylim2 r - E) (Q lo).
Proof.
  intros s r e M F. destruct quarter_real as (E1 & E2 & E3 & E4 & E5 & E6). fold s r in E1, E2, E3, E4, E5, E6. destruct quarter_dx as (D1 & D2). fold s r in D1, D2.
  assert (Q1 : 0 <= e <= / 1000000000). { unfold e. split; [apply bpow_ge_0|]. apply Rle_trans with (bpow radix2 (-30)); [apply bpow_le; lia|]. change (bpow radix2 (-30)) with (/ 1073741824). lra. }
  assert (Q2 : 0 <= bpow radix2 (-33) <= / 1000000000). { split; [apply bpow_ge_0|]. change (bpow radix2 (-33)) with (/ 8589934592). lra. }
  destruct (int64 1) as (F1 & I1); [cbn; lia|]. destruct (int64 0) as (F0 & I0); [cbn; lia|].
  assert (Z1 : forall v, 0 <= v -> is_finite (b64_make 1 0) = true /\ Rabs (real (b64_make 1 0) - 1) <= v) by (intros v Hv; split; [exact F1|]; unfold real; rewrite I1, Rminus_diag_eq, Rabs_R0 by reflexivity; exact Hv).
  assert (Z0 : forall v, 0 <= v -> is_finite (b64_make 0 0) = true /\ Rabs (real (b64_make 0 0) - 0) <= v) by (intros v Hv; split; [exact F0|]; unfold real; rewrite I0, Rminus_diag_eq, Rabs_R0 by reflexivity; exact Hv).
  split. { intros a b q _ _ _. destruct (Z1 (e * 1) ltac:(lra)) as (A1 & A2). destruct (Z0 (e * 1) ltac:(lra)) as (B1 & B2). split; [exact A1|]. split; [exact B1|]. split; [exact A2|exact B2]. }
  split. { intros a b q _ _ _. pose proof (Z0 (e * (1 * 8)) ltac:(lra)) as B. split; [exact B|]. split; [exact B|]. split; exact B. }
  assert (GV : graded_velocity 3 1 8 F (s_Tp r)) by (rewrite E6; apply still_graded; rewrite ?Rabs_R1; lra).
  split; [exact GV|]. split; [apply (proj2 (case_flow_ok 1 0 _))|]. intros lo hi E ex ey u D' B.
  clearbody e. set (b := bpow radix2 (-33)) in *. clearbody b.
  assert (Hx : 0 <= ex <= / 100) by (unfold ex, slope_x_bound, M; rewrite D1, D2; lra). assert (Hy : 0 <= ey <= / 100) by (unfold ey, slope_y_bound, M; rewrite D1, D2; lra).
  assert (HE : 0 <= E <= / 1000). { unfold E. change (s_rk3 s) with true. unfold trace_factor, origin_bound. rewrite E5. lra. }
  assert (HB : B <= 1). { unfold B. change (s_rk3 s) with true. unfold gradient_bound, super_factor, M. rewrite E5. clearbody E ex ey. lra. }
  split; [apply moved_solves|]. split; [intros x y; unfold u, moved; f_equal; ring|]. split; [apply moved_smooth|]. split; [intros i j p q _ _ _ _; apply ripple_bound|].
  split; [intros x y; unfold u, D', moved, hi, lo; rewrite E5; f_equal; lra|].
  assert (SD : is_finite (s_dx s) = true /\ real (s_dx s) = / 4) by (by_sf; split; [exact F2|]; rewrite E0; unfold SF2R, F2R; cbn; lra).
  change (s_dy s) with (s_dx s). destruct SD as (F4 & R4). rewrite D1, D2.
  assert (M4 : moderate (/ 4)) by (split; [apply (bpow_le radix2 (-200) (-2)); lia|apply Rle_trans with 1; [lra|apply (bpow_le radix2 0 200); lia]]).
  split; [unfold steps64; rewrite R4; repeat split; try exact F4; try apply M4; lra|]. split; [exact R4|]. split; [exact R4|]. split; [apply (moderate_int 2); lia|].
  clearbody B E. split; [unfold M; lra|]. split; [unfold M; lra|]. split; [cbn; lia|]. split; [cbn; lia|].
  intros P Q i' j' Hi Hj HF HP HQ.
  assert (T : lo <= hi /\ hi - lo = / 128) by (unfold lo, hi; rewrite E5; lra).
  destruct (one_through F (s_Tp r) 1 8 lo hi (node_x r j') (node_y r i') (less31 _ _ _ _ GV) (proj1 T)) as (X & Y & _ & _ & _ & NR & U).
  destruct (U P Q HF HP HQ lo ltac:(lra)) as (-> & ->). destruct (NR lo ltac:(lra)) as (N1 & N2). rewrite (proj2 T) in N1, N2.
  destruct (quarter_node j') as (Ej & _). destruct (quarter_node i') as (_ & Ei). fold s r in Ej, Ei. rewrite Ej in N1. rewrite Ei in N2.
  assert (J : 1 <= IZR j' <= 3) by (split; apply IZR_le; lia). assert (I : 1 <= IZR i' <= 3) by (split; apply IZR_le; lia).
  apply Rabs_le_inv in N1. apply Rabs_le_inv in N2. unfold inside. rewrite E1, E2, E3, E4. lra.
Qed.
