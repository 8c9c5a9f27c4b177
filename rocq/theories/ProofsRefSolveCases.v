(** Examples for the solutions of the level set equation. *)
From Coq Require Import ZArith List String Reals Lra Lia.
From Coquelicot Require Import Coquelicot.
From Verif Require Import Base Num ModelVec SpecGradient ModelRefMath ModelRefMem ModelRef SpecRef SpecRefRun SpecRefOrder SpecRefStep SpecRefSolve
  ProofsTaylor ProofsRefHermite ProofsRefTrace ProofsRefOrder ProofsRefSmooth ProofsRefSmoothCases ProofsRefScale ProofsRefStepErr ProofsRefStepCases ProofsRefRunCases.
Import ListNotations.
Open Scope R_scope.

Lemma diff3_comp g g' w wx wy ws : (forall z, derivable_pt_lim g z (g' z)) -> diff3 w wx wy ws ->
  diff3 (fun x y s => g (w x y s)) (fun x y s => g' (w x y s) * wx x y s) (fun x y s => g' (w x y s) * wy x y s) (fun x y s => g' (w x y s) * ws x y s).
Proof.
  intros Dg D x y s eps He. destruct (diff3_lip w wx wy ws x y s D) as (C & d0 & Hd0 & HC & L).
  set (z := w x y s) in *. set (G := Rabs (g' z) + 1). assert (HG : 0 < G) by (unfold G; pose proof (Rabs_pos (g' z)); lra).
  destruct (one_diff g (g' z) z (eps / (2 * C)) (Dg z)) as (d1 & Hd1 & H1); [apply Rdiv_lt_0_compat; lra|].
  destruct (D x y s (eps / (2 * G))) as (d2 & Hd2 & H2); [apply Rdiv_lt_0_compat; lra|]. fold z in H2.
  assert (Hd3 : 0 < d1 / (3 * C)) by (apply Rdiv_lt_0_compat; lra).
  exists (Rmin d0 (Rmin d2 (d1 / (3 * C)))). split; [repeat apply Rmin_glb_lt; assumption|].
  intros p q r Hp Hq Hr. pose proof (Rmin_l d0 (Rmin d2 (d1 / (3 * C)))) as M1. pose proof (Rmin_r d0 (Rmin d2 (d1 / (3 * C)))) as M2.
  pose proof (Rmin_l d2 (d1 / (3 * C))) as M3. pose proof (Rmin_r d2 (d1 / (3 * C))) as M4.
  specialize (L p q r ltac:(lra) ltac:(lra) ltac:(lra)). specialize (H2 p q r ltac:(lra) ltac:(lra) ltac:(lra)).
  set (S := Rabs (p - x) + Rabs (q - y) + Rabs (r - s)) in *.
  assert (HS : 0 <= S) by (unfold S; pose proof (Rabs_pos (p - x)); pose proof (Rabs_pos (q - y)); pose proof (Rabs_pos (r - s)); lra).
  assert (SL : S < 3 * (d1 / (3 * C))) by (unfold S; lra).
  assert (Hz : Rabs (w p q r - z) < d1).
  { eapply Rle_lt_trans; [exact L|]. apply (Rmult_lt_compat_l C) in SL; [|exact HC]. replace (C * (3 * (d1 / (3 * C)))) with d1 in SL by (field; lra). exact SL. }
  specialize (H1 (w p q r) Hz).
  replace (g (w p q r) - g z - (g' z * wx x y s * (p - x) + g' z * wy x y s * (q - y) + g' z * ws x y s * (r - s)))
    with ((g (w p q r) - g z - g' z * (w p q r - z)) + g' z * (w p q r - z - (wx x y s * (p - x) + wy x y s * (q - y) + ws x y s * (r - s)))) by ring.
  eapply Rle_trans; [apply Rabs_triang|]. rewrite Rabs_mult.
  assert (A : eps / (2 * C) * Rabs (w p q r - z) <= eps / 2 * S).
  { apply Rle_trans with (eps / (2 * C) * (C * S)); [apply Rmult_le_compat_l; [left; apply Rdiv_lt_0_compat; lra|exact L]|right; field; lra]. }
  assert (B : Rabs (g' z) * Rabs (w p q r - z - (wx x y s * (p - x) + wy x y s * (q - y) + ws x y s * (r - s))) <= eps / 2 * S).
  { apply Rle_trans with (G * (eps / (2 * G) * S)); [apply Rmult_le_compat; try apply Rabs_pos; [unfold G; lra|exact H2]|right; field; lra]. }
  lra.
Qed.
Lemma diff3_sub f fx fy fs g gx gy gs : diff3 f fx fy fs -> diff3 g gx gy gs ->
  diff3 (fun x y s => f x y s - g x y s) (fun x y s => fx x y s - gx x y s) (fun x y s => fy x y s - gy x y s) (fun x y s => fs x y s - gs x y s).
Proof.
  intros Df Dg x y s eps He. destruct (Df x y s (eps / 2) ltac:(lra)) as (d1 & Hd1 & H1). destruct (Dg x y s (eps / 2) ltac:(lra)) as (d2 & Hd2 & H2).
  exists (Rmin d1 d2). split; [apply Rmin_glb_lt; assumption|]. intros p q r Hp Hq Hr. pose proof (Rmin_l d1 d2) as M1. pose proof (Rmin_r d1 d2) as M2.
  specialize (H1 p q r ltac:(lra) ltac:(lra) ltac:(lra)). specialize (H2 p q r ltac:(lra) ltac:(lra) ltac:(lra)).
  match type of H1 with Rabs ?a <= _ => match type of H2 with Rabs ?b <= _ => replace (f p q r - g p q r - (f x y s - g x y s) - _) with (a - b) by ring;
    pose proof (Rabs_triang a (- b)) as T; rewrite Rabs_Ropp in T; fold (a - b) in T end end. lra.
Qed.

(** *** a shear flow *)
Lemma shear_graded_all n Tp : graded_velocity n 1 1 shear Tp.
Proof.
  assert (W : forall k ph, Rabs k <= 1 -> waves 1 (wave 1 k ph)) by (intros; apply wave_waves; [rewrite Rabs_R1; lra|assumption]).
  assert (A1 : Rabs 1 <= 1) by (rewrite Rabs_R1; lra). assert (A0 : Rabs 0 <= 1) by (rewrite Rabs_R0; lra).
  split; cbn [shear Velx Vely].
  - apply (graded_ext n 1 1 (fun x y s => wave 1 0 (PI / 2) 0 x * wave 1 1 0 0 y * wave 1 1 (PI / 2) 0 s)).
    + intros x y s. rewrite !wave1, wave0, Rmult_0_l, cos_0, !Rmult_1_l. reflexivity.
    + exact (waves_graded 1 _ _ _ ltac:(lra) (W 0 (PI / 2) A0) (W 1 0 A1) (W 1 (PI / 2) A1) n 0%nat 0%nat 0%nat).
  - assert (Z : forall n, graded3 n 1 1 (fun _ _ _ => 0)).
    { clear n. induction n as [|n IH]; (split; [intros; rewrite Rabs_R0; lra|]); [exact I|]. exists (fun _ _ _ => 0), (fun _ _ _ => 0), (fun _ _ _ => 0).
      split; [|rewrite !Rmult_1_r; repeat split; exact IH || (apply IH)]. exact (diff3_x (fun _ => 0) (fun _ => 0) (fun z => derivable_pt_lim_const 0 z)). }
    apply Z.
Qed.
Lemma shear_graded Tp : graded_velocity 3 1 1 shear Tp.
Proof. apply shear_graded_all. Qed.
(** the solution of the shear flow that starts as sin x sin y *)
Definition sheared (x y s : R) : R := sin (x - sin y * sin s) * sin y.
Lemma sheared_solves Tp lo hi : solves shear Tp lo hi sheared.
Proof.
  pose proof (diff3_x (fun x => x) (fun _ => 1) derivable_pt_lim_id) as Dx.
  pose proof (diff3_y sin cos derivable_pt_lim_sin) as Dy. pose proof (diff3_s sin cos derivable_pt_lim_sin) as Ds.
  pose proof (diff3_mul _ _ _ _ _ _ _ _ (diff3_comp sin cos _ _ _ _ derivable_pt_lim_sin (diff3_sub _ _ _ _ _ _ _ _ Dx (diff3_mul _ _ _ _ _ _ _ _ Dy Ds))) Dy) as D.
  eexists _, _, _. split; [exact D|]. intros x y s _. cbn [shear Velx Vely]. ring.
Qed.
Lemma sheared_start x y : sheared x y 0 = ripple 0 0 x y.
Proof. unfold sheared. rewrite ripple_is, sin_0, Rmult_0_r, Rminus_0_r. reflexivity. Qed.
Lemma solve_case_shear : proper case_s /\ step_number 0 /\ 0 <= s_dt case_s /\ graded_velocity 3 1 1 shear (s_Tp case_s) /\ smooth2 ripple /\ bounded_in_box case_s ripple (fun _ _ => 1) /\
  (exists m, nodes_at 5 4 (node_x case_s) (node_y case_s) m /\ contains 5 4 (offset case_s) m) /\ near_samples case_s ripple (offset case_s) (1 / 1000) 0 0 /\
  let lo := IZR 0 * s_dt case_s in let hi := (IZR 0 + 1) * s_dt case_s in let E := origin_bound (s_rk3 case_s) (s_dt case_s) 1 1 in
  solves shear (s_Tp case_s) lo hi sheared /\ (forall x y, sheared x y lo = ripple 0 0 x y) /\ deep case_s (node_x case_s 2) (node_y case_s 1) (1 * s_dt case_s + E).
Proof.
  split; [apply case_proper|]. split; [unfold step_number; lia|]. split; [cbn; lra|]. split; [apply shear_graded|]. split; [apply ripple_smooth|].
  split; [intros i j u v _ _ _ _; apply ripple_bound|]. split; [apply (case_state case_s (offset case_s))|]. split; [apply offset_near|]. intros lo hi E.
  split; [apply sheared_solves|]. assert (L : lo = 0) by (unfold lo; ring). split; [rewrite L; apply sheared_start|].
  destruct node_s as (-> & ->). assert (HE : E < 1 / 100) by (unfold E, origin_bound; change (s_rk3 case_s) with true; cbn [s_dt case_s]; lra).
  unfold deep, inside. cbn [s_xlim1 s_xlim2 s_ylim1 s_ylim2 s_dt case_s]. clearbody E. lra.
Qed.

(** *** the swirling flow with the settings of GALS_Advection.cpp *)
Definition gals_s : settings R := mkSet 0 1 128 0 1 128 (1 / 256) 1 1 1 16 "SuperConsistent" "RK3".
(** the stream function, a solution that does not move *)
Definition stream (i j : nat) (x y : R) : R := lifted (-1 / 2) (2 * PI) (PI / 2) (1 / 2) i x * lifted (-1 / 2) (2 * PI) (PI / 2) (1 / 2) j y.
Lemma stream_is x y : stream 0 0 x y = (sin (PI * x)) ^ 2 * (sin (PI * y)) ^ 2.
Proof.
  assert (SQ : forall z, lifted (-1 / 2) (2 * PI) (PI / 2) (1 / 2) 0 z = sin (PI * z) ^ 2).
  { intros z. unfold lifted. rewrite wave1. replace (2 * PI * z) with (2 * (PI * z)) by ring. rewrite cos_2a_sin. field. }
  unfold stream. rewrite !SQ. reflexivity.
Qed.
Lemma stream_waves : waves 8 (lifted (-1 / 2) (2 * PI) (PI / 2) (1 / 2)).
Proof. pose proof PI_RGT_0. pose proof PI_4. apply lifted_waves; [apply Rabs_le; lra|apply Rabs_le; lra|rewrite Rabs_pos_eq; lra]. Qed.
Lemma stream_smooth : smooth2 stream.
Proof. intros i j u v. unfold stream. split; [apply (d_times (lifted _ _ _ _ j v) (lifted _ _ _ _ i))|apply (d_times (lifted _ _ _ _ i u) (lifted _ _ _ _ j))]; apply stream_waves. Qed.
Lemma stream_bound i j u v : Rabs (stream i j u v) <= 8 ^ (i + j).
Proof. unfold stream. rewrite Rabs_mult, pow_add. apply Rmult_le_compat; try apply Rabs_pos; apply stream_waves. Qed.
Lemma stream_solves Tp lo hi : solves vortex Tp lo hi (fun x y _ => stream 0 0 x y).
Proof.
  pose proof (diff3_mul _ _ _ _ _ _ _ _ (diff3_x (lifted (-1 / 2) (2 * PI) (PI / 2) (1 / 2) 0) _ (fun z => proj1 (stream_waves 0%nat z))) (diff3_y (lifted (-1 / 2) (2 * PI) (PI / 2) (1 / 2) 0) _ (fun z => proj1 (stream_waves 0%nat z)))) as D.
  eexists _, _, _. split; [exact D|]. intros x y s _. cbv beta.
  assert (L1 : forall z, lifted (-1 / 2) (2 * PI) (PI / 2) (1 / 2) 1 z = PI * sin (2 * PI * z)).
  { intros z. unfold lifted, wave. simpl INR. rewrite !Rmult_1_l. replace (2 * PI * z + PI / 2 + PI / 2) with (2 * PI * z + PI) by field. rewrite neg_sin. cbn [pow]. field. }
  assert (L0 : forall z, lifted (-1 / 2) (2 * PI) (PI / 2) (1 / 2) 0 z = sin (PI * z) * sin (PI * z)).
  { intros z. unfold lifted. rewrite wave1. replace (2 * PI * z) with (2 * (PI * z)) by ring. rewrite cos_2a_sin. field. }
  rewrite !L1, !L0. cbn [vortex Velx Vely]. unfold sqr. nr. ring.
Qed.
Definition raised (s : settings R) : fields R := mkFields (fun i j => stream 0 0 (node_x s j) (node_y s i) + 1 / 1000) (fun i j => stream 1 0 (node_x s j) (node_y s i))
  (fun i j => stream 0 1 (node_x s j) (node_y s i)) (fun i j => stream 1 1 (node_x s j) (node_y s i)).
Lemma raised_near s : near_samples s stream (raised s) (1 / 1000) 0 0.
Proof.
  intros i j _ _. cbn [raised SpecRefRun.f_phi f_x f_y f_xy]. split; [replace (_ - _) with (1 / 1000) by ring; rewrite Rabs_pos_eq; lra|].
  repeat split; (replace (_ - _) with 0 by ring; rewrite Rabs_R0; lra).
Qed.
Lemma solve_case_vortex : proper gals_s /\ unit_square gals_s /\ (forall t, (0 <= t < 256)%Z -> step_number t) /\ 0 <= s_dt gals_s /\ 2 * PI <= 8 /\ Rabs (PI / s_Tp gals_s) <= 8 /\
  smooth2 stream /\ bounded_in_box gals_s stream (fun i j => 8 ^ (i + j)) /\
  (exists m, nodes_at 128 128 (node_x gals_s) (node_y gals_s) m /\ contains 128 128 (raised gals_s) m) /\ near_samples gals_s stream (raised gals_s) (1 / 1000) 0 0 /\
  let E := if s_rk3 gals_s then 8 ^ 3 * s_dt gals_s ^ 4 * (25 + 3 * 8 * s_dt gals_s) else 8 * s_dt gals_s ^ 2 * (3 / 2) in
  E < s_dx gals_s * (1 - 8 * s_dt gals_s) /\ E < s_dy gals_s * (1 - 8 * s_dt gals_s) /\ E < 1 / 100000 /\
  forall lo hi, solves vortex (s_Tp gals_s) lo hi (fun x y _ => stream 0 0 x y).
Proof.
  split; [unfold proper; cbn [s_nx s_ny s_xlim1 s_xlim2 s_ylim1 s_ylim2 gals_s]; repeat split; try lia; lra|]. split; [repeat split|].
  split; [intros t Ht; unfold step_number; lia|]. split; [cbn; lra|]. pose proof PI_4. pose proof PI_RGT_0. split; [lra|].
  split; [cbn [s_Tp gals_s]; rewrite Rabs_pos_eq; lra|]. split; [apply stream_smooth|]. split; [intros i j u v _ _ _ _; apply stream_bound|].
  split; [apply (case_state gals_s (raised gals_s))|]. split; [apply raised_near|]. intros E.
  assert (ED : s_dx gals_s = 1 / 127 /\ s_dy gals_s = 1 / 127).
  { unfold s_dx, s_dy. cbn [s_xlim1 s_xlim2 s_ylim1 s_ylim2 s_nx s_ny gals_s]. nr. change (u32 (128 - 1)) with 127%Z. split; lra. }
  destruct ED as (-> & ->). unfold E. change (s_rk3 gals_s) with true. cbn [s_dt gals_s].
  split; [lra|]. split; [lra|]. split; [lra|]. intros; apply stream_solves.
Qed.
