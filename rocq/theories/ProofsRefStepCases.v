(** Examples for the error of one time step of the reference programs. *)
From Coq Require Import ZArith List String Reals Lra Lia.
From Coquelicot Require Import Coquelicot.
From Verif Require Import Base Num ModelVec ModelInterp SpecGradient ModelRefMath ModelRefMem ModelRef SpecRef SpecRefRun SpecRefOrder SpecRefStep
  ProofsHermite ProofsRefMath ProofsRefHermite ProofsRefTrace ProofsRefOrder ProofsRefSmooth ProofsRefSmoothCases ProofsRefRunCases.
Import ListNotations.
Open Scope R_scope.

Definition ripple (i j : nat) (u v : R) : R := wave 1 1 0 i u * wave 1 1 0 j v.
Lemma ripple_is u v : ripple 0 0 u v = sin u * sin v.
Proof. unfold ripple. rewrite !wave0, !Rmult_1_l. reflexivity. Qed.
Lemma d_times c (f : R -> R) x l : derivable_pt_lim f x l -> derivable_pt_lim (fun t => f t * c) x (l * c) /\ derivable_pt_lim (fun t => c * f t) x (c * l).
Proof.
  intros H. split; [|apply (derivable_pt_lim_scal f c), H]. eapply derivable_pt_lim_ext; [intros t; symmetry; apply Rmult_comm|]. rewrite Rmult_comm. apply (derivable_pt_lim_scal f c), H.
Qed.
Lemma ripple_smooth : smooth2 ripple.
Proof. intros i j u v. unfold ripple. split; [apply (d_times (wave 1 1 0 j v) (wave 1 1 0 i))|apply (d_times (wave 1 1 0 i u) (wave 1 1 0 j))]; apply wave_derive. Qed.
Lemma ripple_bound i j u v : Rabs (ripple i j u v) <= 1.
Proof.
  unfold ripple. rewrite Rabs_mult. assert (H : forall i x, Rabs (wave 1 1 0 i x) <= 1) by (intros k x; pose proof (wave_bound 1 1 0 k x 1 ltac:(rewrite Rabs_R1; lra) ltac:(rewrite Rabs_R1; lra)) as W; rewrite pow1 in W; exact W).
  apply Rle_trans with (1 * 1); [apply Rmult_le_compat; auto using Rabs_pos|lra].
Qed.
Definition offset (s : settings R) : fields R := mkFields (fun i j => ripple 0 0 (node_x s j) (node_y s i) + 1 / 1000) (fun i j => ripple 1 0 (node_x s j) (node_y s i))
  (fun i j => ripple 0 1 (node_x s j) (node_y s i)) (fun i j => ripple 1 1 (node_x s j) (node_y s i)).
Lemma offset_near s : near_samples s ripple (offset s) (1 / 1000) 0 0.
Proof.
  intros i j _ _. cbn [offset SpecRefRun.f_phi f_x f_y f_xy]. split; [replace (_ - _) with (1 / 1000) by ring; rewrite Rabs_pos_eq; lra|].
  repeat split; (replace (_ - _) with 0 by ring; rewrite Rabs_R0; lra).
Qed.
Definition drift (x y hi s : R) : R := x - sin y * sin hi + sin y * sin s.
Lemma drift_end x y hi : drift x y hi hi = x. Proof. unfold drift. ring. Qed.
Lemma drift_follows Tp x y h lo hi : follows shear Tp lo hi (drift x y h) (fun _ => y).
Proof. apply shear_follows. Qed.
Lemma drift_start x y lo hi : lo <= hi -> Rabs (drift x y hi lo - x) <= hi - lo.
Proof.
  intros H. unfold drift. replace (x - sin y * sin hi + sin y * sin lo - x) with (sin y * (sin lo - sin hi)) by ring. rewrite Rabs_mult.
  replace (hi - lo) with (1 * Rabs (lo - hi)) by (rewrite Rmult_1_l, Rabs_minus_sym, Rabs_pos_eq; lra).
  apply Rmult_le_compat; try apply Rabs_pos; [apply s1|apply sin_lip].
Qed.
Lemma drift_bounded x y h lo hi : bounded2 lo hi (drift x y h) 1.
Proof.
  exists (fun s => sin y * cos s), (fun s => - (sin y * sin s)). split.
  - repeat split; intros s _; unfold drift; apply is_derive_Reals; auto_derive; auto; ring.
  - intros s _. rewrite Rabs_Ropp, Rabs_mult. replace 1 with (1 * 1) by ring. apply Rmult_le_compat; auto using Rabs_pos, s1.
Qed.
Lemma still_bounded (y lo hi : R) : bounded2 lo hi (fun _ => y) 1.
Proof. exists (fun _ => 0), (fun _ => 0). split; [repeat split; intros; apply derivable_pt_lim_const|intros; rewrite Rabs_R0; lra]. Qed.

Lemma node_s : node_x case_s 2 = 1 / 2 /\ node_y case_s 1 = 1 / 3.
Proof. unfold node_x, node_y, even_nodes, s_dx, s_dy. cbn [s_xlim1 s_xlim2 s_ylim1 s_ylim2 s_nx s_ny case_s]. nr. change (u32 (5 - 1)) with 4%Z. change (u32 (4 - 1)) with 3%Z. split; lra. Qed.
Lemma node_t : node_x case_t 2 = 0 /\ node_y case_t 2 = 1.
Proof. unfold node_x, node_y, even_nodes, s_dx, s_dy. cbn [s_xlim1 s_xlim2 s_ylim1 s_ylim2 s_nx s_ny case_t]. nr. change (u32 (5 - 1)) with 4%Z. change (u32 (4 - 1)) with 3%Z. split; lra. Qed.
Lemma near_abs x y b : Rabs (x - y) <= b -> y - b <= x <= y + b.
Proof. unfold Rabs. destruct (Rcase_abs (x - y)); lra. Qed.

Lemma step_case_rk3 : proper case_s /\ s_rk3 case_s = true /\ step_number 0 /\ 0 <= s_dt case_s /\
  true_gradients shear (s_Tp case_s) /\ smooth_velocity 3 1 shear (s_Tp case_s) /\ smooth2 ripple /\ bounded_in_box case_s ripple (fun _ _ => 1) /\
  (exists m, nodes_at 5 4 (node_x case_s) (node_y case_s) m /\ contains 5 4 (offset case_s) m) /\ near_samples case_s ripple (offset case_s) (1 / 1000) 0 0 /\
  let lo := IZR 0 * s_dt case_s in let hi := (IZR 0 + 1) * s_dt case_s in let E := smooth_bound (s_dt case_s) 1 in
  exists X Y, follows shear (s_Tp case_s) lo hi X Y /\ X hi = node_x case_s 2 /\ Y hi = node_y case_s 1 /\
    inside (s_xlim1 case_s + E) (s_xlim2 case_s - E) (X lo) /\ inside (s_ylim1 case_s + E) (s_ylim2 case_s - E) (Y lo).
Proof.
  split; [apply case_proper|]. split; [reflexivity|]. split; [unfold step_number; lia|]. split; [cbn; lra|]. split; [apply shear_true|]. split; [apply shear_smooth|].
  split; [apply ripple_smooth|]. split; [intros i j u v _ _ _ _; apply ripple_bound|]. split; [apply (case_state case_s (offset case_s))|]. split; [apply offset_near|].
  intros lo hi E. exists (drift (1 / 2) (1 / 3) hi), (fun _ => 1 / 3). destruct node_s as (-> & ->). split; [apply drift_follows|]. split; [apply drift_end|]. split; [reflexivity|].
  assert (L : lo = 0) by (unfold lo; ring). assert (Hh : hi = 1 / 8) by (unfold hi; cbn [s_dt case_s]; field).
  assert (HE : E < 1 / 100) by (unfold E, smooth_bound; cbn [s_dt case_s]; cbv zeta; lra).
  pose proof (near_abs _ _ _ (drift_start (1 / 2) (1 / 3) lo hi ltac:(lra))) as B. unfold inside. cbn [s_xlim1 s_xlim2 s_ylim1 s_ylim2 case_s]. clearbody lo hi E. subst lo hi. lra.
Qed.
Lemma step_case_euler : proper case_t /\ s_rk3 case_t = false /\ step_number 0 /\ 0 <= s_dt case_t /\ smooth2 ripple /\ bounded_in_box case_t ripple (fun _ _ => 1) /\
  (exists m, nodes_at 5 4 (node_x case_t) (node_y case_t) m /\ contains 5 4 (offset case_t) m) /\ near_samples case_t ripple (offset case_t) (1 / 1000) 0 0 /\
  let lo := IZR 0 * s_dt case_t in let hi := (IZR 0 + 1) * s_dt case_t in let E := 1 / 2 * s_dt case_t ^ 2 in
  exists X Y, follows shear (s_Tp case_t) lo hi X Y /\ bounded2 lo hi X 1 /\ bounded2 lo hi Y 1 /\ X hi = node_x case_t 2 /\ Y hi = node_y case_t 2 /\
    inside (s_xlim1 case_t + E) (s_xlim2 case_t - E) (X lo) /\ inside (s_ylim1 case_t + E) (s_ylim2 case_t - E) (Y lo).
Proof.
  split; [apply case_proper|]. split; [reflexivity|]. split; [unfold step_number; lia|]. split; [cbn; lra|].
  split; [apply ripple_smooth|]. split; [intros i j u v _ _ _ _; apply ripple_bound|]. split; [apply (case_state case_t (offset case_t))|]. split; [apply offset_near|].
  intros lo hi E. exists (drift 0 1 hi), (fun _ => 1). destruct node_t as (-> & ->). split; [apply drift_follows|]. split; [apply drift_bounded|]. split; [apply still_bounded|].
  split; [apply drift_end|]. split; [reflexivity|].
  assert (L : lo = 0) by (unfold lo; ring). assert (Hh : hi = 1 / 8) by (unfold hi; cbn [s_dt case_t]; field).
  assert (HE : E < 1 / 100) by (unfold E; cbn [s_dt case_t]; lra).
  pose proof (near_abs _ _ _ (drift_start 0 1 lo hi ltac:(lra))) as B. unfold inside. cbn [s_xlim1 s_xlim2 s_ylim1 s_ylim2 case_t]. clearbody lo hi E. subst lo hi. lra.
Qed.
