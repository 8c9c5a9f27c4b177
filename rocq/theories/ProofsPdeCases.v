(** A case of the step of the library in the swirling flow. *)
From Coq Require Import ZArith List Reals Lra Lia.
From Coquelicot Require Import Rcomplements Derive Derive_2d.
From Verif Require Import Base Num ModelVec ModelGrid ModelArray ModelInterp ModelTemporal ModelRefMath SpecGrid SpecInterp SpecGradient SpecTemporal SpecAccuracy SpecPde
  SpecRef SpecRefOrder SpecRefSolve SpecRefExist ProofsRefTrace ProofsRefSmoothCases ProofsRefScale ProofsRefSolveCases ProofsRefReverse
  ProofsBase ProofsGrid ProofsArray ProofsGridProps ProofsTaylor ProofsInterp ProofsInterpProps ProofsInterpApi ProofsTemporal ProofsTemporalCases ProofsAccuracy ProofsAccuracyStep.
Open Scope R_scope.

(** a case: a ripple in the swirling flow *)
Definition ripple (i j k : nat) (x y z : R) : R := dsin i x * dsin j y * match k with O => 1 | _ => 0 end.
Lemma ripple_smooth : smooth ripple.
Proof.
  intros i j k x y z. unfold ripple. set (e := match k with O => 1 | _ => 0 end). repeat split.
  - apply derivable_pt_lim_ext with (f := mult_real_fct (dsin j y * e) (dsin i)); [intros; unfold mult_real_fct; ring|].
    replace (dsin (S i) x * dsin j y * e) with (dsin j y * e * dsin (S i) x) by ring. apply derivable_pt_lim_scal, dsin_derive.
  - apply derivable_pt_lim_ext with (f := mult_real_fct (dsin i x * e) (dsin j)); [intros; unfold mult_real_fct; ring|].
    replace (dsin i x * dsin (S j) y * e) with (dsin i x * e * dsin (S j) y) by ring. apply derivable_pt_lim_scal, dsin_derive.
  - rewrite Rmult_0_r. apply d_const.
Qed.
Lemma ripple_bound i j k x y z : Rabs (ripple i j k x y z) <= 1.
Proof.
  unfold ripple. rewrite !Rabs_mult. pose proof (proj1 (dsin_bound i x)) as A. pose proof (proj1 (dsin_bound j y)) as B.
  assert (C : Rabs (match k with O => 1 | _ => 0 end) <= 1) by (destruct k; rewrite ?Rabs_R1, ?Rabs_R0; lra).
  pose proof (Rmult_le_compat _ _ _ _ (Rabs_pos _) (Rabs_pos _) A B) as AB.
  pose proof (Rmult_le_compat _ _ _ _ (Rmult_le_pos _ _ (Rabs_pos _) (Rabs_pos _)) (Rabs_pos _) AB C). lra.
Qed.
Lemma ripple_differentiable : differentiable (fun x y => ripple 0 0 0 x y 0).
Proof.
  intros x y. pose proof (diff3_mul _ _ _ _ _ _ _ _ (diff3_x sin cos derivable_pt_lim_sin) (diff3_y sin cos derivable_pt_lim_sin)) as D.
  pose proof (diff3_plane _ _ _ _ x y 0 D) as P. eexists _, _. intros eps. destruct (P eps) as (d & H). exists d. intros a b Ha Hb.
  unfold ripple. cbn [dsin]. rewrite !Rmult_1_r. exact (H a b Ha Hb).
Qed.
Definition swirl (t : R) (p : vec3 R) : vec3 R := V3 (Velx vortex (vx p) (vy p) t 1) (Vely vortex (vx p) (vy p) t 1) 0.
Definition swirlm (t : R) (p : vec3 R) : mat3 R :=
  M3 (V3 (gradUx vortex (vx p) (vy p) t 1) (gradUy vortex (vx p) (vy p) t 1) 0) (V3 (gradVx vortex (vx p) (vy p) t 1) (gradVy vortex (vx p) (vy p) t 1) 0) (V3 0 0 0).
Lemma pde_case : exists g lv l u, built Wrap 2 (V3 4 3 1)%Z 1 lo1 hi1 g /\ levelset_on g l /\ velocity_on g lv /\ proper_box 2 lo1 hi1 /\ interp_defined Wrap 2 /\ smooth ripple /\
  (forall i j k p, (i <= 4)%nat -> (j <= 4)%nat -> (k <= 4)%nat -> centre_box 2 (V3 4 3 1)%Z lo1 hi1 p -> Rabs (ripple i j k (vx p) (vy p) (vz p)) <= 1) /\
  stores Wrap 2 (V3 4 3 1)%Z 1 g l (fun c => jet ripple (centre_pos 2 (V3 4 3 1)%Z lo1 hi1 c)) /\
  graded_velocity 2 1 8 vortex 1 /\ true_gradients vortex 1 /\ solves vortex 1 (1 / 5) (1 / 5 + 1 / 100) u /\ (forall x y, u x y (1 / 5) = ripple 0 0 0 x y 0) /\
  holds_flow Wrap (V3 4 3 1)%Z g vortex 1 (1 / 5 + 1 / 100) lv /\
  1 * (1 / 100) < spacing (vx lo1) (vx hi1) 4 /\ 1 * (1 / 100) < spacing (vy lo1) (vy hi1) 3 /\ 1 * 8 * (1 / 100) <= 1 / 4 /\
  ripple 0 0 0 (PI / 2) (PI / 2) 0 = 1.
Proof.
  destruct (built_2d (T := R) Wrap lo1 hi1) as (g & Hb).
  destruct (velocity_exists _ _ _ _ _ _ g (swirl (1 / 5 + 1 / 100)) (swirlm (1 / 5 + 1 / 100)) Hb) as (lv & Hv & V).
  destruct (stores_exists _ _ _ _ _ _ g (fun c => jet ripple (centre_pos 2 (V3 4 3 1)%Z lo1 hi1 c)) Hb) as (l & Hl & HS).
  destruct (vortex_solution 1 (fun x y => ripple 0 0 0 x y 0) (1 / 5) ltac:(lra) ripple_differentiable) as (u & U1 & U2 & _).
  exists g, lv, l, u. split; [exact Hb|]. split; [exact Hl|]. split; [exact Hv|]. split; [apply unit_box|]. split; [left; reflexivity|]. split; [exact ripple_smooth|].
  split; [intros; apply ripple_bound|]. split; [exact HS|].
  split; [apply vortex_graded; [pose proof PI_4; lra|pose proof PI_4; pose proof PI_RGT_0; rewrite Rdiv_1, Rabs_pos_eq; lra]|].
  split; [apply vortex_true|]. split; [apply U1|]. split; [exact U2|]. split.
  { intros i j k p Hi Np x y. assert (Hp : padded_cell 2 (V3 4 3 1)%Z 1 (i, j, k)) by (eapply interior_padded; [apply Hb|exact Hi]).
    destruct (V i j k p Hp Np) as (V1 & V2). split; [exists 0; exact V1|]. eexists. split; [exact V2|]. repeat split; reflexivity. }
  unfold spacing, lo1, hi1. cbn [vx vy]. split; [lra|]. split; [lra|]. split; [lra|]. unfold ripple. cbn [dsin]. rewrite sin_PI2. ring.
Qed.
