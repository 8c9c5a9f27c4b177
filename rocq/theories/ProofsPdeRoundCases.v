(** A case of the step in double in the swirling flow. *)
From Coq Require Import ZArith List Reals Lra Lia.
From Flocq Require Import Core BinarySingleNaN.
From Coquelicot Require Import Rcomplements Derive Derive_2d.
From Verif Require Import Base Num NumB64 ModelVec ModelGrid ModelArray ModelInterp ModelTemporal ModelRefMath SpecGrid SpecInterp SpecGradient SpecTemporal SpecAccuracy SpecB64 SpecRound SpecSensitive SpecPde SpecPdeRound
  SpecRef SpecRefOrder SpecRefSolve SpecRefExist ProofsRefTrace ProofsRefSmooth ProofsRefSmoothCases ProofsRefScale ProofsRefSolveCases ProofsRefReverse ProofsPdeCases
  ProofsBase ProofsGrid ProofsArray ProofsGridProps ProofsInterp ProofsInterpProps ProofsInterpApi ProofsTemporal ProofsTemporalCases ProofsAccuracy ProofsAccuracyStep
  ProofsB64 ProofsB64Ops ProofsB64Cases ProofsRoundCases ProofsRoundInterp ProofsRoundStep ProofsRoundField ProofsSensitive ProofsSensitiveStep ProofsSensitiveCases.
Import ListNotations.
Open Scope R_scope.

Lemma near64_wide r : Rabs r <= 8 -> is_finite (near64 r) = true /\ Rabs (real (near64 r) - r) <= bpow radix2 (-41).
Proof.
  intros Hr. unfold near64. set (z := ZnearestE (r * bpow radix2 40)).
  assert (Z1 : Rabs (IZR z - r * bpow radix2 40) <= / 2) by (rewrite Rabs_minus_sym; apply Znearest_half).
  assert (B40 : bpow radix2 40 = 1099511627776) by reflexivity.
  assert (Zb : (Z.abs z < 2 ^ 53)%Z).
  { apply lt_IZR. rewrite abs_IZR. apply Rle_lt_trans with (Rabs (r * bpow radix2 40) + / 2).
    - replace (IZR z) with ((IZR z - r * bpow radix2 40) + r * bpow radix2 40) by ring. eapply Rle_trans; [apply Rabs_triang|]. lra.
    - rewrite Rabs_mult, (Rabs_pos_eq (bpow radix2 40)), B40 by apply bpow_ge_0. change (IZR (2 ^ 53)) with 9007199254740992. lra. }
  pose proof (binary_normalize_correct 53 1024 prec53 emax1024 mode_NE z (-40) false) as C. cbv zeta in C. cbn [round_mode] in C.
  assert (G : generic_format radix2 fe (F2R (Float radix2 z (-40)))).
  { apply (generic_format_FLT radix2 (-1074) 53). exists (Float radix2 z (-40)); [reflexivity|cbn [Fnum]; change (Zaux.radix_val radix2) with 2%Z; lia|cbn; lia]. }
  rewrite (RN_id _ G) in C.
  assert (EF : F2R (Float radix2 z (-40)) = IZR z * / 1099511627776) by reflexivity.
  assert (D : Rabs (F2R (Float radix2 z (-40)) - r) <= bpow radix2 (-41)).
  { rewrite EF. replace (IZR z * / 1099511627776 - r) with ((IZR z - r * bpow radix2 40) * / 1099511627776) by (rewrite B40; field).
    rewrite Rabs_mult, (Rabs_pos_eq (/ 1099511627776)) by lra. change (bpow radix2 (-41)) with (/ 2199023255552). lra. }
  rewrite Rlt_bool_true in C.
  - destruct C as (C1 & C2 & _). split; [exact C2|]. unfold real. change (B2R (b64_make z (-40))) with (B2R (binary_normalize 53 1024 prec53 emax1024 mode_NE z (-40) false)). rewrite C1. exact D.
  - apply Rle_lt_trans with 16; [|change 16 with (bpow radix2 4); apply bpow_lt; lia].
    replace (F2R (Float radix2 z (-40))) with ((F2R (Float radix2 z (-40)) - r) + r) by ring. eapply Rle_trans; [apply Rabs_triang|].
    change (bpow radix2 (-41)) with (/ 2199023255552) in D. lra.
Qed.

Definition n43 : vec3 Z := (V3 4 3 1)%Z.
Lemma squares : reals (sq 1) = V3 1 1 0 /\ reals (sq (-1)) = V3 (-1) (-1) 0.
Proof. destruct (real_int 1) as (F1 & E1); [lia|]. destruct (real_int (-1)) as (F2 & E2); [lia|]. destruct (real_int 0) as (F0 & E0); [lia|]. unfold reals, sq. cbn [vx vy vz]. rewrite E1, E2, E0. auto. Qed.
Lemma square_spacings : spacings n43 (reals (sq (-1))) (reals (sq 1)) = V3 (/ 2) (2 / 3) 0.
Proof. destruct squares as (-> & ->). unfold spacings, spacing, n43. cbn [vx vy vz]. f_equal; field. Qed.
Lemma square_fine : fine_box 2 2 n43 (sq (-1)) (sq 1).
Proof.
  destruct (real_int 1) as (F1 & E1); [lia|]. destruct (real_int (-1)) as (F2 & E2); [lia|].
  split; [change (bpow radix2 30) with 1073741824; lra|]. intros a Ha.
  assert (EH : spacing64 (vget (sq (-1)) a) (vget (sq 1) a) (vget n43 a) = vget (V3 (/ 2) (2 / 3) 0) a).
  { unfold spacing64, spacing. destruct a; try discriminate; cbn [vget sq n43 vx vy vz]; rewrite E1, E2; field. }
  assert (EA : vget (sq (-1)) a = b64_make (-1) 0 /\ vget (sq 1) a = b64_make 1 0) by (destruct a; try discriminate; auto). destruct EA as (EA1 & EA2).
  assert (EB : / 2 <= vget (V3 (/ 2) (2 / 3) 0) a <= 1) by (destruct a; try discriminate; cbn [vget vx vy vz]; lra).
  unfold fine_axis. rewrite EH. rewrite EA1, EA2. split; [exact F2|]. split; [exact F1|]. split; [rewrite E1, E2; lra|]. split.
  - split.
    + apply Rle_trans with (bpow radix2 (-1)); [apply bpow_le; lia|]. change (bpow radix2 (-1)) with (/ 2). lra.
    + apply Rle_trans with (bpow radix2 0); [change (bpow radix2 0) with 1; lra|apply bpow_le; lia].
  - unfold reach. rewrite E1, E2. unfold Rmax. destruct Rle_dec; unfold Rabs; destruct Rcase_abs; lra.
Qed.

Lemma held_exists2 ov n bmin bmax (g : grid b64) (S : cell -> cell_values) : built ov 2 n 1 bmin bmax g ->
  (forall c, cv_all (fun r => Rabs r <= 1) (S c)) -> exists l, levelset_on g l /\ stores64 ov 2 n 1 g l (fun c => cv_map held (S c)).
Proof.
  intros Hb HS. pose proof (built_ok _ _ _ _ _ _ _ Hb) as F. pose proof (bf_ok _ _ _ _ _ _ _ F) as Hg.
  destruct (array_of ov g (fun c => near64 (cv (S c))) Hg) as (a1 & S1 & P1 & _).
  destruct (array_of ov g (fun c => V3 (near64 (cv_x (S c))) (near64 (cv_y (S c))) (near64 (cv_z (S c)))) Hg) as (a2 & S2 & P2 & _).
  destruct (array_of ov g (fun c => map near64 [cv_xy (S c)]) Hg) as (a3 & S3 & P3 & F3).
  exists (mkLS a1 a2 a3 a1 a2 a3 a1 a2). split.
  - pose proof (fun A a => proj2 (array_on_shaped (A := A) _ _ _ _ _ _ _ a Hb)) as K.
    split; cbn [ls_phi ls_psi ls_mix ls_phi_prev ls_psi_prev ls_mix_prev ls_phi_interp ls_psi_interp]; auto.
    eapply Forall_impl; [|exact F3]. intros x (c & ->). rewrite (bf_dim _ _ _ _ _ _ _ F). reflexivity.
  - intros i j k Hp. cbv zeta. cbn [ls_phi_prev ls_psi_prev ls_mix_prev].
    assert (Hc : gcell g (i, j, k)) by (apply (built_gcell _ _ _ _ _ _ _ _ Hb); exact Hp).
    rewrite !(aget_peek_c ov) by auto. rewrite P1, P2, P3 by auto. destruct (HS (i, j, k)) as (B1 & B2 & B3 & B4 & B5 & B6 & B7 & B8).
    assert (I : forall r, Rabs r <= 1 -> is_real (near64 r) (held r)) by (intros r Hr; split; [apply near64_ok; exact Hr|reflexivity]).
    cbn [cv_map cv cv_x cv_y cv_z cv_xy cv_yz cv_zx cv_xyz]. split; [|split].
    + eexists. split; [reflexivity|]. apply I; assumption.
    + eexists. split; [reflexivity|]. cbn [vx vy vz]. split; [apply I; assumption|]. split; intros _; apply I; assumption.
    + eexists. split; [reflexivity|]. cbn [map]. repeat (constructor; [apply I; assumption|]). constructor.
Qed.
Lemma sized_all2 h A S n pad : 0 <= A -> vx h = / 2 -> vy h = 2 / 3 -> (forall c, cv_all (fun r => Rabs r <= A) (S c)) -> sized 2 n pad h A S.
Proof.
  intros HA E1 E2 H c _. destruct (H c) as (B1 & B2 & B3 & B4 & B5 & B6 & B7 & B8). rewrite E1, E2.
  assert (K : forall r w, Rabs r <= A -> 0 <= w <= 1 -> Rabs r * w <= A).
  { intros r w Hr Hw. replace A with (A * 1) by ring. apply Rmult_le_compat; [apply Rabs_pos| | |]; lra. }
  cbv zeta. split; [assumption|]. split; [apply K; [assumption|lra]|]. split; [intros _; split; apply K; (assumption || lra)|intros Q; discriminate].
Qed.
Lemma ripple_jet c : cv_all (fun r => Rabs r <= 1) (jet ripple c).
Proof. unfold cv_all, jet. cbn [cv cv_x cv_y cv_z cv_xy cv_yz cv_zx cv_xyz]. repeat split; apply ripple_bound. Qed.

(** the swirling flow rounded to multiples of 2^-40 *)
Definition vnear (v : vec3 R) : vec3 b64 := V3 (near64 (vx v)) (near64 (vy v)) (near64 (vz v)).
Definition swirl64 (t : R) (p : vec3 R) : vec3 b64 := vnear (swirl t p).
Definition swirlm64 (t : R) (p : vec3 R) : mat3 b64 := let m := swirlm t p in M3 (vnear (row0 m)) (vnear (row1 m)) (vnear (row2 m)).

Lemma pde64_case : exists (g : grid b64) (l : levelset b64) (lv : ls_velocity b64) u,
  let lo := reals (sq (-1)) in let hi := reals (sq 1) in let h := spacings n43 lo hi in let pos := centre_pos 2 n43 lo hi in
  let S c := cv_map held (jet ripple (pos c)) in let dt := b64_make 1 (-7) in
  built Wrap 2 n43 1 (sq (-1)) (sq 1) g /\ levelset_on g l /\ stores64 Wrap 2 n43 1 g l S /\ interp_defined Wrap 2 /\ fine_box 2 2 n43 (sq (-1)) (sq 1) /\
  moderate 2 /\ sized 2 n43 1 h 2 S /\ smooth ripple /\
  (forall i j k p, (i <= 4)%nat -> (j <= 4)%nat -> (k <= 4)%nat -> centre_box 2 n43 lo hi p -> Rabs (ripple i j k (vx p) (vy p) (vz p)) <= 1) /\
  sized 2 n43 1 h (bpow radix2 (-41)) (fun c => cv_minus (S c) (jet ripple (pos c))) /\
  velocity_on g lv /\ slow_flow Wrap 2 n43 (sq (-1)) (sq 1) dt g lv /\ moderate (/ 2) /\ (/ 2 <= vx h /\ / 2 <= vy h) /\ 0 <= real dt /\
  graded_velocity 2 1 8 vortex 1 /\ true_gradients vortex 1 /\ solves vortex 1 (1 / 5) (1 / 5 + real dt) u /\ (forall x y, u x y (1 / 5) = ripple 0 0 0 x y 0) /\
  near_flow64 Wrap n43 (sq (-1)) (sq 1) g vortex 1 (1 / 5 + real dt) lv (bpow radix2 (-41)) (bpow radix2 (-41)) /\
  1 * real dt < vx h /\ 1 * real dt < vy h /\ 1 * 8 * real dt <= 1 / 4 /\ ripple 0 0 0 (PI / 2) (PI / 2) 0 = 1.
Proof.
  destruct (built_exists (T := b64) Wrap 2 n43 1 (sq (-1)) (sq 1) (proj1 good_2d) I) as (g & Hb).
  set (lo := reals (sq (-1))). set (hi := reals (sq 1)). set (pos := centre_pos 2 n43 lo hi).
  destruct (held_exists2 Wrap n43 _ _ g (fun c => jet ripple (pos c)) Hb (fun c => ripple_jet _)) as (l & Hl & HS).
  assert (DT : is_finite (b64_make 1 (-7)) = true /\ real (b64_make 1 (-7)) = / 128) by (split; [reflexivity|vm_compute; lra]). destruct DT as (FD & ED).
  assert (G : graded_velocity 2 1 8 vortex 1) by (apply vortex_graded; [pose proof PI_4; lra|pose proof PI_4; pose proof PI_RGT_0; rewrite Rdiv_1, Rabs_pos_eq; lra]).
  set (t := 1 / 5 + / 128).
  pose proof (built_ok _ _ _ _ _ _ _ Hb) as F. pose proof (bf_ok _ _ _ _ _ _ _ F) as Hg.
  destruct (array_of Wrap g (fun c => swirl64 t (pos c)) Hg) as (a1 & S1 & P1 & _). destruct (array_of Wrap g (fun c => swirlm64 t (pos c)) Hg) as (a2 & S2 & P2 & _).
  assert (Q : forall i j k, interior_cell n43 (i, j, k) -> aget Wrap g a1 i j k = Ok (swirl64 t (pos (i, j, k))) /\ aget Wrap g a2 i j k = Ok (swirlm64 t (pos (i, j, k)))).
  { intros i j k Hi. assert (Hp : padded_cell 2 n43 1 (i, j, k)) by (eapply interior_padded; [exact (proj1 Hb)|exact Hi]).
    assert (Hc : gcell g (i, j, k)) by (apply (built_gcell _ _ _ _ _ _ _ _ Hb); exact Hp). rewrite !(aget_peek_c Wrap) by auto. rewrite P1, P2 by auto. auto. }
  destruct (vortex_solution 1 (fun x y => ripple 0 0 0 x y 0) (1 / 5) ltac:(lra) ripple_differentiable) as (u & U1 & U2 & _).
  exists g, l, (mkLV a1 a2), u. cbv zeta. fold lo hi pos. replace (spacings n43 lo hi) with (V3 (/ 2) (2 / 3) 0) by (symmetry; apply square_spacings). rewrite ED. fold t.
  assert (HH : forall r, Rabs r <= 1 -> Rabs (held r - r) <= bpow radix2 (-41)) by (intros r Hr; apply near64_ok; exact Hr).
  assert (MO : forall r, / 2 <= r <= 2 -> moderate r).
  { intros r Hr. split.
    - apply Rle_trans with (bpow radix2 (-1)); [apply bpow_le; lia|]. change (bpow radix2 (-1)) with (/ 2). lra.
    - apply Rle_trans with (bpow radix2 1); [change (bpow radix2 1) with 2; lra|apply bpow_le; lia]. }
  (* sizes of the velocity and of its derivatives *)
  pose proof (graded_bounded _ _ _ _ (proj1 G)) as Vu. pose proof (graded_bounded _ _ _ _ (proj2 G)) as Vv. cbv beta in Vu, Vv.
  assert (GB : forall x y s, Rabs (gradUx vortex x y s 1) <= 8 /\ Rabs (gradUy vortex x y s 1) <= 8 /\ Rabs (gradVx vortex x y s 1) <= 8 /\ Rabs (gradVy vortex x y s 1) <= 8).
  { intros x y s. destruct (vortex_true 1 x y s) as (G1 & G2).
    assert (W : forall wf a b, graded3 2 1 8 wf -> differentiable_pt_lim (fun x y => wf x y s) x y a b -> Rabs a <= 8 /\ Rabs b <= 8).
    { intros wf a b (_ & wx & wy & ws & Dw & Bx & By & _) Dp. pose proof (graded_bounded _ _ _ _ Bx) as Bx0. pose proof (graded_bounded _ _ _ _ By) as By0.
      destruct (differentiable_pt_lim_unique _ _ _ _ _ Dp) as (W1 & W2). destruct (differentiable_pt_lim_unique _ _ _ _ _ (diff3_plane wf wx wy ws x y s Dw)) as (W3 & W4).
      rewrite <- W1, <- W2, W3, W4. specialize (Bx0 x y s). specialize (By0 x y s). split; lra. }
    destruct (W _ _ _ (proj1 G) G1). destruct (W _ _ _ (proj2 G) G2). tauto. }
  assert (NB : bpow radix2 (-41) <= 1) by (change (bpow radix2 (-41)) with (/ 2199023255552); lra).
  assert (Z8 : Rabs 0 <= 8) by (rewrite Rabs_R0; lra).
  assert (V8 : forall s, Rabs s <= 1 -> Rabs s <= 8) by (intros; lra).
  assert (SM : forall r, Rabs r <= 8 -> is_finite (near64 r) = true /\ Rabs (real (near64 r) * / 128) <= / 8).
  { intros r Hr. destruct (near64_wide r Hr) as (W1 & W2). split; [exact W1|]. rewrite Rabs_mult, (Rabs_pos_eq (/ 128)) by lra.
    assert (Rabs (real (near64 r)) <= 9); [|lra]. replace (real (near64 r)) with ((real (near64 r) - r) + r) by ring. eapply Rle_trans; [apply Rabs_triang|]. lra. }
  split; [exact Hb|]. split; [exact Hl|]. split; [exact HS|]. split; [left; reflexivity|]. split; [exact square_fine|]. split; [apply MO; lra|]. split.
  { apply sized_all2; try reflexivity; [lra|]. intros c. destruct (ripple_jet (pos c)) as (B1 & B2 & B3 & B4 & B5 & B6 & B7 & B8).
    assert (W : forall r, Rabs r <= 1 -> Rabs (held r) <= 2).
    { intros r Hr. pose proof (HH r Hr) as Hq. replace (held r) with ((held r - r) + r) by ring. eapply Rle_trans; [apply Rabs_triang|]. lra. }
    unfold cv_all. cbn [cv_map cv cv_x cv_y cv_z cv_xy cv_yz cv_zx cv_xyz]. repeat split; apply W; assumption. }
  split; [exact ripple_smooth|]. split; [intros; apply ripple_bound|]. split.
  { apply sized_all2; try reflexivity; [apply bpow_ge_0|]. intros c. destruct (ripple_jet (pos c)) as (B1 & B2 & B3 & B4 & B5 & B6 & B7 & B8).
    unfold cv_all. cbn [cv_minus cv_map cv cv_x cv_y cv_z cv_xy cv_yz cv_zx cv_xyz]. repeat split; apply HH; assumption. }
  split; [split; cbn [lv_vel lv_grad]; apply (proj2 (array_on_shaped _ _ _ _ _ _ _ _ Hb)); assumption|]. split.
  { intros i j k Hi. destruct (Q i j k Hi) as (Q1 & Q2). eexists _, _. cbn [lv_vel lv_grad]. split; [exact Q1|]. split; [exact Q2|]. split.
    - intros a Ha. rewrite ED.
      assert (EH : / 2 <= spacing64 (vget (sq (-1)) a) (vget (sq 1) a) (vget n43 a)).
      { replace (spacing64 (vget (sq (-1)) a) (vget (sq 1) a) (vget n43 a)) with (vget (spacings n43 lo hi) a) by (destruct a; reflexivity). unfold lo, hi. rewrite square_spacings. destruct a; try discriminate; cbn [vget vx vy vz]; lra. }
      assert (W : is_finite (vget (swirl64 t (pos (i, j, k))) a) = true /\ Rabs (real (vget (swirl64 t (pos (i, j, k))) a) * / 128) <= / 8).
      { destruct a; try discriminate; cbn [swirl64 vnear swirl vget vx vy vz]; apply SM, V8; [apply Vu|apply Vv]. }
      destruct W as (W1 & W2). split; [exact W1|]. split; [exact FD|]. lra.
    - intros a b. rewrite ED. destruct (GB (vx (pos (i, j, k))) (vy (pos (i, j, k))) t) as (G1 & G2 & G3 & G4).
      assert (W : is_finite (mget (swirlm64 t (pos (i, j, k))) a b) = true /\ Rabs (real (mget (swirlm64 t (pos (i, j, k))) a b) * / 128) <= / 8).
      { destruct a, b; cbn [swirlm64 swirlm mget row0 row1 row2 vnear vget vx vy vz]; apply SM; assumption. }
      destruct W as (W1 & W2). split; [exact W1|]. lra. }
  split; [apply MO; lra|]. cbn [vx vy]. split; [lra|]. split; [lra|]. split; [exact G|]. split; [apply vortex_true|]. split; [apply U1|]. split; [exact U2|]. split.
  { intros i j k Hi p x y. destruct (Q i j k Hi) as (Q1 & Q2). exists (swirl64 t (pos (i, j, k))), (swirlm64 t (pos (i, j, k))). cbn [lv_vel lv_grad]. split; [exact Q1|]. split; [exact Q2|].
    change p with (pos (i, j, k)) in x, y. destruct (GB x y t) as (G1 & G2 & G3 & G4).
    cbn [swirl64 swirl swirlm64 swirlm mget row0 row1 row2 vnear vget vx vy vz]. fold x y.
    split; [apply near64_wide, V8, Vu|]. split; [apply near64_wide, V8, Vv|]. repeat split; apply near64_wide; assumption. }
  split; [lra|]. split; [lra|]. split; [lra|]. unfold ripple. cbn [dsin]. rewrite sin_PI2. ring.
Qed.
