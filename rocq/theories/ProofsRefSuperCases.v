(** Cases for the gradient in double arithmetic. *)
From Coq Require Import ZArith List Bool String Lia Reals Lra.
From Coquelicot Require Import Derive_2d.
From Flocq Require Import Core BinarySingleNaN.
From Verif Require Import Base Num NumB64 ModelVec ModelGrid ModelRefMath ModelRefMem ModelRef SpecGrid SpecGradient SpecB64 SpecRound SpecRef SpecRefRun SpecRefOrder SpecRefStep SpecRefSolve SpecRefExist SpecRefGrad SpecRefRound SpecRefTraceRound SpecRefStepRound SpecRefSuperRound
  ProofsRefMem ProofsRefRun ProofsB64 ProofsB64Ops ProofsRound ProofsRefStepCases ProofsRefScale ProofsRefTrace ProofsRefSolve ProofsRefFlowGrad ProofsRefSmooth ProofsRefSmoothCases ProofsRefReverse ProofsSensitiveCases ProofsRefStepErr ProofsRefRound ProofsRefTraceRound ProofsRefTraceRoundCases ProofsRefStepRound ProofsRefStepRoundCases.
Open Scope R_scope.

Lemma near64_wide r : Rabs r <= 8 -> is_finite (near64 r) = true /\ Rabs (real (near64 r) - r) <= bpow radix2 (-41).
Proof.
  intros Hr. unfold near64. set (z := ZnearestE (r * bpow radix2 40)).
  assert (Z1 : Rabs (IZR z - r * bpow radix2 40) <= / 2) by (rewrite Rabs_minus_sym; apply Znearest_half).
  assert (B40 : bpow radix2 40 = 1099511627776) by reflexivity.
  assert (Zb : (Z.abs z < 2 ^ 53)%Z).
  { apply lt_IZR. rewrite abs_IZR. apply Rle_lt_trans with (Rabs (r * bpow radix2 40) + / 2).
    - replace (IZR z) with ((IZR z - r * bpow radix2 40) + r * bpow radix2 40) by ring. eapply Rle_trans; [apply Rabs_triang|]. lra.
    - rewrite Rabs_mult, (Rabs_pos_eq (bpow radix2 40)), B40 by apply bpow_ge_0. change (IZR (2 ^ 53)) with 9007199254740992. lra. }
  pose proof (binary_normalize_correct 53 1024 prec53 emax1024 mode_NE z (-40) false) as C. cbv zeta in C. cbn [round_mode] in C.
  assert (G : generic_format radix2 fe (F2R (Float radix2 z (-40)))).
  { apply (generic_format_FLT radix2 (-1074) 53). exists (Float radix2 z (-40)); [reflexivity|cbn [Fnum]; change (Zaux.radix_val radix2) with 2%Z; lia|cbn; lia]. }
  rewrite (RN_id _ G) in C.
  assert (EF : F2R (Float radix2 z (-40)) = IZR z * / 1099511627776) by reflexivity.
  assert (D : Rabs (F2R (Float radix2 z (-40)) - r) <= bpow radix2 (-41)).
  { rewrite EF. replace (IZR z * / 1099511627776 - r) with ((IZR z - r * bpow radix2 40) * / 1099511627776) by (rewrite B40; field).
    rewrite Rabs_mult, (Rabs_pos_eq (/ 1099511627776)) by lra. change (bpow radix2 (-41)) with (/ 2199023255552). lra. }
  rewrite Rlt_bool_true in C.
  - destruct C as (C1 & C2 & _). split; [exact C2|]. unfold real. change (B2R (b64_make z (-40))) with (B2R (binary_normalize 53 1024 prec53 emax1024 mode_NE z (-40) false)). rewrite C1. exact D.
  - apply Rle_lt_trans with 16; [|change 16 with (bpow radix2 4); apply bpow_lt; lia].
    replace (F2R (Float radix2 z (-40))) with ((F2R (Float radix2 z (-40)) - r) + r) by ring. eapply Rle_trans; [apply Rabs_triang|].
    change (bpow radix2 (-41)) with (/ 2199023255552) in D. lra.
Qed.
Lemma gradients_bounded (F : flow R) Tp V K : true_gradients F Tp -> graded_velocity 1 V K F Tp -> forall x y s,
  Rabs (gradUx F x y s Tp) <= V * K /\ Rabs (gradUy F x y s Tp) <= V * K /\ Rabs (gradVx F x y s Tp) <= V * K /\ Rabs (gradVy F x y s Tp) <= V * K.
Proof.
  intros HT (Gx & Gy) x y s. destruct (HT x y s) as (H1 & H3).
  destruct Gx as (_ & ux & uy & us & Du & G1 & G2 & _). destruct Gy as (_ & vx & vy & vs & Dv & G3 & G4 & _).
  pose proof (diff3_plane _ _ _ _ x y s Du) as H2. pose proof (diff3_plane _ _ _ _ x y s Dv) as H4. cbv beta in H2, H4.
  destruct (differentiable_pt_lim_unique _ _ _ _ _ H1) as (q1 & q2). destruct (differentiable_pt_lim_unique _ _ _ _ _ H2) as (q3 & q4).
  destruct (differentiable_pt_lim_unique _ _ _ _ _ H3) as (r1 & r2). destruct (differentiable_pt_lim_unique _ _ _ _ _ H4) as (r3 & r4).
  replace (gradUx F x y s Tp) with (ux x y s) by congruence. replace (gradUy F x y s Tp) with (uy x y s) by congruence.
  replace (gradVx F x y s Tp) with (vx x y s) by congruence. replace (gradVy F x y s Tp) with (vy x y s) by congruence.
  split; [apply G1|]. split; [apply G2|]. split; [apply G3|apply G4].
Qed.
Lemma held_gradients Tp : real Tp = 1 -> gradients_near64 vortex_held vortex Tp (1 * 8) (bpow radix2 (-41)).
Proof.
  intros ET a b s _ _ _. assert (G : graded_velocity 1 1 8 vortex (real Tp)).
  { rewrite ET. apply vortex_graded; [pose proof PI_4; lra|]. pose proof PI_4. pose proof PI_RGT_0. replace (PI / 1) with PI by field. rewrite Rabs_pos_eq; lra. }
  destruct (gradients_bounded vortex (real Tp) 1 8 (vortex_true _) G (real a) (real b) (real s)) as (B1 & B2 & B3 & B4). rewrite Rmult_1_l in B1, B2, B3, B4. cbv zeta.
  pose proof (bpow_ge_0 radix2 (-41)) as P.
  assert (W : forall r, Rabs r <= 8 -> is_finite (near64 r) = true /\ Rabs (real (near64 r) - r) <= bpow radix2 (-41) * (1 * 8)) by (intros r Hr; destruct (near64_wide r Hr) as (F & E); split; [exact F|lra]).
  cbn [vortex_held gradUx gradUy gradVx gradVy]. split; [exact (W _ B1)|]. split; [exact (W _ B2)|]. split; [exact (W _ B3)|exact (W _ B4)].
Qed.
Lemma ripple2_differentiable : differentiable (ripple 0 0).
Proof.
  intros x y. pose proof (diff3_mul _ _ _ _ _ _ _ _ (diff3_x sin cos derivable_pt_lim_sin) (diff3_y sin cos derivable_pt_lim_sin)) as D.
  pose proof (diff3_plane _ _ _ _ x y 0 D) as P. eexists _, _. intros eps. destruct (P eps) as (d & H). exists d. intros a b Ha Hb.
  rewrite !ripple_is. exact (H a b Ha Hb).
Qed.
Lemma quarter_gradient_case : let s := quarter in let r := real_settings s in let e := bpow radix2 (-41) in let M (_ _ : nat) := 1 in
  s_psischeme s = "SuperConsistent"%string /\ moderate (1 * 8) /\ 1 * 8 * real (s_dt s) <= 1 / 4 /\ gradients_near64 vortex_held vortex (s_Tp s) (1 * 8) e /\ true_gradients vortex (s_Tp r) /\
  let lo := IZR 5 * s_dt r in let hi := (IZR 5 + 1) * s_dt r in
  let ex := slope_x_bound (s_dx r) (s_dy r) M e e e + bpow radix2 (-33) * (2 / s_dx r) in let ey := slope_y_bound (s_dx r) (s_dy r) M e e e + bpow radix2 (-33) * (2 / s_dy r) in
  moderate 2 /\ M 1%nat 0%nat + ex <= 2 /\ M 0%nat 1%nat + ey <= 2 /\ (exists u, solves vortex (s_Tp r) lo hi u /\ forall x y, u x y lo = ripple 0 0 x y) /\
  let E := origin_bound (s_rk3 s) (s_dt r) 1 8 + trace_factor (s_rk3 s) 8 * e * 1 in gradient_bound (s_dt r) 1 8 M ex ey E + super_factor (s_rk3 s) * e * 2 < 1 / 4.
Proof.
  intros s r e M. destruct quarter_real as (E1 & E2 & E3 & E4 & E5 & E6). fold s r in E1, E2, E3, E4, E5, E6. destruct quarter_dx as (D1 & D2). fold s r in D1, D2.
  split; [reflexivity|]. split; [rewrite Rmult_1_l; apply (moderate_int 8); lia|]. split; [change (real (s_dt s)) with (s_dt r); rewrite E5; lra|].
  split; [apply held_gradients; exact E6|]. split; [apply vortex_true|]. intros lo hi ex ey.
  assert (Q1 : 0 <= e <= / 1000000000). { unfold e. split; [apply bpow_ge_0|]. apply Rle_trans with (bpow radix2 (-30)); [apply bpow_le; lia|]. change (bpow radix2 (-30)) with (/ 1073741824). lra. }
  assert (Q2 : 0 <= bpow radix2 (-33) <= / 1000000000). { split; [apply bpow_ge_0|]. change (bpow radix2 (-33)) with (/ 8589934592). lra. }
  clearbody e. set (b := bpow radix2 (-33)) in *. clearbody b.
  assert (Hx : 0 <= ex <= / 100) by (unfold ex, slope_x_bound, M; rewrite D1, D2; lra). assert (Hy : 0 <= ey <= / 100) by (unfold ey, slope_y_bound, M; rewrite D1, D2; lra).
  split; [apply (moderate_int 2); lia|]. split; [unfold M; lra|]. split; [unfold M; lra|]. split.
  { destruct (vortex_solution (s_Tp r) (ripple 0 0) lo ltac:(rewrite E6; lra) ripple2_differentiable) as (u & U1 & U2 & _). exists u. split; [apply U1|exact U2]. }
  intros E. assert (HE : 0 <= E <= / 1000). { unfold E. change (s_rk3 s) with true. unfold trace_factor, origin_bound. rewrite E5. lra. }
  change (s_rk3 s) with true. unfold gradient_bound, super_factor, M. rewrite E5. clearbody E ex ey. lra.
Qed.

(** the saddle: velocity (y, x), derivatives 0 and 1 *)
Lemma saddle_gradients Tp X eps : 0 <= eps -> gradients_track64 saddle saddle Tp X 1 0 0 eps.
Proof.
  intros He. destruct (int64 1) as (F1 & E1); [cbn; lia|]. destruct (int64 0) as (F0 & E0); [cbn; lia|].
  assert (A : forall w k, (k = 0 \/ k = 1)%Z -> is_finite w = true -> real w = IZR k -> forall a' b' s' : R, forall a b s : b64, Rabs (IZR k) <= 1 /\ is_finite w = true /\
    Rabs (real w - IZR k) <= eps * 1 + 0 * (Rabs (real a - a') + Rabs (real b - b')) + 0 * Rabs (real s - s')).
  { intros w k Hk Fw Ew a' b' s' a b s. split; [destruct Hk as [->| ->]; [rewrite Rabs_R0|rewrite Rabs_R1]; lra|]. split; [exact Fw|]. rewrite Ew, Rminus_diag_eq, Rabs_R0 by reflexivity. lra. }
  split; [|split; [|split]]; intros a b s a' b' s' _ _ _ _ _; cbn [saddle gradUx gradUy gradVx gradVy];
  [exact (A _ 0%Z (or_introl eq_refl) F0 E0 a' b' s' a b s)|exact (A _ 1%Z (or_intror eq_refl) F1 E1 a' b' s' a b s)|exact (A _ 1%Z (or_intror eq_refl) F1 E1 a' b' s' a b s)|exact (A _ 0%Z (or_introl eq_refl) F0 E0 a' b' s' a b s)].
Qed.
Lemma saddle_gradient_case : let eps := bpow radix2 (-53) in let g : b64 := b64_make 3 (-2) in let h : b64 := b64_make (-1) 0 in let dt : b64 := b64_make 1 (-3) in
  moderate 1 /\ 1 * real dt <= 1 /\ 1 * 1 <= 8 * 4 /\ 0 * 2 <= 8 * 4 /\ 0 * 1 <= 8 * 1 /\ 0 * 2 <= 8 * 1 /\ flow_tracks64 saddle saddle (b64_make 8 0) 1 4 1 0 eps /\
  gradients_track64 saddle saddle (b64_make 8 0) 1 1 0 0 eps /\ is_finite g = true /\ is_finite h = true /\ Rabs (real g) <= 1 /\ Rabs (real h) <= 1.
Proof.
  intros eps g h dt. assert (Eg : real g = 3 / 4) by (unfold g, real; cbn; unfold F2R; cbn; lra). assert (Eh : real h = -1) by (unfold h, real; cbn; unfold F2R; cbn; lra).
  assert (Ed : real dt = / 8) by (unfold dt, real; cbn; unfold F2R; cbn; lra). rewrite Eg, Eh, Ed. split; [apply (moderate_int 1); lia|]. split; [lra|]. split; [lra|]. split; [lra|]. split; [lra|]. split; [lra|].
  split; [replace 4 with (4 * 1) by ring; apply saddle_tracks; [apply bpow_ge_0|lra]|]. split; [apply saddle_gradients, bpow_ge_0|]. split; [reflexivity|]. split; [reflexivity|].
  split; [rewrite Rabs_pos_eq; lra|rewrite Rabs_left; lra].
Qed.
