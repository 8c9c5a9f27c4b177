(** The traced position in double compared with the trajectory; interpolation in double of bicubic data. *)
From Coq Require Import ZArith List Bool Lia Reals Lra.
From Flocq Require Import Core BinarySingleNaN.
From Verif Require Import Base Num NumB64 ModelVec ModelGrid ModelRefMath SpecGrid SpecInterp SpecB64 SpecRound SpecGradient SpecRef SpecRefOrder SpecRefRound SpecRefTraceRound
  ProofsB64 ProofsB64Ops ProofsRound ProofsRoundHermite ProofsRefHermite ProofsRefScale ProofsRefFlowGrad ProofsRefSolve ProofsRefRound ProofsRefTraceRound ProofsSensitiveCases.
Open Scope R_scope.

Lemma near_tracks G F Tp X V K eps : flow_near64 G F Tp V eps -> graded_velocity 3 V K F (real Tp) -> flow_tracks64 G F Tp X V (V * K) (V * K) eps.
Proof.
  intros H (Gx & Gy). split; intros a b s a' b' s' Fa Fb Fs _ _; destruct (H a b s Fa Fb Fs) as (F1 & F2 & E1 & E2).
  - split; [apply Gx|]. split; [exact F1|]. pose proof (graded_lipschitz 2 V K _ a' b' s' (real a) (real b) (real s) Gx) as Q. cbn beta in Q.
    set (z := real (Velx G a b s Tp)) in *. set (w := Velx F (real a) (real b) (real s) (real Tp)) in *.
    replace (z - Velx F a' b' s' (real Tp)) with ((z - w) + (w - Velx F a' b' s' (real Tp))) by ring. eapply Rle_trans; [apply Rabs_triang|]. lra.
  - split; [apply Gy|]. split; [exact F2|]. pose proof (graded_lipschitz 2 V K _ a' b' s' (real a) (real b) (real s) Gy) as Q. cbn beta in Q.
    set (z := real (Vely G a b s Tp)) in *. set (w := Vely F (real a) (real b) (real s) (real Tp)) in *.
    replace (z - Vely F a' b' s' (real Tp)) with ((z - w) + (w - Vely F a' b' s' (real Tp))) by ring. eapply Rle_trans; [apply Rabs_triang|]. lra.
Qed.
Theorem origin64 : forall (G : flow b64) (F : flow R) (rk3 : bool) (x y dt Tp : b64) (t : Z) (eps X V K Ts c : R) (P Q : R -> R),
  bpow radix2 (-53) <= eps <= / 4096 -> moderate X -> moderate V -> moderate Ts -> is_finite dt = true -> moderate (real dt) -> is_finite x = true -> is_finite y = true ->
  Rabs (real x) <= X -> Rabs (real y) <= X -> V * real dt <= X -> step_number t -> (IZR t + 1) * real dt <= Ts ->
  0 < K -> c <= 32 -> K * X <= c -> K * Ts <= c -> flow_near64 G F Tp V eps -> graded_velocity 3 V K F (real Tp) ->
  let lo := IZR t * real dt in let hi := (IZR t + 1) * real dt in follows F (real Tp) lo hi P Q -> P hi = real x -> Q hi = real y ->
  let p := back_trace G rk3 x y t dt Tp in let E := origin_bound rk3 (real dt) V K + trace_factor rk3 c * eps * X in
  (is_finite (fst p) = true /\ is_finite (snd p) = true) /\ Rabs (real (fst p) - P lo) <= E /\ Rabs (real (snd p) - Q lo) <= E.
Proof.
  intros G F rk3 x y dt Tp t eps X V K Ts c P Q He HX HV HT Fd Hd Fx Fy Hx Hy CFL Ht HTs HK Hc HKX HKT HN HG lo hi HF HP HQ p E.
  pose proof (okS_pos _ (okS_mod _ HX)) as XP. pose proof (okS_pos _ (okS_mod _ HV)) as VP. pose proof (okS_pos _ (okS_mod _ Hd)) as DP.
  assert (C0 : 0 <= c) by (assert (0 <= K * X) by (apply Rmult_le_pos; lra); lra).
  assert (VK : 0 <= V * K) by (apply Rmult_le_pos; lra).
  assert (L1 : V * K * X <= c * V) by (replace (V * K * X) with (K * X * V) by ring; apply Rmult_le_compat_r; lra).
  assert (L2 : V * K * Ts <= c * V) by (replace (V * K * Ts) with (K * Ts * V) by ring; apply Rmult_le_compat_r; lra).
  destruct Ht as (T0 & T1).
  destruct (trace64 G F rk3 x y dt Tp t eps X V (V * K) (V * K) Ts c He HX HV HT Fd Hd Fx Fy Hx Hy CFL T0 ltac:(change (2 ^ 32)%Z with 4294967296%Z; lia) HTs (conj C0 Hc) VK VK L1 L2
    (near_tracks _ _ _ _ _ _ _ HN HG)) as (FF & A1 & A2).
  destruct (origin F (real Tp) t (real dt) P Q V K rk3 HK (conj T0 T1) ltac:(lra) HG HF) as (B1 & B2). fold hi in B1, B2. fold lo in B1, B2. rewrite HP, HQ in B1, B2.
  split; [exact FF|]. unfold E. rewrite Rabs_minus_sym in B1, B2. set (q := back_trace F rk3 (real x) (real y) t (real dt) (real Tp)) in *.
  fold p in A1, A2. split.
  - replace (real (fst p) - P lo) with ((real (fst p) - fst q) + (fst q - P lo)) by ring. eapply Rle_trans; [apply Rabs_triang|]. lra.
  - replace (real (snd p) - Q lo) with ((real (snd p) - snd q) + (snd q - Q lo)) by ring. eapply Rle_trans; [apply Rabs_triang|]. lra.
Qed.

(** the vortex stored as multiples of 2^-40 *)
Definition vortex_held : flow b64 :=
  let h (w : R -> R -> R -> R -> R) (x y s Tp : b64) := near64 (w (real x) (real y) (real s) (real Tp)) in
  mkFlow (h (Velx vortex)) (h (Vely vortex)) (h (gradUx vortex)) (h (gradUy vortex)) (h (gradVx vortex)) (h (gradVy vortex)).
Lemma held_near Tp : real Tp = 1 -> flow_near64 vortex_held vortex Tp 1 (bpow radix2 (-41)).
Proof.
  intros ET a b s _ _ _. assert (G : graded_velocity 0 1 8 vortex (real Tp)).
  { rewrite ET. apply vortex_graded; [pose proof PI_4; lra|]. pose proof PI_4. pose proof PI_RGT_0. replace (PI / 1) with PI by field. rewrite Rabs_pos_eq; lra. }
  destruct G as ((Gx & _) & (Gy & _)). pose proof (near64_ok _ (Gx (real a) (real b) (real s))) as (F1 & E1). pose proof (near64_ok _ (Gy (real a) (real b) (real s))) as (F2 & E2).
  rewrite Rmult_1_r. repeat split; assumption.
Qed.
Lemma vortex_origin_case : let dt : b64 := b64_make 1 (-3) in let x : b64 := b64_make 1 (-2) in let y : b64 := b64_make 1 (-1) in let Tp : b64 := b64_make 1 0 in
  exists P Q : R -> R, bpow radix2 (-53) <= bpow radix2 (-41) <= / 4096 /\ moderate 1 /\ is_finite dt = true /\ moderate (real dt) /\ is_finite x = true /\ is_finite y = true /\
  Rabs (real x) <= 1 /\ Rabs (real y) <= 1 /\ 1 * real dt <= 1 /\ step_number 5 /\ (IZR 5 + 1) * real dt <= 1 /\
  0 < 8 /\ 8 <= 32 /\ 8 * 1 <= 8 /\ flow_near64 vortex_held vortex Tp 1 (bpow radix2 (-41)) /\ graded_velocity 3 1 8 vortex (real Tp) /\
  follows vortex (real Tp) (IZR 5 * real dt) ((IZR 5 + 1) * real dt) P Q /\ P ((IZR 5 + 1) * real dt) = real x /\ Q ((IZR 5 + 1) * real dt) = real y.
Proof.
  intros dt x y Tp. assert (Edt : real dt = / 8) by (unfold dt, real; cbn; unfold F2R; cbn; lra).
  assert (Ex : real x = / 4) by (unfold x, real; cbn; unfold F2R; cbn; lra). assert (Ey : real y = / 2) by (unfold y, real; cbn; unfold F2R; cbn; lra).
  assert (ET : real Tp = 1) by (destruct (int64 1) as (_ & E1); [cbn; lia|exact E1]).
  assert (G : forall n, graded_velocity n 1 8 vortex (real Tp)).
  { intros n. rewrite ET. apply vortex_graded; [pose proof PI_4; lra|]. pose proof PI_4. pose proof PI_RGT_0. replace (PI / 1) with PI by field. rewrite Rabs_pos_eq; lra. }
  destruct (one_through vortex (real Tp) 1 8 (IZR 5 * real dt) ((IZR 5 + 1) * real dt) (real x) (real y) (G 1%nat) ltac:(rewrite Edt; lra)) as (P & Q & HF & HP & HQ & _).
  exists P, Q. pose proof (held_near Tp ET) as HN. pose proof (G 3%nat) as G3.
  split. { split; [apply bpow_le; lia|]. change (/ 4096) with (bpow radix2 (-12)). apply bpow_le. lia. }
  split; [apply (moderate_int 1); lia|]. split; [reflexivity|]. split. { rewrite Edt. split; [apply (bpow_le radix2 (-200) (-3)); lia|apply Rle_trans with 1; [lra|apply (bpow_le radix2 0 200); lia]]. }
  split; [reflexivity|]. split; [reflexivity|]. split; [rewrite Ex, Rabs_pos_eq; lra|]. split; [rewrite Ey, Rabs_pos_eq; lra|]. split; [rewrite Edt; lra|]. split; [split; lia|].
  split; [rewrite Edt; lra|]. split; [lra|]. split; [lra|]. split; [lra|]. split; [exact HN|]. split; [exact G3|]. split; [exact HF|]. split; [exact HP|exact HQ].
Qed.

(** *** bicubic data *)
Theorem bicubic64 : forall (c : nat -> nat -> nat -> R) (phi psix psiy psixy : quad b64) (x y xo yo dx dy : b64) (M : R),
  within_reach x xo dx -> within_reach y yo dy -> cell_size phi psix psiy psixy (real dx) (real dy) M ->
  let Q f := at_corners f (real xo) (real yo) (real dx) (real dy) in
  qreals phi = Q (bicubic false false c) -> qreals psix = Q (bicubic true false c) -> qreals psiy = Q (bicubic false true c) -> qreals psixy = Q (bicubic true true c) ->
  let at_ f : b64 := f phi psix psiy psixy x y xo yo dx dy in
  Rabs (real (at_ hp) - bicubic false false c (real x) (real y)) <= bpow radix2 (-33) * M /\
  Rabs (real (at_ hermx) - bicubic true false c (real x) (real y)) <= bpow radix2 (-33) * (M / real dx) /\
  Rabs (real (at_ hermy) - bicubic false true c (real x) (real y)) <= bpow radix2 (-33) * (M / real dy).
Proof.
  intros c phi psix psiy psixy x y xo yo dx dy M HX HY HD Q E1 E2 E3 E4 at_.
  destruct (cell_hermite _ _ _ _ _ _ _ _ _ _ _ HX HY HD) as (_ & A & B & D). rewrite E1, E2, E3, E4 in A, B, D.
  destruct HX as (_ & _ & _ & MX & _). destruct HY as (_ & _ & _ & MY & _). pose proof (okS_pos _ (okS_mod _ MX)). pose proof (okS_pos _ (okS_mod _ MY)).
  destruct (ref_exact c (real x) (real y) (real xo) (real yo) (real dx) (real dy) ltac:(lra) ltac:(lra)) as (R1 & R2 & R3). unfold Q in A, B, D.
  rewrite R1 in A. rewrite R2 in B. rewrite R3 in D. repeat split; assumption.
Qed.
Definition coef_xy (i j k : nat) : R := match i, j, k with 1%nat, 1%nat, 0%nat => 1 | _, _, _ => 0 end.
Lemma xy_vals x y : bicubic false false coef_xy x y = x * y /\ bicubic true false coef_xy x y = y /\ bicubic false true coef_xy x y = x /\ bicubic true true coef_xy x y = 1.
Proof. unfold bicubic, tricubic, P1, cubic, cubic'. cbn [coef_xy vx vy vz]. repeat split; ring. Qed.
Lemma real_z z : (Z.abs z <= 1000)%Z -> real (b64_make z 0) = IZR z.
Proof. intros H. destruct (int64 z) as (_ & E). { change (2 ^ 53)%Z with 9007199254740992%Z. lia. } exact E. Qed.
Lemma bicubic_case : let x : b64 := b64_make 1 0 in let y : b64 := b64_make 5 0 in let xo : b64 := b64_make 0 0 in let yo : b64 := b64_make 1 0 in
  let dx : b64 := b64_make 2 0 in let dy : b64 := b64_make 3 0 in let Q f := at_corners f (real xo) (real yo) (real dx) (real dy) in
  let phi := quad_of 0 2 0 8 in let psix := quad_of 1 1 4 4 in let psiy := quad_of 0 2 0 2 in let psixy := quad_of 1 1 1 1 in
  within_reach x xo dx /\ within_reach y yo dy /\ cell_size phi psix psiy psixy (real dx) (real dy) 100 /\
  qreals phi = Q (bicubic false false coef_xy) /\ qreals psix = Q (bicubic true false coef_xy) /\ qreals psiy = Q (bicubic false true coef_xy) /\ qreals psixy = Q (bicubic true true coef_xy) /\
  bicubic false false coef_xy (real x) (real y) = 5.
Proof.
  intros x y xo yo dx dy Q phi psix psiy psixy. subst x y xo yo dx dy Q phi psix psiy psixy. split; [apply reach_case; lia|]. split; [apply reach_case; lia|].
  unfold quad_of, qreals, at_corners. cbn [q0 q1 q2 q3]. rewrite !(fun a b => proj1 (xy_vals a b)), !(fun a b => proj1 (proj2 (xy_vals a b))), !(fun a b => proj1 (proj2 (proj2 (xy_vals a b)))), !(fun a b => proj2 (proj2 (proj2 (xy_vals a b)))).
  split.
  { unfold cell_size. fold (quad_of 0 2 0 8) (quad_of 1 1 4 4) (quad_of 0 2 0 2) (quad_of 1 1 1 1). rewrite !real_z by lia. split; [apply moderate_int; lia|].
    split; [apply (corner_case _ _ _ _ 1); lia|]. split; [apply (corner_case _ _ _ _ 2); lia|]. split; [apply (corner_case _ _ _ _ 3); lia|]. rewrite <- mult_IZR. apply (corner_case _ _ _ _ (2 * 3)); lia. }
  rewrite !real_z by lia. repeat split; try (f_equal; lra).
Qed.
