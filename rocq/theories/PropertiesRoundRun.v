(** Several semi-Lagrangian steps on a line in double arithmetic: rounding error and total error. *)
From Coq Require Import ZArith List Bool Lia Reals Lra.
From Flocq Require Import Core BinarySingleNaN.
From Verif Require Import Base Num NumB64 ModelVec ModelGrid ModelArray ModelInterp ModelTemporal ModelRun
  SpecGrid SpecInterp SpecTemporal SpecRun SpecGradient SpecStability SpecB64 SpecRound SpecRoundRun
  ProofsB64Cases ProofsRoundRun ProofsRoundTotal.
Import ListNotations.
Open Scope R_scope.

(** C126: in one dimension, run N steps in double, and the same program with real arithmetic on the same box.
    The velocity is uniform, each step moves a particle by at most 3/4 of a cell, and the initial doubles are
    within rounding error of the exact initial data. If the exact run stays below M / 2 in the cells the ghost layers have
    not reached, both runs return and after N steps the doubles there are finite and within
    6 (N+1)^2 sqrt(n+1) e of the exact phi, and within 47 (N+1)^2 sqrt(n+1) e / h of the exact psi:
    rounding errors grow at most quadratically with the number of steps. *)
Theorem C126_loop_rounding ov n bmin bmax (g : grid b64) (gR : grid R) M rho sched schedR ds l lR P S :
  built ov 1 n 1 bmin bmax g -> built ov 1 n 1 (reals bmin) (reals bmax) gR -> interp_defined ov 1 ->
  fine_box 1 rho n bmin bmax -> moderate M ->
  levelset_on g l -> levelset_on gR lR -> line ov (vx n) gR lR P S ->
  Forall2 (moves64 ov n bmin bmax g) sched ds ->
  Forall2 (moves_by ov n gR) schedR (map (fun d => V3 d 0 0) ds) ->
  let h := spacing64 (vx bmin) (vx bmax) (vx n) in let e := round_bound 1 rho * M in
  near_line64 ov g l P S (-1) (vx n) e (8 * (e / h)) ->
  let N := length sched in let q := (INR N + 1) ^ 2 * sqrt (IZR (vx n + 1)) in
  (forall k lk Pk Sk, (k < N)%nat -> sl_steps ov gR (firstn k schedR) lR = Ok lk -> line ov (vx n) gR lk Pk Sk ->
     forall i, (Z.of_nat k - 1 <= i <= vx n - Z.of_nat k)%Z -> Rabs (Pk i) <= M / 2 /\ Rabs (Sk i) * h <= M / 2) ->
  47 * q * round_bound 1 rho <= / 2 ->
  exists l' lR' P' S', sl_steps ov g sched l = Ok l' /\ sl_steps ov gR schedR lR = Ok lR' /\ line ov (vx n) gR lR' P' S' /\
    near_line64 ov g l' P' S' (Z.of_nat N - 1) (vx n - Z.of_nat N) (6 * q * e) (47 * q * (e / h)).
Proof. exact (fun Hb HbR Hd Hf HM => run_rounding ov n bmin bmax g gR M rho Hb HbR Hd Hf HM sched schedR ds l lR P S). Qed.
Print Assumptions C126_loop_rounding.

Example C126_case : exists (g : grid b64) (gR : grid R) schedR l lR P S,
  let ds := [/ 2; - / 4; 1] in
  built Wrap 1 five 1 (ivl (-5)) (ivl 5) g /\ built Wrap 1 five 1 (reals (ivl (-5))) (reals (ivl 5)) gR /\
  interp_defined Wrap 1 /\ fine_box 1 (5 / 2) five (ivl (-5)) (ivl 5) /\ moderate 16384 /\
  levelset_on g l /\ levelset_on gR lR /\ line Wrap 5 gR lR P S /\
  Forall2 (moves64 Wrap five (ivl (-5)) (ivl 5) g) (sched3 g) ds /\
  Forall2 (moves_by Wrap five gR) schedR (map (fun d => V3 d 0 0) ds) /\
  let h := spacing64 (vx (ivl (-5))) (vx (ivl 5)) 5 in let e := round_bound 1 (5 / 2) * 16384 in
  near_line64 Wrap g l P S (-1) 5 e (8 * (e / h)) /\
  let N := length (sched3 g) in let q := (INR N + 1) ^ 2 * sqrt (IZR (5 + 1)) in
  (forall k lk Pk Sk, (k < N)%nat -> sl_steps Wrap gR (firstn k schedR) lR = Ok lk -> line Wrap 5 gR lk Pk Sk ->
     forall i, (Z.of_nat k - 1 <= i <= 5 - Z.of_nat k)%Z -> Rabs (Pk i) <= 16384 / 2 /\ Rabs (Sk i) * h <= 16384 / 2) /\
  47 * q * round_bound 1 (5 / 2) <= / 2.
Proof.
  destruct quart_case as (g & l & Hb & Hd & Hf & HM & HD & H4 & HF & HFM & Hl & H2 & H0 & HQ).
  destruct (smooth_exact Wrap five (ivl (-5)) (ivl 5) g 16384 (5 / 2) Hb Hd Hf quart quart1 _ _ _ _ _ HD H4 HF HFM _ _ H2)
    as (gR & lR & schedR & HbR & HlR & LR & H2R & HZ & _).
  exists g, gR, schedR, l, lR. eexists. eexists. split; [exact Hb|]. split; [exact HbR|]. split; [exact Hd|]. split; [exact Hf|]. split; [exact HM|].
  split; [exact Hl|]. split; [exact HlR|]. split; [exact LR|]. split; [exact H2|]. split; [exact H2R|]. split; [exact H0|]. split; [exact HZ|exact HQ].
Qed.

(** C127: in one dimension, N steps in double starting from samples of f (and its derivative) correct to rounding error.
    With M4 a bound of the fourth derivative, L the length of the box and h the spacing, after a total displacement D the stored
    doubles are finite and within M4 L^2 h^2 / 22 + 6 q e of f (x - D) at the nodes the ghost layers have not
    reached, and the stored slopes within 3/8 M4 L^2 h + 47 q e / h of f' (x - D), where
    q = (N+1)^2 sqrt(n+1) and e is the rounding error of one interpolation. *)
Theorem C127_loop_total ov n bmin bmax (g : grid b64) M rho f f1 f2 f3 f4 M4 F sched ds l :
  built ov 1 n 1 bmin bmax g -> interp_defined ov 1 -> fine_box 1 rho n bmin bmax -> moderate M ->
  let h := spacing64 (vx bmin) (vx bmax) (vx n) in
  let lo := real (vx bmin) - h / 2 in let hi := real (vx bmax) + h / 2 in
  let L := real (vx bmax) - real (vx bmin) in
  let X i := real (vx bmin) + (IZR i + / 2) * h in let e := round_bound 1 rho * M in
  derivs lo hi f [f1; f2; f3; f4] ->
  (forall t, lo <= t <= hi -> Rabs (f4 t) <= M4) ->
  (forall t, lo <= t <= hi -> Rabs (f t) <= F /\ Rabs (f1 t) * h <= F) ->
  F + 3 / 8 * M4 * L ^ 2 * h ^ 2 <= M / 2 ->
  levelset_on g l -> Forall2 (moves64 ov n bmin bmax g) sched ds ->
  near_line64 ov g l (fun i => f (X i)) (fun i => f1 (X i)) (-1) (vx n) e (8 * (e / h)) ->
  let N := length sched in let q := (INR N + 1) ^ 2 * sqrt (IZR (vx n + 1)) in let D := fold_right Rplus 0 ds in
  47 * q * round_bound 1 rho <= / 2 ->
  exists l', sl_steps ov g sched l = Ok l' /\
    near_line64 ov g l' (fun i => f (X i - D)) (fun i => f1 (X i - D)) (Z.of_nat N - 1) (vx n - Z.of_nat N)
      (M4 * L ^ 2 * h ^ 2 / 22 + 6 * q * e) (3 / 8 * M4 * L ^ 2 * h + 47 * q * (e / h)).
Proof. exact (fun Hb Hd Hf HM HD H4 HF HFM => run_total ov n bmin bmax g M rho Hb Hd Hf HM f f1 f2 f3 f4 M4 F HD H4 HF HFM sched ds l). Qed.
Print Assumptions C127_loop_total.

Example C127_case : exists (g : grid b64) (l : levelset b64),
  built Wrap 1 five 1 (ivl (-5)) (ivl 5) g /\ interp_defined Wrap 1 /\ fine_box 1 (5 / 2) five (ivl (-5)) (ivl 5) /\ moderate 16384 /\
  let h := spacing64 (vx (ivl (-5))) (vx (ivl 5)) 5 in
  let lo := real (vx (ivl (-5))) - h / 2 in let hi := real (vx (ivl 5)) + h / 2 in
  let L := real (vx (ivl 5)) - real (vx (ivl (-5))) in
  let X i := real (vx (ivl (-5))) + (IZR i + / 2) * h in let e := round_bound 1 (5 / 2) * 16384 in
  derivs lo hi quart [quart1; fun t => 12 * t ^ 2; fun t => 24 * t; fun _ => 24] /\
  (forall t, lo <= t <= hi -> Rabs 24 <= 24) /\
  (forall t, lo <= t <= hi -> Rabs (quart t) <= 1728 /\ Rabs (quart1 t) * h <= 1728) /\
  1728 + 3 / 8 * 24 * L ^ 2 * h ^ 2 <= 16384 / 2 /\
  levelset_on g l /\ Forall2 (moves64 Wrap five (ivl (-5)) (ivl 5) g) (sched3 g) [/ 2; - / 4; 1] /\
  near_line64 Wrap g l (fun i => quart (X i)) (fun i => quart1 (X i)) (-1) 5 e (8 * (e / h)) /\
  47 * ((INR (length (sched3 g)) + 1) ^ 2 * sqrt (IZR (5 + 1))) * round_bound 1 (5 / 2) <= / 2.
Proof. exact quart_case. Qed.
