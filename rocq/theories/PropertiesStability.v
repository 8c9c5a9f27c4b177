(** Stability and convergence of the 1-D loop: C119, C120. *)
From Coq Require Import ZArith List Reals.
From Coquelicot Require Import Coquelicot.
From Verif Require Import Base Num ModelVec ModelGrid ModelArray ModelInterp ModelTemporal ModelRun SpecGrid SpecInterp SpecTemporal SpecRun SpecGradient SpecStability
  ProofsInterpApi ProofsStability ProofsConvergeRun.
Import ListNotations.
Open Scope R_scope.

(** The functional of SpecStability is what it is called: [seg] is the cubic with the given end values and
    slopes, and [bend] the integral of the square of its second derivative. *)
Theorem C119_energy_is_integral : forall p0 s0 p1 s1 h, 0 < h ->
  seg p0 s0 p1 s1 h 0 = p0 /\ seg p0 s0 p1 s1 h h = p1 /\ seg' p0 s0 p1 s1 h 0 = s0 /\ seg' p0 s0 p1 s1 h h = s1 /\
  (forall t, derivable_pt_lim (seg p0 s0 p1 s1 h) t (seg' p0 s0 p1 s1 h t) /\ derivable_pt_lim (seg' p0 s0 p1 s1 h) t (seg'' p0 s0 p1 s1 h t)) /\
  is_RInt (fun t => seg'' p0 s0 p1 s1 h t ^ 2) 0 h (bend p0 s0 p1 s1 h).
Proof. exact energy_is_integral. Qed.
Print Assumptions C119_energy_is_integral.

(** *** C119: the loop is stable in 1-D *)
Theorem C119_stability : forall ov n bmin bmax (g : grid R),
  built ov 1 n 1 bmin bmax g -> proper_box 1 bmin bmax -> interp_defined ov 1 ->
  let h := spacing (vx bmin) (vx bmax) (vx n) in
  forall sched ds l P S, levelset_on g l -> line ov (vx n) g l P S ->
  Forall2 (moves_by ov n g) sched ds -> Forall (within_a_cell 1 n bmin bmax) ds ->
  exists l' P' S', sl_steps ov g sched l = Ok l' /\ line ov (vx n) g l' P' S' /\
    (forall a k, let N := length sched in (-1 <= a - Z.of_nat N)%Z -> (a + Z.of_nat k + Z.of_nat N <= vx n)%Z ->
      energy P' S' h a k <= energy P S h (a - Z.of_nat N) (k + 2 * N) /\
      (S' (a + Z.of_nat k)%Z - S' a) ^ 2 <= INR k * h * energy P S h (a - Z.of_nat N) (k + 2 * N)).
Proof. exact steps_slopes. Qed.
Print Assumptions C119_stability.
Example C119_example : forall P S : Z -> R, exists g l lv,
  built Wrap 1 (V3 5 1 1)%Z 1 lo1 hi1 g /\ proper_box 1 lo1 hi1 /\ interp_defined Wrap 1 /\ levelset_on g l /\
  line Wrap 5 g l P S /\
  let sched := [(1 / 7, lv); (- 1 / 9, lv)] in let ds := [V3 (1 / 7 * 2) (1 / 7 * 0) (1 / 7 * 0); V3 (- 1 / 9 * 2) (- 1 / 9 * 0) (- 1 / 9 * 0)] in
  Forall2 (moves_by Wrap (V3 5 1 1)%Z g) sched ds /\ Forall (within_a_cell 1 (V3 5 1 1)%Z lo1 hi1) ds /\
  (-1 <= 1 - Z.of_nat (length sched))%Z /\ (1 + Z.of_nat 2 + Z.of_nat (length sched) <= 5)%Z.
Proof. exact c119_case. Qed.

(** *** C120: the loop converges in 1-D *)
Theorem C120_convergence : forall ov n bmin bmax (g : grid R),
  built ov 1 n 1 bmin bmax g -> proper_box 1 bmin bmax -> interp_defined ov 1 ->
  let h := spacing (vx bmin) (vx bmax) (vx n) in
  forall f f1 f2 f3 f4 M, derivs (vx bmin - h / 2) (vx bmax + h / 2) f [f1; f2; f3; f4] ->
  (forall t, vx bmin - h / 2 <= t <= vx bmax + h / 2 -> Rabs (f4 t) <= M) ->
  forall sched ds l, levelset_on g l -> samples_line ov (vx n) g l f f1 ->
  Forall2 (moves_by ov n g) sched ds -> Forall (within_a_cell 1 n bmin bmax) ds ->
  exists l', sl_steps ov g sched l = Ok l' /\
    let N := length sched in let L := vx bmax - vx bmin in
    near_line ov g l' f f1 (vx (vtotal ds)) (Z.of_nat N - 1) (vx n - Z.of_nat N) (M * L ^ 2 * h ^ 2 / 22) (3 / 8 * M * L ^ 2 * h).
Proof. exact steps_converge. Qed.
Print Assumptions C120_convergence.

(** the same with the dependence on the number of steps *)
Theorem C120_error : forall ov n bmin bmax (g : grid R),
  built ov 1 n 1 bmin bmax g -> proper_box 1 bmin bmax -> interp_defined ov 1 ->
  let h := spacing (vx bmin) (vx bmax) (vx n) in
  forall f f1 f2 f3 f4 M, derivs (vx bmin - h / 2) (vx bmax + h / 2) f [f1; f2; f3; f4] ->
  (forall t, vx bmin - h / 2 <= t <= vx bmax + h / 2 -> Rabs (f4 t) <= M) ->
  forall sched ds l, levelset_on g l -> samples_line ov (vx n) g l f f1 ->
  Forall2 (moves_by ov n g) sched ds -> Forall (within_a_cell 1 n bmin bmax) ds ->
  exists l', sl_steps ov g sched l = Ok l' /\
    let N := length sched in let q := sqrt (INR N * IZR (vx n + 1) / 18) in
    near_line ov g l' f f1 (vx (vtotal ds)) (Z.of_nat N - 1) (vx n - Z.of_nat N)
      (INR N * (h ^ 4 * M * (/ 384 + q / 8))) (INR N * (h ^ 3 * M * (/ 24 + q))).
Proof. exact steps_error. Qed.
Print Assumptions C120_error.
Example C120_example : exists g l lv,
  built Wrap 1 (V3 5 1 1)%Z 1 lo1 hi1 g /\ proper_box 1 lo1 hi1 /\ interp_defined Wrap 1 /\ levelset_on g l /\
  (let h := spacing (vx lo1) (vx hi1) 5 in
   derivs (vx lo1 - h / 2) (vx hi1 + h / 2) sin [cos; fun t => - sin t; fun t => - cos t; sin] /\
   forall t, vx lo1 - h / 2 <= t <= vx hi1 + h / 2 -> Rabs (sin t) <= 1) /\
  samples_line Wrap 5 g l sin cos /\
  let sched := [(1 / 7, lv); (- 1 / 9, lv); (1 / 5, lv)] in
  let ds := [V3 (1 / 7 * 2) (1 / 7 * 0) (1 / 7 * 0); V3 (- 1 / 9 * 2) (- 1 / 9 * 0) (- 1 / 9 * 0); V3 (1 / 5 * 2) (1 / 5 * 0) (1 / 5 * 0)] in
  Forall2 (moves_by Wrap (V3 5 1 1)%Z g) sched ds /\ Forall (within_a_cell 1 (V3 5 1 1)%Z lo1 hi1) ds /\
  (Z.of_nat (length sched) - 1 <= 2 <= 5 - Z.of_nat (length sched))%Z.
Proof. exact c120_case. Qed.
