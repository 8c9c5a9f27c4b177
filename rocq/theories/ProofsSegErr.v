(** Pointwise error of the cubic segment of a smooth function (the proofs of ProofsHermiteErr, keeping the
    dependence on the position in the segment). *)
From Coq Require Import List Reals Lra.
From Coquelicot Require Import Coquelicot.
From Verif Require Import Base Num ModelVec ModelGrid ModelArray ModelInterp SpecGrid SpecInterp SpecGradient SpecStability
  ProofsHermite ProofsHermiteCell ProofsHermiteErr ProofsRunLine ProofsEnergy.
Open Scope R_scope.

Section Segment.
Variables (f d1 d2 d3 d4 : R -> R) (a h M : R).
Hypothesis Hh : 0 < h.
Hypothesis D : derivs a (a + h) f [d1; d2; d3; d4].
Hypothesis HM : forall t, a <= t <= a + h -> Rabs (d4 t) <= M.

(** the interpolant *)
Let k2 := (3 * (f (a + h) - f a) - h * (2 * d1 a + d1 (a + h))) / h ^ 2.
Let k3 := (2 * (f a - f (a + h)) + h * (d1 a + d1 (a + h))) / h ^ 3.
Lemma herm_q0 e : Hw (wts false e) (f a) (d1 a) (f (a + h)) (d1 (a + h)) h = q0 (f a) (d1 a) k2 k3 0 (e * h).
Proof. unfold_bern. unfold q0, k2, k3. field. lra. Qed.
Lemma herm_q1 e : Hw (wts true e) (f a) (d1 a) (f (a + h)) (d1 (a + h)) h / h = q1 (d1 a) k2 k3 0 (e * h).
Proof. unfold_bern. unfold q1, k2, k3. field. lra. Qed.
Lemma ends0 c : f a - q0 (f a) (d1 a) (k2 + c * h ^ 2) (k3 - 2 * h * c) c 0 = 0.
Proof. unfold q0. ring. Qed.
Lemma ends1 c : f (a + h) - q0 (f a) (d1 a) (k2 + c * h ^ 2) (k3 - 2 * h * c) c h = 0.
Proof. unfold q0, k2, k3. field. lra. Qed.
Lemma ends2 c : d1 a - q1 (d1 a) (k2 + c * h ^ 2) (k3 - 2 * h * c) c 0 = 0.
Proof. unfold q1. ring. Qed.
Lemma ends3 c : d1 (a + h) - q1 (d1 a) (k2 + c * h ^ 2) (k3 - 2 * h * c) c h = 0.
Proof. unfold q1, k2, k3. field. lra. Qed.

Lemma M_nonneg : 0 <= M.
Proof. eapply Rle_trans; [apply Rabs_pos|]. apply (HM a). lra. Qed.

Lemma value_at e : 0 <= e <= 1 -> Rabs (Hw (wts false e) (f a) (d1 a) (f (a + h)) (d1 (a + h)) h - f (a + e * h)) <= M / 24 * ((e * h) ^ 2 * (h - e * h) ^ 2).
Proof.
  intros He. rewrite herm_q0. pose proof M_nonneg as M0.
  assert (Pos : 0 <= M / 24 * ((e * h) ^ 2 * (h - e * h) ^ 2)) by (apply Rmult_le_pos; [lra|]; apply Rmult_le_pos; apply pow2_ge_0).
  destruct (Req_dec e 0) as [E0|N0].
  { eapply Rle_trans; [|exact Pos]. rewrite E0. replace (a + 0 * h) with a by ring. replace (q0 (f a) (d1 a) k2 k3 0 (0 * h) - f a) with 0 by (unfold q0; ring). rewrite Rabs_R0. apply Rle_refl. }
  destruct (Req_dec e 1) as [E1|N1].
  { eapply Rle_trans; [|exact Pos]. rewrite E1. pose proof (ends1 0) as E. replace (1 * h) with h by ring. replace (q0 (f a) (d1 a) k2 k3 0 h - f (a + h)) with 0.
    - rewrite Rabs_R0. apply Rle_refl.
    - replace (k2 + 0 * h ^ 2) with k2 in E by ring. replace (k3 - 2 * h * 0) with k3 in E by ring. lra. }
  set (s := e * h). assert (S1 : 0 < s) by (apply Rmult_lt_0_compat; lra).
  assert (S2 : s < h) by (unfold s; replace h with (1 * h) at 2 by ring; apply Rmult_lt_compat_r; lra).
  set (w := s ^ 2 * (h - s) ^ 2). assert (W : 0 < w) by (apply Rmult_lt_0_compat; apply pow_lt; lra).
  set (c := (f (a + s) - q0 (f a) (d1 a) k2 k3 0 s) / w).
  assert (E : f (a + s) - q0 (f a) (d1 a) k2 k3 0 s = c * w) by (unfold c; field; lra).
  set (p2 := k2 + c * h ^ 2). set (p3 := k3 - 2 * h * c).
  assert (Z : f (a + s) - q0 (f a) (d1 a) p2 p3 c s = 0) by (unfold p2, p3, w in *; unfold q0 in *; lra).
  assert (R1 : exists u, a < u < a + s /\ d1 u - q1 (d1 a) p2 p3 c (u - a) = 0).
  { apply (rolle (fun t => f t - q0 (f a) (d1 a) p2 p3 c (t - a))); [lra| | |].
    - intros t Ht. apply (g0 f d1 d2 d3 d4 a (a + h) D). lra.
    - replace (a - a) with 0 by ring. apply ends0.
    - replace (a + s - a) with s by ring. exact Z. }
  assert (R2 : exists u, a + s < u < a + h /\ d1 u - q1 (d1 a) p2 p3 c (u - a) = 0).
  { apply (rolle (fun t => f t - q0 (f a) (d1 a) p2 p3 c (t - a))); [lra| | |].
    - intros t Ht. apply (g0 f d1 d2 d3 d4 a (a + h) D). lra.
    - replace (a + s - a) with s by ring. exact Z.
    - replace (a + h - a) with h by ring. apply ends1. }
  destruct R1 as (u1 & U1 & V1). destruct R2 as (u2 & U2 & V2).
  destruct (four_zeros f d1 d2 d3 d4 a (a + h) D (d1 a) p2 p3 c a u1 u2 (a + h)) as (u & U & V); try lra.
  { replace (a - a) with 0 by ring. apply ends2. }
  { replace (a + h - a) with h by ring. apply ends3. }
  specialize (HM u U). rewrite V in HM.
  replace (q0 (f a) (d1 a) k2 k3 0 s - f (a + s)) with (- (c * w)) by lra.
  rewrite Rabs_Ropp, Rabs_mult, (Rabs_pos_eq w) by lra. rewrite Rabs_mult, (Rabs_pos_eq 24) in HM by lra.
  fold s. fold w. apply Rmult_le_compat_r; lra.
Qed.

Lemma slope_at e : 0 <= e <= 1 -> Rabs (Hw (wts true e) (f a) (d1 a) (f (a + h)) (d1 (a + h)) h / h - d1 (a + e * h)) <= M / 6 * (e * h * (h - e * h) * h).
Proof.
  intros He. rewrite herm_q1. pose proof M_nonneg as M0.
  assert (SS : 0 <= e * h <= h) by (split; [apply Rmult_le_pos; lra|]; replace h with (1 * h) at 2 by ring; apply Rmult_le_compat_r; lra).
  assert (Pos : 0 <= M / 6 * (e * h * (h - e * h) * h)) by (apply Rmult_le_pos; [lra|]; apply Rmult_le_pos; [apply Rmult_le_pos; lra|lra]).
  assert (C2 : k2 + 0 * h ^ 2 = k2) by ring. assert (C3 : k3 - 2 * h * 0 = k3) by ring.
  pose proof (ends0 0) as E0. pose proof (ends1 0) as E1. pose proof (ends2 0) as E2. pose proof (ends3 0) as E3. rewrite C2, C3 in E0, E1, E2, E3.
  assert (R1 : exists m, a < m < a + h /\ d1 m - q1 (d1 a) k2 k3 0 (m - a) = 0).
  { apply (rolle (fun t => f t - q0 (f a) (d1 a) k2 k3 0 (t - a))); [lra| | |].
    - intros t Ht. apply (g0 f d1 d2 d3 d4 a (a + h) D). lra.
    - replace (a - a) with 0 by ring. exact E0.
    - replace (a + h - a) with h by ring. exact E1. }
  destruct R1 as (m & Hm & Zm). set (s := e * h).
  assert (S : 0 <= s <= h).
  { unfold s. split; [apply Rmult_le_pos; lra|]. replace h with (1 * h) at 2 by ring. apply Rmult_le_compat_r; lra. }
  destruct (Req_dec s 0) as [Es|N0].
  { eapply Rle_trans; [|exact Pos]. rewrite Es. replace (a + 0) with a by ring. replace (q1 (d1 a) k2 k3 0 0 - d1 a) with 0 by lra. rewrite Rabs_R0. apply Rle_refl. }
  destruct (Req_dec s h) as [Es|N1].
  { eapply Rle_trans; [|exact Pos]. rewrite Es. replace (q1 (d1 a) k2 k3 0 h - d1 (a + h)) with 0 by lra. rewrite Rabs_R0. apply Rle_refl. }
  destruct (Req_dec s (m - a)) as [Es|N2].
  { eapply Rle_trans; [|exact Pos]. rewrite Es. replace (a + (m - a)) with m by ring. replace (q1 (d1 a) k2 k3 0 (m - a) - d1 m) with 0 by lra. rewrite Rabs_R0. apply Rle_refl. }
  set (v := m - a) in *.
  set (w := s * (s - h) * (s - v)).
  assert (W : w <> 0). { unfold w. apply Rmult_integral_contrapositive_currified; [apply Rmult_integral_contrapositive_currified|]; lra. }
  set (c := (d1 (a + s) - q1 (d1 a) k2 k3 0 s) / (4 * w)).
  assert (E : d1 (a + s) - q1 (d1 a) k2 k3 0 s = 4 * c * w) by (unfold c; field; exact W).
  (* 4 c t (t - h) (t - v) = 4 c (t^3 - (h + v) t^2 + h v t) *)
  set (p2 := k2 + 2 * c * h * v). set (p3 := k3 - 4 / 3 * c * (h + v)).
  assert (Id : forall r, q1 (d1 a) p2 p3 c r = q1 (d1 a) k2 k3 0 r + 4 * c * (r * (r - h) * (r - v))) by (intros r; unfold q1, p2, p3; field).
  assert (Z0 : d1 a - q1 (d1 a) p2 p3 c (a - a) = 0) by (rewrite Id; replace (a - a) with 0 by ring; lra).
  assert (Z1 : d1 (a + h) - q1 (d1 a) p2 p3 c (a + h - a) = 0) by (rewrite Id; replace (a + h - a) with h by ring; lra).
  assert (Z2 : d1 m - q1 (d1 a) p2 p3 c (m - a) = 0) by (rewrite Id; fold v in Zm |- *; lra).
  assert (Z3 : d1 (a + s) - q1 (d1 a) p2 p3 c (a + s - a) = 0) by (rewrite Id; replace (a + s - a) with s by ring; fold w; lra).
  assert (F : exists u, a <= u <= a + h /\ d4 u = 24 * c).
  { destruct (Rlt_or_le s v) as [L|L].
    - apply (four_zeros f d1 d2 d3 d4 a (a + h) D (d1 a) p2 p3 c a (a + s) m (a + h)); unfold v in *; lra.
    - apply (four_zeros f d1 d2 d3 d4 a (a + h) D (d1 a) p2 p3 c a m (a + s) (a + h)); unfold v in *; lra. }
  destruct F as (u & U & V). specialize (HM u U). rewrite V, Rabs_mult, (Rabs_pos_eq 24) in HM by lra.
  replace (q1 (d1 a) k2 k3 0 s - d1 (a + s)) with (- (4 * c * w)) by lra. rewrite Rabs_Ropp, Rabs_mult, Rabs_mult, (Rabs_pos_eq 4) by lra.
  fold s. fold s in SS, Pos. assert (Ww : Rabs w <= s * (h - s) * h).
  { unfold w. rewrite Rabs_mult. apply Rmult_le_compat; [apply Rabs_pos|apply Rabs_pos| |].
    - rewrite Rabs_mult, (Rabs_pos_eq s), (Rabs_left1 (s - h)) by lra. right. ring.
    - apply Rabs_le. unfold v. lra. }
  apply Rle_trans with (4 * (M / 24) * (s * (h - s) * h)); [|right; field].
  apply Rmult_le_compat; [|apply Rabs_pos| |exact Ww].
  - apply Rmult_le_pos; [lra|apply Rabs_pos].
  - lra.
Qed.

Lemma seg_value s : 0 <= s <= h -> Rabs (seg (f a) (d1 a) (f (a + h)) (d1 (a + h)) h s - f (a + s)) <= M / 24 * (s ^ 2 * (h - s) ^ 2).
Proof.
  intros Hs. assert (E : s = s / h * h) by (field; lra).
  assert (0 <= s / h <= 1).
  { split; [apply Rmult_le_pos; [lra|left; apply Rinv_0_lt_compat; lra]|]. apply (Rmult_le_reg_r h); [lra|]. rewrite <- E. lra. }
  pose proof (value_at (s / h) H) as K. rewrite Hw_seg in K by lra. rewrite <- E in K. exact K.
Qed.
Lemma seg_slope_at s : 0 <= s <= h -> Rabs (seg' (f a) (d1 a) (f (a + h)) (d1 (a + h)) h s - d1 (a + s)) <= M / 6 * (s * (h - s) * h).
Proof.
  intros Hs. assert (E : s = s / h * h) by (field; lra).
  assert (0 <= s / h <= 1).
  { split; [apply Rmult_le_pos; [lra|left; apply Rinv_0_lt_compat; lra]|]. apply (Rmult_le_reg_r h); [lra|]. rewrite <- E. lra. }
  pose proof (slope_at (s / h) H) as K. unfold Rdiv in K at 1. rewrite Hw_seg' in K by lra. rewrite <- E in K. exact K.
Qed.
End Segment.

(** the perturbation a smooth field adds to a step, in energy *)
Lemma pert_energy h M u ro si : 0 < u < h -> 0 <= M -> Rabs ro <= M / 24 * (u ^ 2 * (h - u) ^ 2) -> Rabs si <= M / 6 * (u * (h - u) * h) ->
  bend 0 0 ro si u + bend ro si 0 0 (h - u) <= M ^ 2 * h ^ 5 / 18.
Proof.
  intros Hu HM Hr Hs. set (v := h - u) in *. assert (Hv : 0 < v) by (unfold v; lra). assert (Eh : h = u + v) by (unfold v; ring). clearbody v.
  assert (K : forall w z, 0 < w -> 0 < z -> w + z = h -> Rabs ro <= M / 24 * (w ^ 2 * z ^ 2) -> Rabs si <= M / 6 * (w * z * h) ->
     forall x, Rabs x <= Rabs (ro / w) + Rabs (si / 2) -> (12 * x ^ 2 + si ^ 2) / w <= 31 / 144 * M ^ 2 * (w * z ^ 2 * h ^ 2)).
  { intros w z Hw Hz E R1 R2 x Hx.
    assert (A : Rabs (ro / w) <= M / 24 * (w * z * h)).
    { unfold Rdiv at 1. rewrite Rabs_mult, (Rabs_pos_eq (/ w)) by (left; apply Rinv_0_lt_compat; exact Hw).
      apply (Rmult_le_reg_r w); [exact Hw|]. rewrite Rmult_assoc, Rinv_l, Rmult_1_r by lra. eapply Rle_trans; [exact R1|].
      replace (M / 24 * (w * z * h) * w) with (M / 24 * (w ^ 2 * z * h)) by ring. apply Rmult_le_compat_l; [lra|].
      replace (w ^ 2 * z ^ 2) with (w ^ 2 * z * z) by ring. apply Rmult_le_compat_l; [|lra]. apply Rmult_le_pos; [apply pow2_ge_0|lra]. }
    assert (B : Rabs (si / 2) <= M / 12 * (w * z * h)).
    { unfold Rdiv at 1. rewrite Rabs_mult, (Rabs_pos_eq (/ 2)) by lra. lra. }
    assert (C : Rabs x <= M / 8 * (w * z * h)) by lra.
    assert (P : 0 <= w * z * h) by (apply Rmult_le_pos; [apply Rmult_le_pos; lra|lra]).
    assert (X2 : x ^ 2 <= (M / 8 * (w * z * h)) ^ 2) by (rewrite <- (pow2_abs x); apply pow_incr; split; [apply Rabs_pos|exact C]).
    assert (S2 : si ^ 2 <= (M / 6 * (w * z * h)) ^ 2) by (rewrite <- (pow2_abs si); apply pow_incr; split; [apply Rabs_pos|exact R2]).
    apply (Rmult_le_reg_r w); [exact Hw|]. unfold Rdiv at 1. rewrite Rmult_assoc, Rinv_l, Rmult_1_r by lra.
    replace (31 / 144 * M ^ 2 * (w * z ^ 2 * h ^ 2) * w) with (12 * (M / 8 * (w * z * h)) ^ 2 + (M / 6 * (w * z * h)) ^ 2) by field. lra. }
  pose proof (K u v ltac:(lra) Hv ltac:(lra) Hr Hs ((ro - 0) / u - (0 + si) / 2)) as K1.
  pose proof (K v u Hv ltac:(lra) ltac:(lra)) as K2.
  replace (v ^ 2 * u ^ 2) with (u ^ 2 * v ^ 2) in K2 by ring. replace (v * u * h) with (u * v * h) in K2 by ring.
  specialize (K2 Hr Hs ((0 - ro) / v - (si + 0) / 2)).
  unfold bend.
  replace ((si - 0) ^ 2) with (si ^ 2) by ring. replace ((0 - si) ^ 2) with (si ^ 2) by ring.
  assert (T1 : Rabs ((ro - 0) / u - (0 + si) / 2) <= Rabs (ro / u) + Rabs (si / 2)).
  { replace ((ro - 0) / u - (0 + si) / 2) with (ro / u + - (si / 2)) by (field; lra). eapply Rle_trans; [apply Rabs_triang|]. rewrite Rabs_Ropp. lra. }
  assert (T2 : Rabs ((0 - ro) / v - (si + 0) / 2) <= Rabs (ro / v) + Rabs (si / 2)).
  { replace ((0 - ro) / v - (si + 0) / 2) with (- (ro / v) + - (si / 2)) by (field; lra). eapply Rle_trans; [apply Rabs_triang|]. rewrite !Rabs_Ropp. lra. }
  specialize (K1 T1). specialize (K2 T2).
  assert (G : 31 / 144 * M ^ 2 * (u * v ^ 2 * h ^ 2) + 31 / 144 * M ^ 2 * (v * u ^ 2 * h ^ 2) <= M ^ 2 * h ^ 5 / 18).
  { replace (31 / 144 * M ^ 2 * (u * v ^ 2 * h ^ 2) + 31 / 144 * M ^ 2 * (v * u ^ 2 * h ^ 2)) with (M ^ 2 * (31 / 144 * (u * v) * h ^ 3)) by (rewrite Eh; ring).
    replace (M ^ 2 * h ^ 5 / 18) with (M ^ 2 * (h ^ 2 / 18 * h ^ 3)) by field. apply Rmult_le_compat_l; [apply pow2_ge_0|].
    apply Rmult_le_compat_r; [apply pow_le; lra|].
    assert (u * v <= h ^ 2 / 4). { apply Rminus_le. replace (u * v - h ^ 2 / 4) with (- (u - v) ^ 2 / 4) by (rewrite Eh; field). pose proof (pow2_ge_0 (u - v)). lra. }
    pose proof (pow2_ge_0 h). lra. }
  lra.
Qed.
