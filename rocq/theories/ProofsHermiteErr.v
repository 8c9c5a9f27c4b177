(** The error of the cubic Hermite interpolant of a smooth function on one segment. *)
From Coq Require Import List Reals Lra.
From Coquelicot Require Import Coquelicot.
From Verif Require Import Base Num ModelVec ModelGrid ModelArray ModelInterp SpecGrid SpecInterp SpecGradient ProofsHermite ProofsHermiteCell.
Open Scope R_scope.

Lemma rolle f f' a b : a < b -> (forall t, a <= t <= b -> derivable_pt_lim f t (f' t)) -> f a = 0 -> f b = 0 ->
  exists c, a < c < b /\ f' c = 0.
Proof.
  intros Hab D Fa Fb. destruct (MVT_cor2 f f' a b Hab D) as (c & E & Hc). exists c. split; [exact Hc|].
  rewrite Fa, Fb in E. assert (f' c * (b - a) = 0) by lra. apply Rmult_integral in H. lra.
Qed.

(** a polynomial of degree 4 and its derivatives, in t - a *)
Definition q0 (c0 c1 c2 c3 c4 s : R) := c0 + c1 * s + c2 * s ^ 2 + c3 * s ^ 3 + c4 * s ^ 4.
Definition q1 (c1 c2 c3 c4 s : R) := c1 + 2 * c2 * s + 3 * c3 * s ^ 2 + 4 * c4 * s ^ 3.
Definition q2 (c2 c3 c4 s : R) := 2 * c2 + 6 * c3 * s + 12 * c4 * s ^ 2.
Definition q3 (c3 c4 s : R) := 6 * c3 + 24 * c4 * s.
Lemma minus_derive f g f' g' t : derivable_pt_lim f t f' -> is_derive g t g' -> derivable_pt_lim (fun t => f t - g t) t (f' - g').
Proof. intros Hf Hg. apply (derivable_pt_lim_minus f g); [exact Hf|]. apply is_derive_Reals. exact Hg. Qed.

Section Chain.
Variables (f d1 d2 d3 d4 : R -> R) (a b : R).
Hypothesis D : derivs a b f [d1; d2; d3; d4].
Variables c0 c1 c2 c3 c4 : R.
Lemma g0 t : a <= t <= b -> derivable_pt_lim (fun t => f t - q0 c0 c1 c2 c3 c4 (t - a)) t (d1 t - q1 c1 c2 c3 c4 (t - a)).
Proof. intros Ht. apply minus_derive; [apply D; exact Ht|]. unfold q0, q1. auto_derive; [auto|ring]. Qed.
Lemma g1 t : a <= t <= b -> derivable_pt_lim (fun t => d1 t - q1 c1 c2 c3 c4 (t - a)) t (d2 t - q2 c2 c3 c4 (t - a)).
Proof. intros Ht. apply minus_derive; [apply D; exact Ht|]. unfold q1, q2. auto_derive; [auto|ring]. Qed.
Lemma g2 t : a <= t <= b -> derivable_pt_lim (fun t => d2 t - q2 c2 c3 c4 (t - a)) t (d3 t - q3 c3 c4 (t - a)).
Proof. intros Ht. apply minus_derive; [apply D; exact Ht|]. unfold q2, q3. auto_derive; [auto|ring]. Qed.
Lemma g3 t : a <= t <= b -> derivable_pt_lim (fun t => d3 t - q3 c3 c4 (t - a)) t (d4 t - 24 * c4).
Proof. intros Ht. apply minus_derive; [apply D; exact Ht|]. unfold q3. auto_derive; [auto|ring]. Qed.

(** four zeros of the first derivative *)
Lemma four_zeros x0 x1 x2 x3 : a <= x0 -> x0 < x1 -> x1 < x2 -> x2 < x3 -> x3 <= b ->
  d1 x0 - q1 c1 c2 c3 c4 (x0 - a) = 0 -> d1 x1 - q1 c1 c2 c3 c4 (x1 - a) = 0 ->
  d1 x2 - q1 c1 c2 c3 c4 (x2 - a) = 0 -> d1 x3 - q1 c1 c2 c3 c4 (x3 - a) = 0 ->
  exists u, a <= u <= b /\ d4 u = 24 * c4.
Proof.
  intros A B C E F Z0 Z1 Z2 Z3.
  destruct (rolle _ _ x0 x1 B (fun t Ht => g1 t ltac:(lra)) Z0 Z1) as (y0 & Y0 & W0).
  destruct (rolle _ _ x1 x2 C (fun t Ht => g1 t ltac:(lra)) Z1 Z2) as (y1 & Y1 & W1).
  destruct (rolle _ _ x2 x3 E (fun t Ht => g1 t ltac:(lra)) Z2 Z3) as (y2 & Y2 & W2).
  destruct (rolle _ _ y0 y1 ltac:(lra) (fun t Ht => g2 t ltac:(lra)) W0 W1) as (z0 & V0 & U0).
  destruct (rolle _ _ y1 y2 ltac:(lra) (fun t Ht => g2 t ltac:(lra)) W1 W2) as (z1 & V1 & U1).
  destruct (rolle _ _ z0 z1 ltac:(lra) (fun t Ht => g3 t ltac:(lra)) U0 U1) as (u & V & U).
  exists u. split; lra.
Qed.
End Chain.

Section Segment.
Variables (f d1 d2 d3 d4 : R -> R) (a h M : R).
Hypothesis Hh : 0 < h.
Hypothesis D : derivs a (a + h) f [d1; d2; d3; d4].
Hypothesis HM : forall t, a <= t <= a + h -> Rabs (d4 t) <= M.

(** the interpolant *)
Let k2 := (3 * (f (a + h) - f a) - h * (2 * d1 a + d1 (a + h))) / h ^ 2.
Let k3 := (2 * (f a - f (a + h)) + h * (d1 a + d1 (a + h))) / h ^ 3.
Lemma herm_q0 e : Hw (wts false e) (f a) (d1 a) (f (a + h)) (d1 (a + h)) h = q0 (f a) (d1 a) k2 k3 0 (e * h).
Proof. unfold_bern. unfold q0, k2, k3. field. lra. Qed.
Lemma herm_q1 e : Hw (wts true e) (f a) (d1 a) (f (a + h)) (d1 (a + h)) h / h = q1 (d1 a) k2 k3 0 (e * h).
Proof. unfold_bern. unfold q1, k2, k3. field. lra. Qed.
Lemma ends0 c : f a - q0 (f a) (d1 a) (k2 + c * h ^ 2) (k3 - 2 * h * c) c 0 = 0.
Proof. unfold q0. ring. Qed.
Lemma ends1 c : f (a + h) - q0 (f a) (d1 a) (k2 + c * h ^ 2) (k3 - 2 * h * c) c h = 0.
Proof. unfold q0, k2, k3. field. lra. Qed.
Lemma ends2 c : d1 a - q1 (d1 a) (k2 + c * h ^ 2) (k3 - 2 * h * c) c 0 = 0.
Proof. unfold q1. ring. Qed.
Lemma ends3 c : d1 (a + h) - q1 (d1 a) (k2 + c * h ^ 2) (k3 - 2 * h * c) c h = 0.
Proof. unfold q1, k2, k3. field. lra. Qed.

Lemma M_nonneg : 0 <= M.
Proof. eapply Rle_trans; [apply Rabs_pos|]. apply (HM a). lra. Qed.

Lemma value_err e : 0 <= e <= 1 -> Rabs (Hw (wts false e) (f a) (d1 a) (f (a + h)) (d1 (a + h)) h - f (a + e * h)) <= h ^ 4 / 384 * M.
Proof.
  intros He. rewrite herm_q0. pose proof M_nonneg as M0.
  assert (Pos : 0 <= h ^ 4 / 384 * M) by (apply Rmult_le_pos; [|exact M0]; assert (0 < h ^ 4) by (apply pow_lt; exact Hh); lra).
  destruct (Req_dec e 0) as [->|N0].
  { replace (a + 0 * h) with a by ring. replace (q0 (f a) (d1 a) k2 k3 0 (0 * h) - f a) with 0 by (unfold q0; ring). rewrite Rabs_R0. exact Pos. }
  destruct (Req_dec e 1) as [->|N1].
  { pose proof (ends1 0) as E. replace (1 * h) with h by ring. replace (q0 (f a) (d1 a) k2 k3 0 h - f (a + h)) with 0.
    - rewrite Rabs_R0. exact Pos.
    - replace (k2 + 0 * h ^ 2) with k2 in E by ring. replace (k3 - 2 * h * 0) with k3 in E by ring. lra. }
  set (s := e * h). assert (S1 : 0 < s) by (apply Rmult_lt_0_compat; lra).
  assert (S2 : s < h) by (unfold s; replace h with (1 * h) at 2 by ring; apply Rmult_lt_compat_r; lra).
  set (w := s ^ 2 * (h - s) ^ 2). assert (W : 0 < w) by (apply Rmult_lt_0_compat; apply pow_lt; lra).
  set (c := (f (a + s) - q0 (f a) (d1 a) k2 k3 0 s) / w).
  assert (E : f (a + s) - q0 (f a) (d1 a) k2 k3 0 s = c * w) by (unfold c; field; lra).
  set (p2 := k2 + c * h ^ 2). set (p3 := k3 - 2 * h * c).
  assert (Z : f (a + s) - q0 (f a) (d1 a) p2 p3 c s = 0) by (unfold p2, p3, w in *; unfold q0 in *; lra).
  assert (R1 : exists u, a < u < a + s /\ d1 u - q1 (d1 a) p2 p3 c (u - a) = 0).
  { apply (rolle (fun t => f t - q0 (f a) (d1 a) p2 p3 c (t - a))); [lra| | |].
    - intros t Ht. apply (g0 f d1 d2 d3 d4 a (a + h) D). lra.
    - replace (a - a) with 0 by ring. apply ends0.
    - replace (a + s - a) with s by ring. exact Z. }
  assert (R2 : exists u, a + s < u < a + h /\ d1 u - q1 (d1 a) p2 p3 c (u - a) = 0).
  { apply (rolle (fun t => f t - q0 (f a) (d1 a) p2 p3 c (t - a))); [lra| | |].
    - intros t Ht. apply (g0 f d1 d2 d3 d4 a (a + h) D). lra.
    - replace (a + s - a) with s by ring. exact Z.
    - replace (a + h - a) with h by ring. apply ends1. }
  destruct R1 as (u1 & U1 & V1). destruct R2 as (u2 & U2 & V2).
  destruct (four_zeros f d1 d2 d3 d4 a (a + h) D (d1 a) p2 p3 c a u1 u2 (a + h)) as (u & U & V); try lra.
  { replace (a - a) with 0 by ring. apply ends2. }
  { replace (a + h - a) with h by ring. apply ends3. }
  specialize (HM u U). rewrite V in HM.
  replace (q0 (f a) (d1 a) k2 k3 0 s - f (a + s)) with (- (c * w)) by lra.
  rewrite Rabs_Ropp, Rabs_mult, (Rabs_pos_eq w) by lra. rewrite Rabs_mult, (Rabs_pos_eq 24) in HM by lra.
  assert (Ww : w <= h ^ 4 / 16).
  { unfold w. replace (h ^ 4 / 16) with ((h ^ 2 / 4) ^ 2) by field. replace (s ^ 2 * (h - s) ^ 2) with ((s * (h - s)) ^ 2) by ring.
    apply pow_incr. split; [apply Rmult_le_pos; lra|]. pose proof (Rle_0_sqr (s - h / 2)). unfold Rsqr in *. simpl. lra. }
  apply Rle_trans with (M / 24 * (h ^ 4 / 16)); [|right; field].
  apply Rmult_le_compat; [apply Rabs_pos|lra|lra|exact Ww].
Qed.

Lemma slope_err e : 0 <= e <= 1 -> Rabs (Hw (wts true e) (f a) (d1 a) (f (a + h)) (d1 (a + h)) h / h - d1 (a + e * h)) <= h ^ 3 / 24 * M.
Proof.
  intros He. rewrite herm_q1. pose proof M_nonneg as M0.
  assert (Pos : 0 <= h ^ 3 / 24 * M) by (apply Rmult_le_pos; [|exact M0]; assert (0 < h ^ 3) by (apply pow_lt; exact Hh); lra).
  assert (C2 : k2 + 0 * h ^ 2 = k2) by ring. assert (C3 : k3 - 2 * h * 0 = k3) by ring.
  pose proof (ends0 0) as E0. pose proof (ends1 0) as E1. pose proof (ends2 0) as E2. pose proof (ends3 0) as E3. rewrite C2, C3 in E0, E1, E2, E3.
  assert (R1 : exists m, a < m < a + h /\ d1 m - q1 (d1 a) k2 k3 0 (m - a) = 0).
  { apply (rolle (fun t => f t - q0 (f a) (d1 a) k2 k3 0 (t - a))); [lra| | |].
    - intros t Ht. apply (g0 f d1 d2 d3 d4 a (a + h) D). lra.
    - replace (a - a) with 0 by ring. exact E0.
    - replace (a + h - a) with h by ring. exact E1. }
  destruct R1 as (m & Hm & Zm). set (s := e * h).
  assert (S : 0 <= s <= h).
  { unfold s. split; [apply Rmult_le_pos; lra|]. replace h with (1 * h) at 2 by ring. apply Rmult_le_compat_r; lra. }
  destruct (Req_dec s 0) as [Es|N0].
  { rewrite Es. replace (a + 0) with a by ring. replace (q1 (d1 a) k2 k3 0 0 - d1 a) with 0 by lra. rewrite Rabs_R0. exact Pos. }
  destruct (Req_dec s h) as [Es|N1].
  { rewrite Es. replace (q1 (d1 a) k2 k3 0 h - d1 (a + h)) with 0 by lra. rewrite Rabs_R0. exact Pos. }
  destruct (Req_dec s (m - a)) as [Es|N2].
  { rewrite Es. replace (a + (m - a)) with m by ring. replace (q1 (d1 a) k2 k3 0 (m - a) - d1 m) with 0 by lra. rewrite Rabs_R0. exact Pos. }
  set (v := m - a) in *.
  set (w := s * (s - h) * (s - v)).
  assert (W : w <> 0). { unfold w. apply Rmult_integral_contrapositive_currified; [apply Rmult_integral_contrapositive_currified|]; lra. }
  set (c := (d1 (a + s) - q1 (d1 a) k2 k3 0 s) / (4 * w)).
  assert (E : d1 (a + s) - q1 (d1 a) k2 k3 0 s = 4 * c * w) by (unfold c; field; exact W).
  (* 4 c t (t - h) (t - v) = 4 c (t^3 - (h + v) t^2 + h v t) *)
  set (p2 := k2 + 2 * c * h * v). set (p3 := k3 - 4 / 3 * c * (h + v)).
  assert (Id : forall r, q1 (d1 a) p2 p3 c r = q1 (d1 a) k2 k3 0 r + 4 * c * (r * (r - h) * (r - v))) by (intros r; unfold q1, p2, p3; field).
  assert (Z0 : d1 a - q1 (d1 a) p2 p3 c (a - a) = 0) by (rewrite Id; replace (a - a) with 0 by ring; lra).
  assert (Z1 : d1 (a + h) - q1 (d1 a) p2 p3 c (a + h - a) = 0) by (rewrite Id; replace (a + h - a) with h by ring; lra).
  assert (Z2 : d1 m - q1 (d1 a) p2 p3 c (m - a) = 0) by (rewrite Id; fold v in Zm |- *; lra).
  assert (Z3 : d1 (a + s) - q1 (d1 a) p2 p3 c (a + s - a) = 0) by (rewrite Id; replace (a + s - a) with s by ring; fold w; lra).
  assert (F : exists u, a <= u <= a + h /\ d4 u = 24 * c).
  { destruct (Rlt_or_le s v) as [L|L].
    - apply (four_zeros f d1 d2 d3 d4 a (a + h) D (d1 a) p2 p3 c a (a + s) m (a + h)); unfold v in *; lra.
    - apply (four_zeros f d1 d2 d3 d4 a (a + h) D (d1 a) p2 p3 c a m (a + s) (a + h)); unfold v in *; lra. }
  destruct F as (u & U & V). specialize (HM u U). rewrite V, Rabs_mult, (Rabs_pos_eq 24) in HM by lra.
  replace (q1 (d1 a) k2 k3 0 s - d1 (a + s)) with (- (4 * c * w)) by lra. rewrite Rabs_Ropp, Rabs_mult, Rabs_mult, (Rabs_pos_eq 4) by lra.
  assert (Ww : Rabs w <= h ^ 3 / 4).
  { unfold w. rewrite Rabs_mult. replace (h ^ 3 / 4) with (h ^ 2 / 4 * h) by field.
    apply Rmult_le_compat; [apply Rabs_pos|apply Rabs_pos| |].
    - rewrite Rabs_mult, (Rabs_pos_eq s), (Rabs_left1 (s - h)) by lra. pose proof (Rle_0_sqr (s - h / 2)). unfold Rsqr in *. simpl. lra.
    - apply Rabs_le. unfold v. lra. }
  apply Rle_trans with (4 * (M / 24) * (h ^ 3 / 4)); [|right; field].
  apply Rmult_le_compat; [|apply Rabs_pos| |exact Ww].
  - apply Rmult_le_pos; [lra|apply Rabs_pos].
  - lra.
Qed.
End Segment.

(** *** perturbed data *)
Lemma mult_le_abs k x A : 0 <= k -> Rabs x <= A -> - (k * A) <= k * x <= k * A.
Proof.
  intros Hk Hx. assert (B : - A <= x <= A) by (unfold Rabs in Hx; destruct (Rcase_abs x); lra).
  split; [replace (- (k * A)) with (k * - A) by ring|]; apply Rmult_le_compat_l; lra.
Qed.
Lemma value_stable e p0 s0 p1 s1 p0' s0' p1' s1' h A B : 0 <= e <= 1 -> 0 < h ->
  Rabs (p0 - p0') <= A -> Rabs (p1 - p1') <= A -> Rabs (s0 - s0') <= B -> Rabs (s1 - s1') <= B ->
  Rabs (Hw (wts false e) p0 s0 p1 s1 h - Hw (wts false e) p0' s0' p1' s1' h) <= A + h / 4 * B.
Proof.
  intros He Hh P0 P1 S0 S1.
  assert (B0 : 0 <= B) by (eapply Rle_trans; [apply Rabs_pos|exact S0]).
  set (u := 1 - e). assert (Hu : 0 <= u) by (unfold u; lra).
  assert (E : Hw (wts false e) p0 s0 p1 s1 h - Hw (wts false e) p0' s0' p1' s1' h =
     (u ^ 2 * (1 + 2 * e)) * (p0 - p0') + (e ^ 2 * (1 + 2 * u)) * (p1 - p1') + (h * (e * u ^ 2)) * (s0 - s0') - (h * (e ^ 2 * u)) * (s1 - s1')).
  { unfold_bern. unfold u. field. }
  rewrite E.
  assert (K0 : 0 <= u ^ 2 * (1 + 2 * e)) by (apply Rmult_le_pos; [apply pow_le; exact Hu|lra]).
  assert (K1 : 0 <= e ^ 2 * (1 + 2 * u)) by (apply Rmult_le_pos; [apply pow_le|]; lra).
  assert (K2 : 0 <= h * (e * u ^ 2)) by (apply Rmult_le_pos; [lra|]; apply Rmult_le_pos; [lra|apply pow_le; exact Hu]).
  assert (K3 : 0 <= h * (e ^ 2 * u)) by (apply Rmult_le_pos; [lra|]; apply Rmult_le_pos; [apply pow_le; lra|exact Hu]).
  pose proof (mult_le_abs _ _ _ K0 P0). pose proof (mult_le_abs _ _ _ K1 P1). pose proof (mult_le_abs _ _ _ K2 S0). pose proof (mult_le_abs _ _ _ K3 S1).
  assert (SA : u ^ 2 * (1 + 2 * e) * A + e ^ 2 * (1 + 2 * u) * A = A) by (unfold u; ring).
  assert (SB : h * (e * u ^ 2) * B + h * (e ^ 2 * u) * B <= h / 4 * B).
  { replace (h * (e * u ^ 2) * B + h * (e ^ 2 * u) * B) with (h * (e * u) * B) by (unfold u; ring).
    apply Rmult_le_compat_r; [exact B0|]. apply Rmult_le_compat_l; [lra|]. unfold u. pose proof (Rle_0_sqr (e - 1 / 2)). unfold Rsqr in *. lra. }
  apply Rabs_le. lra.
Qed.
Lemma slope_stable e p0 s0 p1 s1 p0' s0' p1' s1' h A B : 0 <= e <= 1 -> 0 < h ->
  Rabs (p0 - p0') <= A -> Rabs (p1 - p1') <= A -> Rabs (s0 - s0') <= B -> Rabs (s1 - s1') <= B ->
  Rabs (Hw (wts true e) p0 s0 p1 s1 h / h - Hw (wts true e) p0' s0' p1' s1' h / h) <= 3 / h * A + B.
Proof.
  intros He Hh P0 P1 S0 S1.
  assert (A0 : 0 <= A) by (eapply Rle_trans; [apply Rabs_pos|exact P0]).
  assert (B0 : 0 <= B) by (eapply Rle_trans; [apply Rabs_pos|exact S0]).
  assert (E : Hw (wts true e) p0 s0 p1 s1 h / h - Hw (wts true e) p0' s0' p1' s1' h / h =
     (6 * e * (1 - e) / h) * (p1 - p1') - (6 * e * (1 - e) / h) * (p0 - p0') + (1 - e) * (1 - 3 * e) * (s0 - s0') + e * (3 * e - 2) * (s1 - s1')).
  { unfold_bern. field. lra. }
  rewrite E. set (k := 6 * e * (1 - e) / h).
  assert (K0 : 0 <= k).
  { unfold k. apply Rmult_le_pos; [|left; apply Rinv_0_lt_compat; exact Hh]. apply Rmult_le_pos; lra. }
  assert (K1 : 2 * k * A <= 3 / h * A).
  { apply Rmult_le_compat_r; [exact A0|]. unfold k, Rdiv. rewrite <- Rmult_assoc. apply Rmult_le_compat_r; [left; apply Rinv_0_lt_compat; exact Hh|].
    pose proof (Rle_0_sqr (e - 1 / 2)). unfold Rsqr in *. lra. }
  pose proof (mult_le_abs _ _ _ K0 P0). pose proof (mult_le_abs _ _ _ K0 P1).
  assert (J : forall x y, Rabs x <= B -> Rabs y <= B -> Rabs ((1 - e) * (1 - 3 * e) * x + e * (3 * e - 2) * y) <= B).
  { intros x y Hx Hy. eapply Rle_trans; [apply Rabs_triang|]. rewrite !Rabs_mult.
    rewrite (Rabs_pos_eq (1 - e)) by lra. rewrite (Rabs_pos_eq e) by lra.
    assert (L : (1 - e) * Rabs (1 - 3 * e) + e * Rabs (3 * e - 2) <= 1).
    { unfold Rabs. destruct (Rcase_abs (1 - 3 * e)), (Rcase_abs (3 * e - 2)); pose proof (Rle_0_sqr (e - 1 / 2)); pose proof (Rmult_le_pos e (1 - e) ltac:(lra) ltac:(lra)); unfold Rsqr in *; lra. }
    apply Rle_trans with ((1 - e) * Rabs (1 - 3 * e) * B + e * Rabs (3 * e - 2) * B).
    - apply Rplus_le_compat; apply Rmult_le_compat_l; try assumption; apply Rmult_le_pos; try apply Rabs_pos; lra.
    - rewrite <- Rmult_plus_distr_r. replace B with (1 * B) at 2 by ring. apply Rmult_le_compat_r; assumption. }
  specialize (J _ _ S0 S1). apply Rabs_le.
  assert (J' : - B <= (1 - e) * (1 - 3 * e) * (s0 - s0') + e * (3 * e - 2) * (s1 - s1') <= B) by (unfold Rabs in J; destruct Rcase_abs; lra).
  lra.
Qed.
