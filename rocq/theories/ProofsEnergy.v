(** Cubic segments: the energy identity behind the stability of the 1-D loop. *)
From Coq Require Import ZArith List Bool Lia Reals Lra.
From Verif Require Import SpecStability.
Open Scope R_scope.

Lemma bend_pos p0 s0 p1 s1 h : 0 < h -> 0 <= bend p0 s0 p1 s1 h.
Proof.
  intros H. unfold bend. apply Rmult_le_pos; [|left; apply Rinv_0_lt_compat; exact H].
  pose proof (pow2_ge_0 ((p1 - p0) / h - (s0 + s1) / 2)). pose proof (pow2_ge_0 (s1 - s0)). lra.
Qed.
Lemma bend_slope p0 s0 p1 s1 h : 0 < h -> (s1 - s0) ^ 2 <= h * bend p0 s0 p1 s1 h.
Proof.
  intros H. unfold bend. replace (h * ((12 * ((p1 - p0) / h - (s0 + s1) / 2) ^ 2 + (s1 - s0) ^ 2) / h)) with
    (12 * ((p1 - p0) / h - (s0 + s1) / 2) ^ 2 + (s1 - s0) ^ 2) by (field; lra).
  pose proof (pow2_ge_0 ((p1 - p0) / h - (s0 + s1) / 2)). lra.
Qed.

(** cutting a segment at distance u and moving the cut point by (a, b): Pythagoras *)
Lemma bend_cut p0 s0 p1 s1 h u a b : 0 < u < h ->
  bend p0 s0 (seg p0 s0 p1 s1 h u + a) (seg' p0 s0 p1 s1 h u + b) u +
  bend (seg p0 s0 p1 s1 h u + a) (seg' p0 s0 p1 s1 h u + b) p1 s1 (h - u) =
  bend p0 s0 p1 s1 h + (bend 0 0 a b u + bend a b 0 0 (h - u)).
Proof. intros H. unfold bend, seg, seg', co2, co3. field. lra. Qed.

(** a segment has the least energy between its ends *)
Lemma bend_least p0 s0 q r p1 s1 h u : 0 < u < h ->
  bend p0 s0 p1 s1 h <= bend p0 s0 q r u + bend q r p1 s1 (h - u).
Proof.
  intros H. pose proof (bend_cut p0 s0 p1 s1 h u (q - seg p0 s0 p1 s1 h u) (r - seg' p0 s0 p1 s1 h u) H) as E.
  replace (seg p0 s0 p1 s1 h u + (q - seg p0 s0 p1 s1 h u)) with q in E by ring.
  replace (seg' p0 s0 p1 s1 h u + (r - seg' p0 s0 p1 s1 h u)) with r in E by ring.
  pose proof (bend_pos 0 0 (q - seg p0 s0 p1 s1 h u) (r - seg' p0 s0 p1 s1 h u) u ltac:(lra)).
  pose proof (bend_pos (q - seg p0 s0 p1 s1 h u) (r - seg' p0 s0 p1 s1 h u) 0 0 (h - u) ltac:(lra)). lra.
Qed.

Lemma seg_0 p0 s0 p1 s1 h : seg p0 s0 p1 s1 h 0 = p0. Proof. unfold seg. ring. Qed.
Lemma seg'_0 p0 s0 p1 s1 h : seg' p0 s0 p1 s1 h 0 = s0. Proof. unfold seg'. ring. Qed.

(** slope and value inside a segment *)
Lemma seg_slope p0 s0 p1 s1 h u : 0 < h -> 0 <= u <= h -> (seg' p0 s0 p1 s1 h u - s0) ^ 2 <= h * bend p0 s0 p1 s1 h.
Proof.
  intros Hh Hu. pose proof (bend_pos p0 s0 p1 s1 h Hh) as B.
  destruct (Req_dec u 0) as [->|N0].
  { rewrite seg'_0. replace ((s0 - s0) ^ 2) with 0 by ring. apply Rmult_le_pos; lra. }
  destruct (Req_dec u h) as [->|N1].
  { replace (seg' p0 s0 p1 s1 h h) with s1 by (unfold seg', co2, co3; field; lra). apply bend_slope. exact Hh. }
  assert (HU : 0 < u < h) by lra. pose proof (bend_cut p0 s0 p1 s1 h u 0 0 HU) as E. rewrite !Rplus_0_r in E.
  replace (bend 0 0 0 0 u) with 0 in E by (unfold bend; field; lra). replace (bend 0 0 0 0 (h - u)) with 0 in E by (unfold bend; field; lra).
  pose proof (bend_slope p0 s0 (seg p0 s0 p1 s1 h u) (seg' p0 s0 p1 s1 h u) u ltac:(lra)) as L.
  pose proof (bend_pos (seg p0 s0 p1 s1 h u) (seg' p0 s0 p1 s1 h u) p1 s1 (h - u) ltac:(lra)) as B2.
  pose proof (bend_pos p0 s0 (seg p0 s0 p1 s1 h u) (seg' p0 s0 p1 s1 h u) u ltac:(lra)) as B1.
  set (b1 := bend p0 s0 (seg p0 s0 p1 s1 h u) (seg' p0 s0 p1 s1 h u) u) in *. set (b := bend p0 s0 p1 s1 h) in *.
  assert (u * b1 <= h * b) by (apply Rmult_le_compat; lra). lra.
Qed.

(** distance from the chord *)
Lemma seg_chord p0 s0 p1 s1 h u : 0 < h -> 0 <= u <= h ->
  64 * (seg p0 s0 p1 s1 h u - (p0 + (p1 - p0) * (u / h))) ^ 2 <= h ^ 3 * bend p0 s0 p1 s1 h.
Proof.
  intros Hh Hu. set (t := u / h). assert (Ht : 0 <= t <= 1).
  { unfold t. split; [apply Rmult_le_pos; [lra|left; apply Rinv_0_lt_compat; lra]|]. apply (Rmult_le_reg_r h); [lra|]. unfold Rdiv. rewrite Rmult_assoc, Rinv_l; lra. }
  assert (Eu : u = t * h) by (unfold t; field; lra). set (al := s0 - (p1 - p0) / h). set (be := s1 - (p1 - p0) / h).
  assert (E1 : seg p0 s0 p1 s1 h u - (p0 + (p1 - p0) * t) = h * (t * (1 - t)) * (al * (1 - t) - be * t)).
  { rewrite Eu. unfold seg, co2, co3, al, be. field. lra. }
  assert (E2 : h ^ 3 * bend p0 s0 p1 s1 h = h ^ 2 * (4 * (al ^ 2 + al * be + be ^ 2))).
  { unfold bend, al, be. field. lra. }
  rewrite E1, E2. clear E1 E2. clearbody al be t. clear Eu Hu.
  set (q := t * (1 - t)). assert (Hq : 0 <= q <= / 4).
  { unfold q. split; [apply Rmult_le_pos; lra|]. pose proof (pow2_ge_0 (t - / 2)) as K. replace ((t - / 2) ^ 2) with (t * t - t + / 4) in K by field. lra. }
  assert (F : 3 * (al * (1 - t) - be * t) ^ 2 <= 4 * (1 - q) * (al ^ 2 + al * be + be ^ 2)).
  { apply Rminus_le. replace (3 * (al * (1 - t) - be * t) ^ 2 - 4 * (1 - q) * (al ^ 2 + al * be + be ^ 2)) with
      (- (al * (1 + t) + be * (2 - t)) ^ 2) by (unfold q; ring). pose proof (pow2_ge_0 (al * (1 + t) + be * (2 - t))). lra. }
  assert (G : 0 <= al ^ 2 + al * be + be ^ 2).
  { replace (al ^ 2 + al * be + be ^ 2) with ((al + be / 2) ^ 2 + 3 / 4 * be ^ 2) by field.
    pose proof (pow2_ge_0 (al + be / 2)). pose proof (pow2_ge_0 be). lra. }
  set (w := al ^ 2 + al * be + be ^ 2) in *. set (v := (al * (1 - t) - be * t)) in *. clearbody v w q. clear t Ht al be.
  replace (64 * (h * q * v) ^ 2) with (h ^ 2 * (64 * q ^ 2 * v ^ 2)) by ring. apply Rmult_le_compat_l; [apply pow2_ge_0|].
  assert (K : 64 * q ^ 2 * (1 - q) <= 3).
  { apply Rminus_le. replace (64 * q ^ 2 * (1 - q) - 3) with (- ((/ 4 - q) * (12 + 48 * q - 64 * q ^ 2))) by field.
    assert (0 <= (/ 4 - q) * (12 + 48 * q - 64 * q ^ 2)); [|lra]. apply Rmult_le_pos; [lra|].
    assert (q ^ 2 <= / 16) by (replace (/ 16) with (/ 4 * / 4) by field; replace (q ^ 2) with (q * q) by ring; apply Rmult_le_compat; lra). lra. }
  assert (0 <= 64 * q ^ 2) by (pose proof (pow2_ge_0 q); lra).
  assert (64 * q ^ 2 * (3 * v ^ 2) <= 64 * q ^ 2 * (4 * (1 - q) * w)) by (apply Rmult_le_compat_l; lra).
  assert (64 * q ^ 2 * (1 - q) * w <= 3 * w) by (apply Rmult_le_compat_r; lra). lra.
Qed.

(** *** One step of the line *)
Section Step.
Variables (P S P' S' ro si : Z -> R) (h ka : R) (o : Z) (u : R).
Hypothesis Hh : 0 < h.
Hypothesis Hu : 0 <= u < h.
(** cell i takes the segment that starts at cell i+o, at distance u, plus a perturbation *)
Definition taken (i : Z) : Prop :=
  P' i = seg (P (i + o)%Z) (S (i + o)%Z) (P (i + o + 1)%Z) (S (i + o + 1)%Z) h u + ro i /\
  S' i = seg' (P (i + o)%Z) (S (i + o)%Z) (P (i + o + 1)%Z) (S (i + o + 1)%Z) h u + si i.
(** size of the perturbation *)
Definition small_pert (i : Z) : Prop :=
  if Req_EM_T u 0 then ro i = 0 /\ si i = 0 /\ 0 <= ka else bend 0 0 (ro i) (si i) u + bend (ro i) (si i) 0 0 (h - u) <= ka.

Lemma step_energy : forall k a,
  (forall i, (a <= i <= a + Z.of_nat k)%Z -> taken i /\ small_pert i) ->
  exists lft, 0 <= lft /\
  (if Req_EM_T u 0 then lft = 0 else lft = bend (P (a + o)%Z) (S (a + o)%Z) (P' a) (S' a) u) /\
  energy P' S' h a k + lft <= energy P S h (a + o) (Datatypes.S k) + INR (Datatypes.S k) * ka.
Proof.
  unfold small_pert.
  induction k as [|k IH]; intros a HT.
  - destruct (HT a ltac:(lia)) as ((T1 & T2) & T3). cbn [energy INR].
    destruct (Req_EM_T u 0) as [E0|N0].
    + exists 0. split; [lra|]. split; [reflexivity|]. pose proof (bend_pos (P (a + o)%Z) (S (a + o)%Z) (P (a + o + 1)%Z) (S (a + o + 1)%Z) h Hh). lra.
    + eexists. split; [|split; [reflexivity|]]; [apply bend_pos; lra|].
      rewrite T1, T2. pose proof (bend_cut (P (a + o)%Z) (S (a + o)%Z) (P (a + o + 1)%Z) (S (a + o + 1)%Z) h u (ro a) (si a) ltac:(lra)) as E.
      match type of E with ?x + ?y = _ => assert (0 <= y) by (apply bend_pos; lra) end. lra.
  - destruct (IH (a + 1)%Z) as (lft & L0 & L1 & L2); [intros i Hi; apply HT; lia|].
    destruct (HT a ltac:(lia)) as ((T1 & T2) & T3). destruct (HT (a + 1)%Z ltac:(lia)) as ((T1' & T2') & T3').
    replace (a + 1 + o)%Z with (a + o + 1)%Z in * by lia.
    change (energy P' S' h a (Datatypes.S k)) with (bend (P' a) (S' a) (P' (a + 1)%Z) (S' (a + 1)%Z) h + energy P' S' h (a + 1) k).
    change (energy P S h (a + o) (Datatypes.S (Datatypes.S k))) with
      (bend (P (a + o)%Z) (S (a + o)%Z) (P (a + o + 1)%Z) (S (a + o + 1)%Z) h + energy P S h (a + o + 1) (Datatypes.S k)).
    rewrite (S_INR (Datatypes.S k)).
    set (A := energy P' S' h (a + 1) k) in *. set (B := energy P S h (a + o + 1) (Datatypes.S k)) in *.
    set (e := bend (P (a + o)%Z) (S (a + o)%Z) (P (a + o + 1)%Z) (S (a + o + 1)%Z) h).
    destruct (Req_EM_T u 0) as [E0|N0].
    + exists 0. split; [lra|]. split; [reflexivity|]. rewrite E0, seg_0 in T1. rewrite E0, seg_0 in T1'. rewrite E0, seg'_0 in T2. rewrite E0, seg'_0 in T2'.
      destruct T3 as (Z1 & Z2 & Z3). destruct T3' as (Z1' & Z2' & _). rewrite Z1 in T1. rewrite Z2 in T2. rewrite Z1' in T1'. rewrite Z2' in T2'. rewrite Rplus_0_r in *.
      rewrite T1, T2, T1', T2'. fold e. rewrite Rmult_plus_distr_r. lra.
    + exists (bend (P (a + o)%Z) (S (a + o)%Z) (P' a) (S' a) u). split; [apply bend_pos; lra|]. split; [reflexivity|].
      pose proof (bend_cut (P (a + o)%Z) (S (a + o)%Z) (P (a + o + 1)%Z) (S (a + o + 1)%Z) h u (ro a) (si a) ltac:(lra)) as E.
      rewrite <- T1, <- T2 in E. fold e in E.
      pose proof (bend_least (P' a) (S' a) (P (a + o + 1)%Z) (S (a + o + 1)%Z) (P' (a + 1)%Z) (S' (a + 1)%Z) h (h - u) ltac:(lra)) as M.
      replace (h - (h - u)) with u in M by ring. rewrite <- L1 in M. rewrite Rmult_plus_distr_r. lra.
Qed.
End Step.
