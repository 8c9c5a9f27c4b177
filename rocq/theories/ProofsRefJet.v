(** Derivatives of any order along a trajectory, and the linearised flow. *)
From Coq Require Import ZArith List Reals Lra Lia.
From Coquelicot Require Import Coquelicot.
From Verif Require Import Base Num ModelVec SpecGradient ModelRefMath SpecRef SpecRefOrder
  ProofsTaylor ProofsRefSmooth ProofsRefScale ProofsRefStepErr ProofsPicard ProofsRefFlowGrad.
Import ListNotations.
Open Scope R_scope.

Section Jets.
Variables (lo hi g : R).
Hypothesis Hg : 0 <= g.
(** f has n derivatives on [lo, hi], the one of order k at most A c (c + 1) ... (c + k - 1) g^k *)
Fixpoint jet (n : nat) (A c : R) (f : R -> R) : Prop := (forall s, lo <= s <= hi -> Rabs (f s) <= A) /\
  match n with
  | O => True
  | S n => exists f1, (forall s, lo <= s <= hi -> derivable_pt_lim f s (f1 s)) /\ jet n (A * c * g) (c + 1) f1
  end.
Lemma jet_bound n A c f : jet n A c f -> forall s, lo <= s <= hi -> Rabs (f s) <= A.
Proof. destruct n; intros (H & _); exact H. Qed.
Lemma jet_less n : forall A c f, jet (S n) A c f -> jet n A c f.
Proof.
  induction n as [|n IH]; intros A c f (H & f1 & D & J); (split; [exact H|]); [exact I|]. exists f1. split; [exact D|]. apply IH, J.
Qed.
Lemma jet_mono n : forall A c A' c' f, 0 <= A <= A' -> 0 <= c <= c' -> jet n A c f -> jet n A' c' f.
Proof.
  induction n as [|n IH]; intros A c A' c' f HA Hc (H & J).
  - split; [|exact I]. intros s Hs. specialize (H s Hs). lra.
  - split; [intros s Hs; specialize (H s Hs); lra|]. destruct J as (f1 & D & J). exists f1. split; [exact D|]. apply (IH (A * c * g) (c + 1)); [|lra|exact J]. split.
    + apply Rmult_le_pos; [apply Rmult_le_pos; lra|exact Hg].
    + apply Rmult_le_compat_r; [exact Hg|]. apply Rmult_le_compat; lra.
Qed.
Lemma jet_add n : forall A B c f h, jet n A c f -> jet n B c h -> jet n (A + B) c (fun s => f s + h s).
Proof.
  induction n as [|n IH]; intros A B c f h (H & J) (H' & J').
  - split; [|exact I]. intros s Hs. eapply Rle_trans; [apply Rabs_triang|]. specialize (H s Hs). specialize (H' s Hs). lra.
  - split; [intros s Hs; eapply Rle_trans; [apply Rabs_triang|]; specialize (H s Hs); specialize (H' s Hs); lra|].
    destruct J as (f1 & D & J), J' as (h1 & D' & J'). exists (fun s => f1 s + h1 s). split; [intros s Hs; apply d_sum; auto|].
    replace ((A + B) * c * g) with (A * c * g + B * c * g) by ring. apply IH; assumption.
Qed.
Lemma jet_mul n : forall A B c d f h, jet n A c f -> jet n B d h -> jet n (A * B) (c + d) (fun s => f s * h s).
Proof.
  induction n as [|n IH]; intros A B c d f h Jf Jh; pose proof Jf as (H & J); pose proof Jh as (H' & J').
  - split; [|exact I]. intros s Hs. apply mul_le; auto.
  - split; [intros s Hs; apply mul_le; auto|].
    destruct J as (f1 & D & J), J' as (h1 & D' & J'). exists (fun s => f1 s * h s + f s * h1 s). split; [intros s Hs; apply d_leibniz; auto|].
    replace (A * B * (c + d) * g) with (A * c * g * B + A * (B * d * g)) by ring. apply jet_less in Jf. apply jet_less in Jh.
    apply (jet_add n).
    + replace (c + d + 1) with (c + 1 + d) by ring. apply IH; assumption.
    + replace (c + d + 1) with (c + (d + 1)) by ring. apply IH; assumption.
Qed.
(** four derivatives of a function whose first derivative has three *)
Lemma jet_four Z f A c : (forall s, lo <= s <= hi -> derivable_pt_lim Z s (f s)) -> jet 3 A c f ->
  bounded4 lo hi Z A (A * c * g) (A * c * g * (c + 1) * g) (A * c * g * (c + 1) * g * (c + 1 + 1) * g).
Proof.
  intros D (B0 & f1 & D1 & B1 & f2 & D2 & B2 & f3 & D3 & B3 & _). exists f, f1, f2, f3. split; [repeat split; assumption|].
  intros s Hs. repeat split; auto.
Qed.
End Jets.

(** *** functions along a trajectory *)
Section Trajectory.
Variables (u v : R -> R -> R -> R) (V K lo hi : R) (X Y : R -> R).
Hypothesis HV : 0 <= V.
Hypothesis HK : 0 <= K.
Hypothesis DX : forall s, lo <= s <= hi -> derivable_pt_lim X s (u (X s) (Y s) s).
Hypothesis DY : forall s, lo <= s <= hi -> derivable_pt_lim Y s (v (X s) (Y s) s).
Notation g := (K * (1 + 2 * V)).
Notation on w := (fun s => w (X s) (Y s) s).
Lemma g_pos : 0 <= g.
Proof. apply Rmult_le_pos; lra. Qed.
Lemma jet_on n : graded3 n V K u -> graded3 n V K v -> forall P w, 0 <= P -> graded3 n P K w -> jet lo hi g n P 1 (on w).
Proof.
  induction n as [|n IH]; intros Gu Gv P w HP Gw.
  - destruct Gw as (B & _). split; [intros s Hs; apply B|exact I].
  - pose proof (graded_less _ _ _ _ Gu) as Gu'. pose proof (graded_less _ _ _ _ Gv) as Gv'. specialize (IH Gu' Gv').
    destruct Gw as (B & wx & wy & ws & D & Gx & Gy & Gs). split; [intros s Hs; apply B|].
    exists (fun s => on u s * on wx s + on v s * on wy s + on ws s). split.
    + intros s Hs. apply (along u v lo hi X Y DX DY w wx wy ws D s Hs).
    + assert (HPK : 0 <= P * K) by (apply Rmult_le_pos; assumption).
      replace (P * 1 * g) with (V * (P * K) + V * (P * K) + P * K) by ring.
      apply jet_add; [apply jet_add; apply (jet_mul lo hi g n _ _ 1 1)|]; auto using g_pos.
      apply (jet_mono lo hi g g_pos n (P * K) 1); [lra|lra|]. auto.
Qed.
End Trajectory.

(** *** the linearised flow *)
Definition clip (z : R) : R := Rmax (- 2) (Rmin 2 z).
Lemma clip_id z : Rabs z <= 2 -> clip z = z.
Proof. intros H. apply abs_both in H. unfold clip. rewrite Rmin_right, Rmax_right; lra. Qed.
Lemma clip_le z : Rabs (clip z) <= 2 /\ Rabs (clip z) <= Rabs z.
Proof.
  unfold clip, Rmax, Rmin. destruct (Rle_dec 2 z); destruct (Rle_dec (-2) _); split; try (apply Rabs_le; lra); unfold Rabs; repeat destruct Rcase_abs; lra.
Qed.
Lemma clip_lip y z : Rabs (clip y - clip z) <= Rabs (y - z).
Proof.
  unfold clip, Rmax, Rmin. destruct (Rle_dec 2 z); destruct (Rle_dec 2 y); repeat destruct (Rle_dec (-2) _); unfold Rabs; repeat destruct Rcase_abs; lra.
Qed.

Section Linear.
Variables (a b c d : R -> R) (L C lo hi i j : R).
Hypothesis Hlh : lo <= hi.
Hypothesis HC : 0 <= C.
Hypothesis HL : L * (hi - lo) <= 1 / 4.
Hypothesis Ba : forall s, Rabs (a s) <= L.
Hypothesis Bb : forall s, Rabs (b s) <= L.
Hypothesis Bc : forall s, Rabs (c s) <= L.
Hypothesis Bd : forall s, Rabs (d s) <= L.
Hypothesis La : forall s t, Rabs (a s - a t) <= C * Rabs (s - t).
Hypothesis Lb : forall s t, Rabs (b s - b t) <= C * Rabs (s - t).
Hypothesis Lc : forall s t, Rabs (c s - c t) <= C * Rabs (s - t).
Hypothesis Ld : forall s t, Rabs (d s - d t) <= C * Rabs (s - t).
Hypothesis Hi : Rabs i <= 1.
Hypothesis Hj : Rabs j <= 1.
Lemma lin_L : 0 <= L.
Proof. eapply Rle_trans; [apply Rabs_pos|apply (Ba 0)]. Qed.
Lemma lin_bound (e f : R -> R) s y z B1 B2 : Rabs (e s) <= L -> Rabs (f s) <= L -> Rabs y <= B1 -> Rabs z <= B2 -> Rabs (e s * y + f s * z) <= L * (B1 + B2).
Proof. intros He Hf Hy Hz. eapply Rle_trans; [apply Rabs_triang|]. rewrite Rmult_plus_distr_l. apply Rplus_le_compat; apply mul_le; assumption. Qed.
Lemma lin_lip (e f : R -> R) p q r x y s : (forall s, Rabs (e s) <= L) -> (forall s, Rabs (f s) <= L) -> (forall s t, Rabs (e s - e t) <= C * Rabs (s - t)) -> (forall s t, Rabs (f s - f t) <= C * Rabs (s - t)) ->
  Rabs ((e r * clip p + f r * clip q) - (e s * clip x + f s * clip y)) <= (4 * L + 4 * C) * (Rabs (p - x) + Rabs (q - y) + Rabs (r - s)).
Proof.
  intros Be Bf Le Lf. pose proof lin_L as PL.
  replace ((e r * clip p + f r * clip q) - (e s * clip x + f s * clip y)) with ((e r * (clip p - clip x) + f r * (clip q - clip y)) + ((e r - e s) * clip x + (f r - f s) * clip y)) by ring.
  eapply Rle_trans; [apply Rabs_triang|].
  pose proof (lin_bound e f r (clip p - clip x) (clip q - clip y) _ _ (Be r) (Bf r) (clip_lip p x) (clip_lip q y)) as Q1.
  pose proof (mul_le _ _ _ _ (Le r s) (proj1 (clip_le x))) as Q2. pose proof (mul_le _ _ _ _ (Lf r s) (proj1 (clip_le y))) as Q3.
  pose proof (Rabs_triang ((e r - e s) * clip x) ((f r - f s) * clip y)) as Q4.
  pose proof (Rabs_pos (p - x)) as P1. pose proof (Rabs_pos (q - y)) as P2. pose proof (Rabs_pos (r - s)) as P3.
  pose proof (Rmult_le_pos L _ PL P1). pose proof (Rmult_le_pos L _ PL P2). pose proof (Rmult_le_pos L _ PL P3).
  pose proof (Rmult_le_pos C _ HC P1). pose proof (Rmult_le_pos C _ HC P2). pose proof (Rmult_le_pos C _ HC P3). lra.
Qed.
(** a bound for all times from a bound of the derivative *)
Lemma lin_grow (W w Z z : R -> R) e : (forall s, lo <= s <= hi -> derivable_pt_lim W s (w s)) -> (forall s, lo <= s <= hi -> derivable_pt_lim Z s (z s)) ->
  (forall s, lo <= s <= hi -> Rabs (w s) <= L * (Rabs (W s) + Rabs (Z s)) + e /\ Rabs (z s) <= L * (Rabs (W s) + Rabs (Z s)) + e) -> forall m, Rabs (W hi) <= m -> Rabs (Z hi) <= m ->
  forall s, lo <= s <= hi -> Rabs (W s) <= 2 * (m + e * (hi - lo)) /\ Rabs (Z s) <= 2 * (m + e * (hi - lo)).
Proof.
  intros DW DZ H m E1 E2. pose proof lin_L as PL.
  destruct (top lo hi Hlh W w DW) as (p & Hp & C1). destruct (top lo hi Hlh Z z DZ) as (q & Hq & C2).
  set (B := Rabs (W p) + Rabs (Z q)). assert (PB : 0 <= B) by (unfold B; pose proof (Rabs_pos (W p)); pose proof (Rabs_pos (Z q)); lra).
  assert (G : forall s, lo <= s <= hi -> Rabs (w s) <= L * B + e /\ Rabs (z s) <= L * B + e).
  { intros s Hs. destruct (H s Hs) as (h1 & h2). pose proof (C1 s Hs). pose proof (C2 s Hs).
    assert (L * (Rabs (W s) + Rabs (Z s)) <= L * B) by (apply Rmult_le_compat_l; [exact PL|unfold B; lra]). lra. }
  assert (Pe : 0 <= L * B + e) by (destruct (G lo ltac:(lra)) as (h & _); pose proof (Rabs_pos (w lo)); lra).
  assert (F : forall s, lo <= s <= hi -> Rabs (W s) <= m + B / 4 + e * (hi - lo) /\ Rabs (Z s) <= m + B / 4 + e * (hi - lo)).
  { intros s Hs. pose proof (moved lo hi W w _ s DW (fun s Hs => proj1 (G s Hs)) Hs) as Q1. pose proof (moved lo hi Z z _ s DZ (fun s Hs => proj2 (G s Hs)) Hs) as Q2.
    assert (T : (L * B + e) * (hi - s) <= (L * B + e) * (hi - lo)) by (apply Rmult_le_compat_l; lra).
    assert (T2 : L * B * (hi - lo) <= B / 4) by (replace (L * B * (hi - lo)) with (B * (L * (hi - lo))) by ring; pose proof (Rmult_le_compat_l B _ _ PB HL); lra).
    pose proof (Rabs_triang_inv (W s) (W hi)). pose proof (Rabs_triang_inv (Z s) (Z hi)). lra. }
  assert (HB : B <= 2 * (m + B / 4 + e * (hi - lo))) by (unfold B at 1; pose proof (proj1 (F p Hp)); pose proof (proj2 (F q Hq)); lra).
  intros s Hs. destruct (F s Hs). lra.
Qed.
Lemma linear_flow : exists W Z, W hi = i /\ Z hi = j /\ forall s, lo <= s <= hi ->
  derivable_pt_lim W s (a s * W s + b s * Z s) /\ derivable_pt_lim Z s (c s * W s + d s * Z s) /\ Rabs (W s) <= 2 /\ Rabs (Z s) <= 2.
Proof.
  pose proof lin_L as PL.
  destruct (trajectory (fun p q s => a s * clip p + b s * clip q) (fun p q s => c s * clip p + d s * clip q) (4 * L + 4 * C) hi i j) as (W & Z & E1 & E2 & D).
  - intros. eapply Rle_trans; [apply (lin_bound a b s _ _ 2 2); auto; apply clip_le|lra].
  - intros. eapply Rle_trans; [apply (lin_bound c d s _ _ 2 2); auto; apply clip_le|lra].
  - intros. apply lin_lip; auto.
  - intros. apply lin_lip; auto.
  - exists W, Z. split; [exact E1|]. split; [exact E2|].
    assert (B : forall s, lo <= s <= hi -> Rabs (W s) <= 2 /\ Rabs (Z s) <= 2).
    { intros s Hs. pose proof (lin_grow W _ Z _ 0 (fun s _ => proj1 (D s)) (fun s _ => proj2 (D s))) as G. cbv beta in G.
      destruct (G ltac:(intros r Hr; rewrite !Rplus_0_r; split; apply lin_bound; auto; apply clip_le) 1 ltac:(rewrite E1; exact Hi) ltac:(rewrite E2; exact Hj) s Hs). lra. }
    intros s Hs. destruct (B s Hs) as (B1 & B2). destruct (D s) as (D1 & D2). rewrite !clip_id in D1, D2 by assumption. auto.
Qed.
End Linear.
