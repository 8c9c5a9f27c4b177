(** The error of one time step of the reference programs. *)
From Coq Require Import ZArith List String Reals Lra Lia.
From Coquelicot Require Import Coquelicot.
From Verif Require Import Base Num ModelVec ModelInterp SpecGradient SpecAccuracy ModelRefMath ModelRefMem ModelRef SpecRef SpecRefRun SpecRefOrder SpecRefStep
  ProofsHermite ProofsHermiteCell ProofsHermiteErr ProofsAccuracy ProofsRefMath ProofsRefHermite ProofsRefExact ProofsRefReal ProofsRefApi ProofsRefOrder ProofsRefSmooth.
Import ListNotations.
Open Scope R_scope.
Notation q0 := ModelRefMath.q0.
Notation q1 := ModelRefMath.q1.
Notation q2 := ModelRefMath.q2.
Notation q3 := ModelRefMath.q3.

Lemma abs_both x b : Rabs x <= b -> - b <= x <= b.
Proof. unfold Rabs. destruct (Rcase_abs x); lra. Qed.

(** *** interpolation in one cell, the corner data with errors *)
Section Cell.
Variables (D : nat -> nat -> R -> R -> R) (M : nat -> nat -> R) (a h c k e0 e1 e2 : R).
Hypothesis Hh : 0 < h.
Hypothesis Hk : 0 < k.
Hypothesis SD : smooth2 D.
Hypothesis HM : forall i j u v, (i <= 4)%nat -> (j <= 4)%nat -> a <= u <= a + h -> c <= v <= c + k -> Rabs (D i j u v) <= M i j.
Variables (phi psix psiy psixy : quad R).
Definition corner_near (q : quad R -> R) (u v : R) : Prop :=
  Rabs (q phi - D 0%nat 0%nat u v) <= e0 /\ Rabs (q psix - D 1%nat 0%nat u v) <= e1 /\ Rabs (q psiy - D 0%nat 1%nat u v) <= e1 /\ Rabs (q psixy - D 1%nat 1%nat u v) <= e2.
Hypothesis N0 : corner_near q0 a c.
Hypothesis N1 : corner_near q1 (a + h) c.
Hypothesis N2 : corner_near q2 a (c + k).
Hypothesis N3 : corner_near q3 (a + h) (c + k).

Lemma cell_value x y : a <= x <= a + h -> c <= y <= c + k ->
  Rabs (hp phi psix psiy psixy x y a c h k - D 0%nat 0%nat x y) <= value_bound h k M e0 e1 e2.
Proof.
  intros Hx Hy. rewrite hp_H2w. unfold H2w, nodals, N_of. cbn [q_phi q_psi q_m0 vx vy vz].
  assert (He : 0 <= (x - a) / h <= 1).
  { split; [apply Rmult_le_pos; [lra|left; apply Rinv_0_lt_compat; exact Hh]|apply (Rmult_le_reg_r h); [exact Hh|]; unfold Rdiv; rewrite Rmult_assoc, Rinv_l by lra; lra]. }
  assert (Hr : 0 <= (y - c) / k <= 1).
  { split; [apply Rmult_le_pos; [lra|left; apply Rinv_0_lt_compat; exact Hk]|apply (Rmult_le_reg_r k); [exact Hk|]; unfold Rdiv; rewrite Rmult_assoc, Rinv_l by lra; lra]. }
  assert (Ex : a + (x - a) / h * h = x) by (field; lra). assert (Ey : c + (y - c) / k * k = y) by (field; lra).
  destruct N0 as (A0 & A1 & A2 & A3), N1 as (B0 & B1 & B2 & B3), N2 as (C0 & C1 & C2 & C3), N3 as (D0 & D1 & D2 & D3).
  assert (W : forall i u p0 s0 p1 s1 A B, (i <= 1)%nat -> a <= u <= a + h -> Rabs (p0 - D i 0%nat u c) <= A -> Rabs (p1 - D i 0%nat u (c + k)) <= A ->
     Rabs (s0 - D i 1%nat u c) <= B -> Rabs (s1 - D i 1%nat u (c + k)) <= B ->
     Rabs (Hw (wts false ((y - c) / k)) p0 s0 p1 s1 k - D i 0%nat u y) <= k ^ 4 / 384 * M i 4%nat + (A + k / 4 * B)).
  { intros i u p0 s0 p1 s1 A B Hi Hu P0 P1 S0 S1.
    pose proof (one_way false (D i 0%nat u) (D i 1%nat u) (D i 2%nat u) (D i 3%nat u) (D i 4%nat u) c k (M i 4%nat) ((y - c) / k) p0 s0 p1 s1 A B Hk) as E.
    cbn [sc own amp] in E. rewrite Ey in E. apply E; try assumption; [cbn [derivs]; repeat split; intros; apply SD|intros t Ht; apply HM; auto; lia]. }
  pose proof (one_way false (fun t => D 0%nat 0%nat t y) (fun t => D 1%nat 0%nat t y) (fun t => D 2%nat 0%nat t y) (fun t => D 3%nat 0%nat t y) (fun t => D 4%nat 0%nat t y) a h (M 4%nat 0%nat) ((x - a) / h)
    (Hw (wts false ((y - c) / k)) (q0 phi) (q0 psiy) (q2 phi) (q2 psiy) k) (Hw (wts false ((y - c) / k)) (q0 psix) (q0 psixy) (q2 psix) (q2 psixy) k)
    (Hw (wts false ((y - c) / k)) (q1 phi) (q1 psiy) (q3 phi) (q3 psiy) k) (Hw (wts false ((y - c) / k)) (q1 psix) (q1 psixy) (q3 psix) (q3 psixy) k)
    (k ^ 4 / 384 * M 0%nat 4%nat + (e0 + k / 4 * e1)) (k ^ 4 / 384 * M 1%nat 4%nat + (e1 + k / 4 * e2)) Hh) as E.
  cbn [sc own amp] in E. rewrite Ex in E. unfold value_bound.
  eapply Rle_trans; [apply E|]; try assumption; try (apply W; auto; lra); [cbn [derivs]; repeat split; intros; apply SD|intros t Ht; apply HM; auto; lia|right; ring].
Qed.
End Cell.

(** *** the value at two points of the box *)
Lemma box_lip D M (s : settings R) x y x' y' E : smooth2 D -> bounded_in_box s D M -> s_xlim1 s <= x <= s_xlim2 s -> s_ylim1 s <= y <= s_ylim2 s ->
  s_xlim1 s <= x' <= s_xlim2 s -> s_ylim1 s <= y' <= s_ylim2 s -> Rabs (x - x') <= E -> Rabs (y - y') <= E ->
  Rabs (D 0%nat 0%nat x y - D 0%nat 0%nat x' y') <= (M 1%nat 0%nat + M 0%nat 1%nat) * E.
Proof.
  intros SD HM Hx Hy Hx' Hy' Ex Ey.
  assert (K : forall (f f' : R -> R) u u' B lo hi, (forall z, derivable_pt_lim f z (f' z)) -> lo <= u <= hi -> lo <= u' <= hi -> (forall z, lo <= z <= hi -> Rabs (f' z) <= B) ->
     Rabs (u - u') <= E -> Rabs (f u - f u') <= B * E).
  { intros f f' u u' B lo hi DF Hu Hu' HB HE. destruct (MVT_gen f u' u f' (fun z _ => proj2 (is_derive_Reals f z (f' z)) (DF z))) as (z & Hz & Eq);
      [intros z _; apply derivable_continuous_pt; exists (f' z); apply DF|].
    rewrite Eq, Rabs_mult. apply Rmult_le_compat; try apply Rabs_pos; [|exact HE]. apply HB. unfold Rmin, Rmax in Hz. destruct (Rle_dec u' u); lra. }
  replace (D 0%nat 0%nat x y - D 0%nat 0%nat x' y') with ((D 0%nat 0%nat x y - D 0%nat 0%nat x' y) + (D 0%nat 0%nat x' y - D 0%nat 0%nat x' y')) by ring.
  eapply Rle_trans; [apply Rabs_triang|]. rewrite Rmult_plus_distr_r. apply Rplus_le_compat.
  - apply (K (fun z => D 0%nat 0%nat z y) (fun z => D 1%nat 0%nat z y) x x' (M 1%nat 0%nat) (s_xlim1 s) (s_xlim2 s)); auto; [intros; apply SD|intros; apply HM; auto; lia].
  - apply (K (fun z => D 0%nat 0%nat x' z) (fun z => D 0%nat 1%nat x' z) y y' (M 0%nat 1%nat) (s_ylim1 s) (s_ylim2 s)); auto; [intros; apply SD|intros; apply HM; auto; lia].
Qed.

Lemma clamp_inside lo hi v : inside lo hi v -> clamp lo hi v = v.
Proof. unfold inside, clamp. intros H. rewrite Rmin_left by lra. apply Rmax_right. lra. Qed.

(** *** the step *)
Lemma step_error_any whole (F : flow R) s t f m D M e0 e1 e2 : proper s -> smooth2 D -> bounded_in_box s D M ->
  nodes_at (s_nx s) (s_ny s) (node_x s) (node_y s) m -> contains (s_nx s) (s_ny s) f m -> near_samples s D f e0 e1 e2 ->
  exists m', step whole F s t m = Ok m' /\
    forall i j px py E, (0 <= i < s_ny s)%Z -> (0 <= j < s_nx s)%Z -> whole = true \/ (i < s_ny s - 1 /\ j < s_nx s - 1)%Z ->
      let p := back_trace F (s_rk3 s) (node_x s j) (node_y s i) t (s_dt s) (s_Tp s) in
      inside (s_xlim1 s + E) (s_xlim2 s - E) px -> inside (s_ylim1 s + E) (s_ylim2 s - E) py -> Rabs (px - fst p) <= E -> Rabs (py - snd p) <= E ->
      exists v, m' (MPhi, i, j) = Some (ModelRefMem.D v) /\ Rabs (v - D 0%nat 0%nat px py) <= value_bound (s_dx s) (s_dy s) M e0 e1 e2 + (M 1%nat 0%nat + M 0%nat 1%nat) * E.
Proof.
  intros Hs SD HM HN Hf Hd. destruct (step_inside whole F s t f m Hs HN Hf) as (m' & E & H). exists m'. split; [exact E|].
  intros i j px py err Hi Hj Hw p Ix Iy Ex Ey. pose proof (abs_both _ _ Ex) as Ex'. pose proof (abs_both _ _ Ey) as Ey'. unfold inside in Ix, Iy.
  assert (He : 0 <= err) by (eapply Rle_trans; [apply Rabs_pos|exact Ex]).
  assert (Jx : inside (s_xlim1 s) (s_xlim2 s) (fst p)) by (unfold inside; lra). assert (Jy : inside (s_ylim1 s) (s_ylim2 s) (snd p)) by (unfold inside; lra).
  destruct (H i j Hi Hj Hw Jx Jy) as (cx & cy & (X1 & X2 & X3 & X4) & (Y1 & Y2 & Y3 & Y4) & V & _). fold p in X3, X4, Y3, Y4, V.
  rewrite clamp_inside in X3, X4, Y3, Y4 by assumption. eexists. split; [exact V|]. clear V H.
  unfold inside in Jx, Jy.
  assert (NX : forall z, node_x s (z + 1) = node_x s z + s_dx s) by (intros; apply even_succ). assert (NY : forall z, node_y s (z + 1) = node_y s z + s_dy s) by (intros; apply even_succ).
  destruct (sorted_x s Hs) as (SX1 & SX2 & SX3). destruct (sorted_y s Hs) as (SY1 & SY2 & SY3). pose proof (dx_pos s Hs) as Dx. pose proof (dy_pos s Hs) as Dy.
  assert (LX : forall z, (0 <= z < s_nx s)%Z -> s_xlim1 s <= node_x s z <= s_xlim2 s).
  { intros z Hz. rewrite <- SX1, <- SX2. split.
    - destruct (Z.eq_dec z 0) as [->|]; [lra|left; apply SX3; lia].
    - destruct (Z.eq_dec z (s_nx s - 1)) as [->|]; [lra|left; apply SX3; lia]. }
  assert (LY : forall z, (0 <= z < s_ny s)%Z -> s_ylim1 s <= node_y s z <= s_ylim2 s).
  { intros z Hz. rewrite <- SY1, <- SY2. split.
    - destruct (Z.eq_dec z 0) as [->|]; [lra|left; apply SY3; lia].
    - destruct (Z.eq_dec z (s_ny s - 1)) as [->|]; [lra|left; apply SY3; lia]. }
  pose proof (LX cx ltac:(lia)) as B1. pose proof (LX (cx + 1)%Z ltac:(lia)) as B2. pose proof (LY cy ltac:(lia)) as B3. pose proof (LY (cy + 1)%Z ltac:(lia)) as B4.
  rewrite NX in X4, B2. rewrite NY in Y4, B4.
  set (v := hp _ _ _ _ _ _ _ _ _ _).
  assert (CV : Rabs (v - D 0%nat 0%nat (fst p) (snd p)) <= value_bound (s_dx s) (s_dy s) M e0 e1 e2).
  { unfold v. apply cell_value; try assumption.
    - intros a b u w Ha Hb Hu Hw'. apply HM; auto; lra.
    - unfold corner_near, quad_at. cbn [q0]. apply Hd; lia.
    - unfold corner_near, quad_at. cbn [q1]. rewrite <- NX. apply Hd; lia.
    - unfold corner_near, quad_at. cbn [q2]. rewrite <- NY. apply Hd; lia.
    - unfold corner_near, quad_at. cbn [q3]. rewrite <- NX, <- NY. apply Hd; lia.
    - lra.
    - lra. }
  pose proof (box_lip D M s (fst p) (snd p) px py err SD HM ltac:(lra) ltac:(lra) ltac:(lra) ltac:(lra) ltac:(rewrite Rabs_minus_sym; exact Ex) ltac:(rewrite Rabs_minus_sym; exact Ey)) as BL.
  replace (v - D 0%nat 0%nat px py) with ((v - D 0%nat 0%nat (fst p) (snd p)) + (D 0%nat 0%nat (fst p) (snd p) - D 0%nat 0%nat px py)) by ring.
  eapply Rle_trans; [apply Rabs_triang|]. lra.
Qed.
Lemma step_error_smooth whole (F : flow R) s t f m D M e0 e1 e2 B : proper s -> s_rk3 s = true -> step_number t -> 0 <= s_dt s ->
  true_gradients F (s_Tp s) -> smooth_velocity 3 B F (s_Tp s) -> smooth2 D -> bounded_in_box s D M ->
  nodes_at (s_nx s) (s_ny s) (node_x s) (node_y s) m -> contains (s_nx s) (s_ny s) f m -> near_samples s D f e0 e1 e2 ->
  let lo := IZR t * s_dt s in let hi := (IZR t + 1) * s_dt s in let E := smooth_bound (s_dt s) B in
  exists m', step whole F s t m = Ok m' /\
    forall i j X Y, (0 <= i < s_ny s)%Z -> (0 <= j < s_nx s)%Z -> whole = true \/ (i < s_ny s - 1 /\ j < s_nx s - 1)%Z ->
      follows F (s_Tp s) lo hi X Y -> X hi = node_x s j -> Y hi = node_y s i ->
      inside (s_xlim1 s + E) (s_xlim2 s - E) (X lo) -> inside (s_ylim1 s + E) (s_ylim2 s - E) (Y lo) ->
      exists v, m' (MPhi, i, j) = Some (ModelRefMem.D v) /\
        Rabs (v - D 0%nat 0%nat (X lo) (Y lo)) <= value_bound (s_dx s) (s_dy s) M e0 e1 e2 + (M 1%nat 0%nat + M 0%nat 1%nat) * E.
Proof.
  intros Hs Hr Ht Hdt HG HB SD HM HN Hf Hd lo hi E. destruct (step_error_any whole F s t f m D M e0 e1 e2 Hs SD HM HN Hf Hd) as (m' & Em & H).
  exists m'. split; [exact Em|]. intros i j X Y Hi Hj Hw HX EX EY Ix Iy.
  pose proof (smooth_order F (s_Tp s) t (s_dt s) X Y B Ht Hdt HG HB HX) as (O1 & O2). fold lo hi in O1, O2. rewrite EX, EY in O1, O2. fold E in O1, O2.
  apply (H i j (X lo) (Y lo) E Hi Hj Hw Ix Iy); rewrite Hr; assumption.
Qed.
Lemma step_error_euler whole (F : flow R) s t f m D M e0 e1 e2 K : proper s -> s_rk3 s = false -> step_number t -> 0 <= s_dt s ->
  smooth2 D -> bounded_in_box s D M ->
  nodes_at (s_nx s) (s_ny s) (node_x s) (node_y s) m -> contains (s_nx s) (s_ny s) f m -> near_samples s D f e0 e1 e2 ->
  let lo := IZR t * s_dt s in let hi := (IZR t + 1) * s_dt s in let E := K / 2 * s_dt s ^ 2 in
  exists m', step whole F s t m = Ok m' /\
    forall i j X Y, (0 <= i < s_ny s)%Z -> (0 <= j < s_nx s)%Z -> whole = true \/ (i < s_ny s - 1 /\ j < s_nx s - 1)%Z ->
      follows F (s_Tp s) lo hi X Y -> bounded2 lo hi X K -> bounded2 lo hi Y K -> X hi = node_x s j -> Y hi = node_y s i ->
      inside (s_xlim1 s + E) (s_xlim2 s - E) (X lo) -> inside (s_ylim1 s + E) (s_ylim2 s - E) (Y lo) ->
      exists v, m' (MPhi, i, j) = Some (ModelRefMem.D v) /\
        Rabs (v - D 0%nat 0%nat (X lo) (Y lo)) <= value_bound (s_dx s) (s_dy s) M e0 e1 e2 + (M 1%nat 0%nat + M 0%nat 1%nat) * E.
Proof.
  intros Hs Hr Ht Hdt SD HM HN Hf Hd lo hi E. destruct (step_error_any whole F s t f m D M e0 e1 e2 Hs SD HM HN Hf Hd) as (m' & Em & H).
  exists m'. split; [exact Em|]. intros i j X Y Hi Hj Hw HX BX BY EX EY Ix Iy.
  pose proof (euler_order F (s_Tp s) t (s_dt s) X Y K Ht Hdt HX BX BY) as (O1 & O2). fold lo hi in O1, O2. rewrite EX, EY in O1, O2. fold E in O1, O2.
  apply (H i j (X lo) (Y lo) E Hi Hj Hw Ix Iy); rewrite Hr; assumption.
Qed.
