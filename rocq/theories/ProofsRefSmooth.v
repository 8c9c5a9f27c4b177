(** Derivatives of a smooth velocity along its trajectories. *)
From Coq Require Import ZArith List Reals Lra Lia.
From Coquelicot Require Import Coquelicot.
From Verif Require Import Base Num ModelVec ModelInterp SpecGradient ModelRefMath SpecRef SpecRefOrder ProofsHermite ProofsTaylor ProofsRefMath ProofsRefHermite ProofsRefTrace ProofsRefOrder.
Import ListNotations.
Open Scope R_scope.

(** *** the chain rule *)
Lemma quotient (X : R -> R) s l h b : h <> 0 -> Rabs ((X (s + h) - X s) / h - l) < b -> b <= 1 ->
  exists e, X (s + h) - X s = (l + e) * h /\ Rabs e <= b /\ Rabs (X (s + h) - X s) <= (Rabs l + 1) * Rabs h.
Proof.
  intros Hh H Hb. exists ((X (s + h) - X s) / h - l). assert (E : X (s + h) - X s = (l + ((X (s + h) - X s) / h - l)) * h) by (field; exact Hh).
  split; [exact E|]. split; [lra|]. rewrite E, Rabs_mult. apply Rmult_le_compat_r; [apply Rabs_pos|].
  pose proof (Rabs_triang l ((X (s + h) - X s) / h - l)). lra.
Qed.
Lemma chain3 w wx wy ws X Y S s x' y' s' : diff3 w wx wy ws -> derivable_pt_lim X s x' -> derivable_pt_lim Y s y' -> derivable_pt_lim S s s' ->
  derivable_pt_lim (fun s => w (X s) (Y s) (S s)) s (wx (X s) (Y s) (S s) * x' + wy (X s) (Y s) (S s) * y' + ws (X s) (Y s) (S s) * s').
Proof.
  intros D DX DY DS eps He. set (a := wx _ _ _). set (b := wy _ _ _). set (c := ws _ _ _).
  set (K := Rabs x' + Rabs y' + Rabs s' + 3). set (A := Rabs a + Rabs b + Rabs c + 1).
  assert (HK : 3 <= K) by (unfold K; pose proof (Rabs_pos x'); pose proof (Rabs_pos y'); pose proof (Rabs_pos s'); lra).
  assert (HA : 1 <= A) by (unfold A; pose proof (Rabs_pos a); pose proof (Rabs_pos b); pose proof (Rabs_pos c); lra).
  set (e1 := eps / (4 * K)). assert (H1 : 0 < e1) by (apply Rdiv_lt_0_compat; lra).
  set (e2 := Rmin 1 (eps / (4 * A))). assert (H2 : 0 < e2) by (apply Rmin_glb_lt; [lra|apply Rdiv_lt_0_compat; lra]).
  assert (H21 : e2 <= 1) by apply Rmin_l. assert (H22 : A * e2 <= eps / 4).
  { apply Rle_trans with (A * (eps / (4 * A))); [apply Rmult_le_compat_l; [lra|apply Rmin_r]|right; field; lra]. }
  destruct (D (X s) (Y s) (S s) e1 H1) as (d & Hd & HD). fold a b c in HD.
  destruct (DX e2 H2) as (dx & HX). destruct (DY e2 H2) as (dy & HY). destruct (DS e2 H2) as (ds & HS).
  assert (Hk : 0 < d / K) by (apply Rdiv_lt_0_compat; lra).
  set (m := Rmin (Rmin dx dy) (Rmin ds (d / K))).
  assert (Hm : 0 < m) by (unfold m; repeat apply Rmin_glb_lt; try exact Hk; apply cond_pos).
  exists (mkposreal m Hm). intros h Hh Hhm. cbn [pos] in Hhm.
  assert (M : Rabs h < dx /\ Rabs h < dy /\ Rabs h < ds /\ Rabs h < d / K).
  { unfold m in Hhm. pose proof (Rmin_l (Rmin dx dy) (Rmin ds (d / K))). pose proof (Rmin_r (Rmin dx dy) (Rmin ds (d / K))).
    pose proof (Rmin_l dx dy). pose proof (Rmin_r dx dy). pose proof (Rmin_l ds (d / K)). pose proof (Rmin_r ds (d / K)). repeat split; lra. }
  destruct M as (M1 & M2 & M3 & M4).
  destruct (quotient X s x' h e2 Hh (HX h Hh M1) H21) as (ex & EX & BX & CX).
  destruct (quotient Y s y' h e2 Hh (HY h Hh M2) H21) as (ey & EY & BY & CY).
  destruct (quotient S s s' h e2 Hh (HS h Hh M3) H21) as (es & ES & BS & CS).
  assert (Ph : 0 < Rabs h) by (apply Rabs_pos_lt; exact Hh).
  assert (HKh : K * Rabs h < d) by (apply (Rmult_lt_compat_l K) in M4; [|lra]; replace (K * (d / K)) with d in M4 by (field; lra); exact M4).
  assert (P : forall l, Rabs l + 1 <= K -> (Rabs l + 1) * Rabs h < d) by (intros l Hl; apply Rle_lt_trans with (K * Rabs h); [apply Rmult_le_compat_r; lra|exact HKh]).
  assert (Q := HD (X (s + h)) (Y (s + h)) (S (s + h))). pose proof (Rabs_pos x'). pose proof (Rabs_pos y'). pose proof (Rabs_pos s').
  specialize (Q ltac:(eapply Rle_lt_trans; [exact CX|apply P; unfold K; lra]) ltac:(eapply Rle_lt_trans; [exact CY|apply P; unfold K; lra]) ltac:(eapply Rle_lt_trans; [exact CS|apply P; unfold K; lra])).
  set (rem := w (X (s + h)) (Y (s + h)) (S (s + h)) - w (X s) (Y s) (S s) - _) in Q.
  replace ((w (X (s + h)) (Y (s + h)) (S (s + h)) - w (X s) (Y s) (S s)) / h - (a * x' + b * y' + c * s')) with (rem / h + (a * ex + b * ey + c * es))
    by (unfold rem; rewrite EX, EY, ES; field; exact Hh).
  clearbody rem. eapply Rle_lt_trans; [apply Rabs_triang|].
  assert (R1 : Rabs (rem / h) <= eps / 4).
  { unfold Rdiv at 1. rewrite Rabs_mult, Rabs_inv. apply (Rmult_le_reg_r (Rabs h)); [exact Ph|]. rewrite Rmult_assoc, Rinv_l, Rmult_1_r by lra.
    eapply Rle_trans; [exact Q|]. replace (eps / 4 * Rabs h) with (e1 * (K * Rabs h)) by (unfold e1; field; lra). apply Rmult_le_compat_l; [lra|]. unfold K. lra. }
  assert (R2 : Rabs (a * ex + b * ey + c * es) <= A * e2).
  { eapply Rle_trans; [apply Rabs_triang|]. eapply Rle_trans; [apply Rplus_le_compat_r, Rabs_triang|]. rewrite !Rabs_mult.
    pose proof (Rmult_le_compat_l (Rabs a) _ _ (Rabs_pos a) BX). pose proof (Rmult_le_compat_l (Rabs b) _ _ (Rabs_pos b) BY). pose proof (Rmult_le_compat_l (Rabs c) _ _ (Rabs_pos c) BS).
    unfold A. lra. }
  lra.
Qed.

(** *** bounds of smooth functions *)
Lemma smooth_bounded n B w : smooth3 n B w -> forall x y s, Rabs (w x y s) <= B.
Proof. destruct n; intros (H & _); exact H. Qed.
Lemma smooth_less n B w : smooth3 (S n) B w -> smooth3 n B w.
Proof.
  revert w. induction n as [|n IH]; intros w (H & wx & wy & ws & D & Hx & Hy & Hs); split; try exact H; [exact I|].
  exists wx, wy, ws. split; [exact D|]. repeat split; apply IH; assumption.
Qed.
Lemma smooth_lipschitz n B w x y s p q r : smooth3 (S n) B w ->
  Rabs (w p q r - w x y s) <= B * (Rabs (p - x) + Rabs (q - y) + Rabs (r - s)).
Proof.
  intros (_ & wx & wy & ws & D & Hx & Hy & Hs).
  replace (B * (Rabs (p - x) + Rabs (q - y) + Rabs (r - s))) with (Rabs (p - x) * B + Rabs (q - y) * B + Rabs (r - s) * B) by ring.
  pose proof (smooth_bounded _ _ _ Hx) as Bx. pose proof (smooth_bounded _ _ _ Hy) as By. pose proof (smooth_bounded _ _ _ Hs) as Bs.
  set (g t := w (x + (p - x) * t) (y + (q - y) * t) (s + (r - s) * t)).
  set (g' t := wx (x + (p - x) * t) (y + (q - y) * t) (s + (r - s) * t) * (p - x) + wy (x + (p - x) * t) (y + (q - y) * t) (s + (r - s) * t) * (q - y) + ws (x + (p - x) * t) (y + (q - y) * t) (s + (r - s) * t) * (r - s)).
  assert (DL : forall a b t, derivable_pt_lim (fun t => a + b * t) t b) by (intros; apply is_derive_Reals; auto_derive; [auto|ring]).
  assert (DG : forall t, derivable_pt_lim g t (g' t)) by (intros t; apply (chain3 w wx wy ws (fun t => x + (p - x) * t) (fun t => y + (q - y) * t) (fun t => s + (r - s) * t)); auto).
  destruct (MVT_cor2 g g' 0 1 ltac:(lra) (fun t _ => DG t)) as (t & E & _).
  replace (w p q r - w x y s) with (g 1 - g 0) by (unfold g; f_equal; [f_equal; ring|f_equal; f_equal; ring]). rewrite E. unfold g'.
  rewrite Rminus_0_r, Rmult_1_r. eapply Rle_trans; [apply Rabs_triang|]. eapply Rle_trans; [apply Rplus_le_compat_r, Rabs_triang|]. rewrite !Rabs_mult.
  rewrite !(Rmult_comm (Rabs (wx _ _ _))), !(Rmult_comm (Rabs (wy _ _ _))), !(Rmult_comm (Rabs (ws _ _ _))).
  apply Rplus_le_compat; [apply Rplus_le_compat|]; apply Rmult_le_compat_l; auto using Rabs_pos.
Qed.

(** *** along a trajectory *)
Section Along.
Variables (u v : R -> R -> R -> R) (B lo hi : R) (X Y : R -> R).
Hypothesis HB : 0 <= B.
Hypothesis DX : forall s, lo <= s <= hi -> derivable_pt_lim X s (u (X s) (Y s) s).
Hypothesis DY : forall s, lo <= s <= hi -> derivable_pt_lim Y s (v (X s) (Y s) s).
Notation om := (1 + 2 * B).
Notation on w := (fun s => w (X s) (Y s) s).
Let mat (wx wy ws : R -> R -> R -> R) s := u (X s) (Y s) s * wx (X s) (Y s) s + v (X s) (Y s) s * wy (X s) (Y s) s + ws (X s) (Y s) s.

Lemma along w wx wy ws : diff3 w wx wy ws -> forall s, lo <= s <= hi -> derivable_pt_lim (on w) s (mat wx wy ws s).
Proof.
  intros D s Hs. eapply ProofsTaylor.d_eq; [apply (chain3 w wx wy ws X Y (fun s => s)); [exact D|apply DX; exact Hs|apply DY; exact Hs|apply derivable_pt_lim_id]|].
  unfold mat. ring.
Qed.
(** derivatives of order up to 2 of a function along the path, with their bounds *)
Definition path1 (w : R -> R -> R -> R) : Prop := exists W1, derivs lo hi (on w) [W1] /\ forall s, lo <= s <= hi -> Rabs (on w s) <= B /\ Rabs (W1 s) <= B * om.
Definition path2 (w : R -> R -> R -> R) : Prop := exists W1 W2, derivs lo hi (on w) [W1; W2] /\
  forall s, lo <= s <= hi -> Rabs (on w s) <= B /\ Rabs (W1 s) <= B * om /\ Rabs (W2 s) <= 2 * B * om ^ 2.
Definition path3 (w : R -> R -> R -> R) : Prop := exists W1 W2 W3, derivs lo hi (on w) [W1; W2; W3] /\
  forall s, lo <= s <= hi -> Rabs (on w s) <= B /\ Rabs (W1 s) <= B * om /\ Rabs (W2 s) <= 2 * B * om ^ 2 /\ Rabs (W3 s) <= 6 * B * om ^ 3.

Lemma mul_le a b p q : Rabs a <= p -> Rabs b <= q -> Rabs (a * b) <= p * q.
Proof. intros Ha Hb. rewrite Rabs_mult. apply Rmult_le_compat; auto using Rabs_pos. Qed.
Lemma d_leibniz (f g f1 g1 : R -> R) s : derivable_pt_lim f s (f1 s) -> derivable_pt_lim g s (g1 s) -> derivable_pt_lim (fun s => f s * g s) s (f1 s * g s + f s * g1 s).
Proof. intros Hf Hg. apply (derivable_pt_lim_mult f g s); assumption. Qed.
Lemma d_sum (f g f1 g1 : R -> R) s : derivable_pt_lim f s (f1 s) -> derivable_pt_lim g s (g1 s) -> derivable_pt_lim (fun s => f s + g s) s (f1 s + g1 s).
Proof. intros Hf Hg. apply (derivable_pt_lim_plus f g s); assumption. Qed.
Ltac tri := repeat (eapply Rle_trans; [apply Rabs_triang|]; apply Rplus_le_compat).

Lemma smooth_path1 w : (forall x y s, Rabs (u x y s) <= B) -> (forall x y s, Rabs (v x y s) <= B) -> smooth3 1 B w -> path1 w.
Proof.
  intros Hu Hv (Hw & wx & wy & ws & D & (Hx & _) & (Hy & _) & (Hs & _)). exists (mat wx wy ws).
  split; [split; [apply along; exact D|exact I]|]. intros s Hr. split; [apply Hw|]. unfold mat.
  replace (B * om) with (B * B + B * B + B) by ring. tri; try apply mul_le; auto.
Qed.
Lemma smooth_path2 w : path1 u -> path1 v -> (forall w, smooth3 1 B w -> path1 w) -> smooth3 2 B w -> path2 w.
Proof.
  intros (U1 & (DU & _) & BU) (V1 & (DV & _) & BV) P (Hw & wx & wy & ws & D & Hx & Hy & Hs).
  destruct (P _ Hx) as (X1 & (DX1 & _) & BX). destruct (P _ Hy) as (Y1 & (DY1 & _) & BY). destruct (P _ Hs) as (S1 & (DS1 & _) & BS).
  exists (mat wx wy ws), (fun s => (U1 s * on wx s + on u s * X1 s) + (V1 s * on wy s + on v s * Y1 s) + S1 s). split.
  - split; [apply along; exact D|]. split; [|exact I]. intros s Hr. unfold mat.
    apply (d_sum (fun s => on u s * on wx s + on v s * on wy s) (on ws) (fun s => (U1 s * on wx s + on u s * X1 s) + (V1 s * on wy s + on v s * Y1 s)) S1); [|apply DS1; exact Hr].
    apply (d_sum (fun s => on u s * on wx s) (fun s => on v s * on wy s) (fun s => U1 s * on wx s + on u s * X1 s) (fun s => V1 s * on wy s + on v s * Y1 s));
    [apply (d_leibniz (on u) (on wx) U1 X1)|apply (d_leibniz (on v) (on wy) V1 Y1)]; auto.
  - intros s Hr. destruct (BU s Hr), (BV s Hr), (BX s Hr), (BY s Hr), (BS s Hr). split; [apply Hw|]. split.
    + unfold mat. replace (B * om) with (B * B + B * B + B) by ring. tri; try apply mul_le; auto.
    + apply Rle_trans with (((B * om * B + B * (B * om)) + (B * om * B + B * (B * om))) + B * om); [tri; try apply mul_le; auto|].
      assert (0 <= B * om) by (apply Rmult_le_pos; lra).
      replace (2 * B * om ^ 2) with (((B * om * B + B * (B * om)) + (B * om * B + B * (B * om))) + B * om + B * om) by ring. lra.
Qed.
Lemma smooth_path3 w : path2 u -> path2 v -> (forall w, smooth3 2 B w -> path2 w) -> smooth3 3 B w -> path3 w.
Proof.
  intros (U1 & U2 & (DU & DU2 & _) & BU) (V1 & V2 & (DV & DV2 & _) & BV) P (Hw & wx & wy & ws & D & Hx & Hy & Hs).
  destruct (P _ Hx) as (X1 & X2 & (DX1 & DX2 & _) & BX). destruct (P _ Hy) as (Y1 & Y2 & (DY1 & DY2 & _) & BY). destruct (P _ Hs) as (S1 & S2 & (DS1 & DS2 & _) & BS).
  exists (mat wx wy ws), (fun s => (U1 s * on wx s + on u s * X1 s) + (V1 s * on wy s + on v s * Y1 s) + S1 s),
    (fun s => ((U2 s * on wx s + U1 s * X1 s) + (U1 s * X1 s + on u s * X2 s)) + ((V2 s * on wy s + V1 s * Y1 s) + (V1 s * Y1 s + on v s * Y2 s)) + S2 s). split.
  - split; [apply along; exact D|]. split; [|split; [|exact I]]; intros s Hr.
    + unfold mat.
      apply (d_sum (fun s => on u s * on wx s + on v s * on wy s) (on ws) (fun s => (U1 s * on wx s + on u s * X1 s) + (V1 s * on wy s + on v s * Y1 s)) S1); [|apply DS1; exact Hr].
      apply (d_sum (fun s => on u s * on wx s) (fun s => on v s * on wy s) (fun s => U1 s * on wx s + on u s * X1 s) (fun s => V1 s * on wy s + on v s * Y1 s));
      [apply (d_leibniz (on u) (on wx) U1 X1)|apply (d_leibniz (on v) (on wy) V1 Y1)]; auto.
    + apply (d_sum (fun s => (U1 s * on wx s + on u s * X1 s) + (V1 s * on wy s + on v s * Y1 s)) S1
        (fun s => ((U2 s * on wx s + U1 s * X1 s) + (U1 s * X1 s + on u s * X2 s)) + ((V2 s * on wy s + V1 s * Y1 s) + (V1 s * Y1 s + on v s * Y2 s))) S2); [|apply DS2; exact Hr].
      apply (d_sum (fun s => U1 s * on wx s + on u s * X1 s) (fun s => V1 s * on wy s + on v s * Y1 s)
        (fun s => (U2 s * on wx s + U1 s * X1 s) + (U1 s * X1 s + on u s * X2 s)) (fun s => (V2 s * on wy s + V1 s * Y1 s) + (V1 s * Y1 s + on v s * Y2 s))).
      * apply (d_sum (fun s => U1 s * on wx s) (fun s => on u s * X1 s) (fun s => U2 s * on wx s + U1 s * X1 s) (fun s => U1 s * X1 s + on u s * X2 s));
        [apply (d_leibniz U1 (on wx) U2 X1)|apply (d_leibniz (on u) X1 U1 X2)]; auto.
      * apply (d_sum (fun s => V1 s * on wy s) (fun s => on v s * Y1 s) (fun s => V2 s * on wy s + V1 s * Y1 s) (fun s => V1 s * Y1 s + on v s * Y2 s));
        [apply (d_leibniz V1 (on wy) V2 Y1)|apply (d_leibniz (on v) Y1 V1 Y2)]; auto.
  - intros s Hr. destruct (BU s Hr) as (? & ? & ?), (BV s Hr) as (? & ? & ?), (BX s Hr) as (? & ? & ?), (BY s Hr) as (? & ? & ?), (BS s Hr) as (? & ? & ?).
    assert (O1 : 0 <= B * om) by (apply Rmult_le_pos; lra). assert (O2 : 0 <= B * om ^ 2) by (apply Rmult_le_pos; [lra|apply pow_le; lra]).
    split; [apply Hw|]. split; [|split].
    + unfold mat. replace (B * om) with (B * B + B * B + B) by ring. tri; try apply mul_le; auto.
    + apply Rle_trans with (((B * om * B + B * (B * om)) + (B * om * B + B * (B * om))) + B * om); [tri; try apply mul_le; auto|].
      replace (2 * B * om ^ 2) with (((B * om * B + B * (B * om)) + (B * om * B + B * (B * om))) + B * om + B * om) by ring. lra.
    + set (m2 := 2 * B * om ^ 2) in *.
      apply Rle_trans with (((m2 * B + B * om * (B * om)) + (B * om * (B * om) + B * m2)) + ((m2 * B + B * om * (B * om)) + (B * om * (B * om) + B * m2)) + m2); [tri; try apply mul_le; auto|].
      replace (6 * B * om ^ 3) with (((m2 * B + B * om * (B * om)) + (B * om * (B * om) + B * m2)) + ((m2 * B + B * om * (B * om)) + (B * om * (B * om) + B * m2)) + m2 + 4 * (B * om ^ 2)) by (unfold m2; ring). lra.
Qed.
Lemma smooth_paths : smooth3 3 B u -> smooth3 3 B v -> path3 u /\ path3 v.
Proof.
  intros Hu Hv. pose proof (smooth_bounded _ _ _ Hu) as Bu. pose proof (smooth_bounded _ _ _ Hv) as Bv.
  assert (P1 : forall w, smooth3 1 B w -> path1 w) by (intros; apply smooth_path1; auto).
  assert (P2 : forall w, smooth3 2 B w -> path2 w) by (intros; apply smooth_path2; auto using smooth_less).
  split; apply smooth_path3; auto using smooth_less.
Qed.
End Along.

(** *** smooth velocities satisfy the hypotheses of the order theorem *)
Lemma smooth_gradient (w : R -> R -> R -> R) wx wy ws x y s a b : diff3 w wx wy ws -> differentiable_pt_lim (fun x y => w x y s) x y a b -> wx x y s = a /\ wy x y s = b.
Proof.
  intros D H. destruct (differentiable_pt_lim_unique _ _ _ _ _ H) as (Ea & Eb). rewrite <- Ea, <- Eb.
  assert (K : forall c t, derivable_pt_lim (fun t => c) t 0) by (intros; apply derivable_pt_lim_const).
  split; symmetry; apply is_derive_unique, is_derive_Reals; eapply ProofsTaylor.d_eq.
  - apply (chain3 w wx wy ws (fun t => t) (fun _ => y) (fun _ => s)); [exact D|apply derivable_pt_lim_id|apply K..].
  - ring.
  - apply (chain3 w wx wy ws (fun _ => x) (fun t => t) (fun _ => s)); [exact D|apply K|apply derivable_pt_lim_id|apply K].
  - ring.
Qed.
Lemma smooth_calm F Tp B x y lo hi r : true_gradients F Tp -> smooth_velocity 3 B F Tp -> calm F Tp x y lo hi r B (2 * B) B.
Proof.
  intros HF ((Hu & ux & uy & us & Du & Hux & Huy & _) & (Hv & vx & vy & vs & Dv & Hvx & Hvy & _)) p q s _ _ _.
  assert (G : forall x y s, ux x y s = gradUx F x y s Tp /\ uy x y s = gradUy F x y s Tp /\ vx x y s = gradVx F x y s Tp /\ vy x y s = gradVy F x y s Tp).
  { intros a b c. destruct (HF a b c) as (H1 & H2). destruct (smooth_gradient _ _ _ _ _ _ _ _ _ Du H1). destruct (smooth_gradient _ _ _ _ _ _ _ _ _ Dv H2). auto. }
  split; [apply Hu|]. split; [apply Hv|]. destruct (G p q s) as (<- & <- & <- & <-). destruct (G x y hi) as (<- & <- & <- & <-).
  pose proof (smooth_bounded _ _ _ Hux p q s). pose proof (smooth_bounded _ _ _ Huy p q s). pose proof (smooth_bounded _ _ _ Hvx p q s). pose proof (smooth_bounded _ _ _ Hvy p q s).
  split; [lra|]. split; [lra|]. cbv zeta. repeat split; eapply smooth_lipschitz; eassumption.
Qed.
Lemma smooth_order F Tp t dt X Y B : step_number t -> 0 <= dt -> true_gradients F Tp -> smooth_velocity 3 B F Tp ->
  let lo := IZR t * dt in let hi := (IZR t + 1) * dt in
  follows F Tp lo hi X Y ->
  let p := back_trace F true (X hi) (Y hi) t dt Tp in
  Rabs (X lo - fst p) <= smooth_bound dt B /\ Rabs (Y lo - snd p) <= smooth_bound dt B.
Proof.
  intros Ht Hdt HF HS lo hi HX. pose proof HS as (Hu & Hv).
  assert (HB : 0 <= B) by (eapply Rle_trans; [apply Rabs_pos|apply (smooth_bounded _ _ _ Hu 0 0 0)]).
  destruct (smooth_paths (fun x y s => Velx F x y s Tp) (fun x y s => Vely F x y s Tp) B lo hi X Y HB (fun s Hs => proj1 (HX s Hs)) (fun s Hs => proj2 (HX s Hs)) Hu Hv) as (PX & PY).
  destruct PX as (U1 & U2 & U3 & (DU1 & DU2 & DU3 & _) & BU). destruct PY as (V1 & V2 & V3 & (DV1 & DV2 & DV3 & _) & BV).
  set (w := 1 + 2 * B) in *.
  assert (E : smooth_bound dt B = trace_bound dt B (B * w) (2 * B * w ^ 2) (6 * B * w ^ 3) (2 * B) B) by (unfold smooth_bound, trace_bound; fold w; cbv zeta; field).
  cbv zeta. rewrite E. apply (rk3_order F Tp t dt X Y); try assumption.
  - exists (fun s => Velx F (X s) (Y s) s Tp), U1, U2, U3. split; [|exact BU]. repeat split; auto. intros s Hs. apply HX; exact Hs.
  - exists (fun s => Vely F (X s) (Y s) s Tp), V1, V2, V3. split; [|exact BV]. repeat split; auto. intros s Hs. apply HX; exact Hs.
  - apply smooth_calm; assumption.
Qed.
