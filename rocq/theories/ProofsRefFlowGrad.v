(** How the place of origin of a point depends on the point, to first order in the time step. *)
From Coq Require Import ZArith List String Reals Lra Lia.
From Coquelicot Require Import Coquelicot.
From Verif Require Import Base Num ModelVec SpecGradient ModelRefMath ModelRefMem ModelRef SpecRef SpecRefRun SpecRefOrder SpecRefStep SpecRefSolve SpecRefGrad
  ProofsTaylor ProofsRefMath ProofsRefHermite ProofsRefTrace ProofsRefOrder ProofsRefSmooth ProofsRefSmoothCases ProofsRefScale ProofsRefStepErr ProofsPicard ProofsRefSolve ProofsRefGrad.
Import ListNotations.
Open Scope R_scope.

Lemma graded_lipschitz n V K w x y s p q r : graded3 (S n) V K w ->
  Rabs (w p q r - w x y s) <= V * K * (Rabs (p - x) + Rabs (q - y) + Rabs (r - s)).
Proof.
  intros (_ & wx & wy & ws & D & Hx & Hy & Hs). set (B := V * K).
  replace (B * (Rabs (p - x) + Rabs (q - y) + Rabs (r - s))) with (Rabs (p - x) * B + Rabs (q - y) * B + Rabs (r - s) * B) by ring.
  pose proof (graded_bounded _ _ _ _ Hx) as Bx. pose proof (graded_bounded _ _ _ _ Hy) as By. pose proof (graded_bounded _ _ _ _ Hs) as Bs. fold B in Bx, By, Bs.
  set (g t := w (x + (p - x) * t) (y + (q - y) * t) (s + (r - s) * t)).
  set (g' t := wx (x + (p - x) * t) (y + (q - y) * t) (s + (r - s) * t) * (p - x) + wy (x + (p - x) * t) (y + (q - y) * t) (s + (r - s) * t) * (q - y) + ws (x + (p - x) * t) (y + (q - y) * t) (s + (r - s) * t) * (r - s)).
  assert (DL : forall a b t, derivable_pt_lim (fun t => a + b * t) t b) by (intros; apply is_derive_Reals; auto_derive; [auto|ring]).
  assert (DG : forall t, derivable_pt_lim g t (g' t)) by (intros t; apply (chain3 w wx wy ws (fun t => x + (p - x) * t) (fun t => y + (q - y) * t) (fun t => s + (r - s) * t)); auto).
  destruct (MVT_cor2 g g' 0 1 ltac:(lra) (fun t _ => DG t)) as (t & E & _).
  replace (w p q r - w x y s) with (g 1 - g 0) by (unfold g; f_equal; [f_equal; ring|f_equal; f_equal; ring]). rewrite E. unfold g'.
  rewrite Rminus_0_r, Rmult_1_r. eapply Rle_trans; [apply Rabs_triang|]. eapply Rle_trans; [apply Rplus_le_compat_r, Rabs_triang|]. rewrite !Rabs_mult.
  rewrite !(Rmult_comm (Rabs (wx _ _ _))), !(Rmult_comm (Rabs (wy _ _ _))), !(Rmult_comm (Rabs (ws _ _ _))).
  apply Rplus_le_compat; [apply Rplus_le_compat|]; apply Rmult_le_compat_l; auto using Rabs_pos.
Qed.

(** a component of the velocity with its gradient: at most L each and N-Lipschitz *)
Definition tame (L N : R) (w wx wy : R -> R -> R -> R) : Prop :=
  (forall x y s, differentiable_pt_lim (fun x y => w x y s) x y (wx x y s) (wy x y s)) /\
  (forall x y s, Rabs (wx x y s) <= L /\ Rabs (wy x y s) <= L) /\
  (forall p q r x y s, Rabs (wx p q r - wx x y s) <= N * (Rabs (p - x) + Rabs (q - y) + Rabs (r - s)) /\
     Rabs (wy p q r - wy x y s) <= N * (Rabs (p - x) + Rabs (q - y) + Rabs (r - s))).
Lemma tame_of V K w wx wy : graded3 2 V K w -> (forall x y s, differentiable_pt_lim (fun x y => w x y s) x y (wx x y s) (wy x y s)) -> tame (V * K) (V * K ^ 2) w wx wy.
Proof.
  intros (H0 & ax & ay & a_s & D & Hx & Hy & _) HD.
  assert (E : forall x y s, wx x y s = ax x y s /\ wy x y s = ay x y s).
  { intros x y s. destruct (differentiable_pt_lim_unique _ _ _ _ _ (HD x y s)) as (E1 & E2). destruct (differentiable_pt_lim_unique _ _ _ _ _ (diff3_plane _ _ _ _ x y s D)) as (E3 & E4). split; congruence. }
  pose proof (graded_bounded _ _ _ _ Hx) as Bx. pose proof (graded_bounded _ _ _ _ Hy) as By.
  replace (V * K ^ 2) with (V * K * K) by ring.
  split; [exact HD|]. split; intros; rewrite ?(proj1 (E _ _ _)), ?(proj2 (E _ _ _)); split; auto; eapply graded_lipschitz; eassumption.
Qed.
(** difference of the velocity at two points of the same time *)
Lemma tame_diff L N w wx wy x y p q s : tame L N w wx wy -> exists t, 0 <= t <= 1 /\
  w p q s - w x y s = wx (x + (p - x) * t) (y + (q - y) * t) s * (p - x) + wy (x + (p - x) * t) (y + (q - y) * t) s * (q - y).
Proof.
  intros (D & _).
  assert (DL : forall a b t, derivable_pt_lim (fun t => a + b * t) t b) by (intros; apply is_derive_Reals; auto_derive; [auto|ring]).
  destruct (MVT_cor2 (fun t => w (x + (p - x) * t) (y + (q - y) * t) s)
    (fun t => wx (x + (p - x) * t) (y + (q - y) * t) s * (p - x) + wy (x + (p - x) * t) (y + (q - y) * t) s * (q - y)) 0 1 ltac:(lra)) as (t & E & Ht).
  { intros t _. apply (derivable_pt_lim_comp_2d (fun x y => w x y s) (fun t => x + (p - x) * t) (fun t => y + (q - y) * t) t); [apply D|apply DL|apply DL]. }
  exists t. split; [lra|]. rewrite Rminus_0_r, Rmult_1_r, !Rmult_0_r, !Rplus_0_r, !Rmult_1_r in E. rewrite <- E. f_equal. f_equal; ring.
Qed.
Lemma tame_lip L N w wx wy x y p q s : tame L N w wx wy -> Rabs (w p q s - w x y s) <= L * (Rabs (p - x) + Rabs (q - y)).
Proof.
  intros T. destruct (tame_diff L N w wx wy x y p q s T) as (t & _ & ->). destruct T as (_ & B & _). destruct (B (x + (p - x) * t) (y + (q - y) * t) s) as (B1 & B2).
  eapply Rle_trans; [apply Rabs_triang|]. rewrite !Rabs_mult, Rmult_plus_distr_l. apply Rplus_le_compat; apply Rmult_le_compat_r; try apply Rabs_pos; assumption.
Qed.

Section Spread.
Variables (u ux uy v vx vy : R -> R -> R -> R) (V L N lo hi : R).
Hypothesis Hlh : lo <= hi.
Hypothesis Tu : tame L N u ux uy.
Hypothesis Tv : tame L N v vx vy.
Hypothesis HL : L * (hi - lo) <= 1 / 4.
Variables (X Y X' Y' : R -> R).
Hypothesis DX : forall s, lo <= s <= hi -> derivable_pt_lim X s (u (X s) (Y s) s) /\ derivable_pt_lim Y s (v (X s) (Y s) s).
Hypothesis DX' : forall s, lo <= s <= hi -> derivable_pt_lim X' s (u (X' s) (Y' s) s) /\ derivable_pt_lim Y' s (v (X' s) (Y' s) s).
Let W1 s := X' s - X s.
Let W2 s := Y' s - Y s.
Lemma L_pos : 0 <= L.
Proof. destruct Tu as (_ & B & _). eapply Rle_trans; [apply Rabs_pos|apply (B 0 0 0)]. Qed.
Lemma N_pos : 0 <= N.
Proof.
  destruct Tu as (_ & _ & B). destruct (B 1 0 0 0 0 0) as (B1 & _). rewrite !Rminus_0_r, Rabs_R0, Rabs_R1 in B1. pose proof (Rabs_pos (ux 1 0 0 - ux 0 0 0)). lra.
Qed.
Lemma DW s : lo <= s <= hi -> derivable_pt_lim W1 s (u (X' s) (Y' s) s - u (X s) (Y s) s) /\ derivable_pt_lim W2 s (v (X' s) (Y' s) s - v (X s) (Y s) s).
Proof. intros Hs. destruct (DX s Hs), (DX' s Hs). split; [apply (derivable_pt_lim_minus X' X)|apply (derivable_pt_lim_minus Y' Y)]; assumption. Qed.
Lemma moved (W w : R -> R) C s : (forall s, lo <= s <= hi -> derivable_pt_lim W s (w s)) -> (forall s, lo <= s <= hi -> Rabs (w s) <= C) -> lo <= s <= hi ->
  Rabs (W s - W hi) <= C * (hi - s).
Proof.
  intros D B Hs. destruct (Req_dec s hi) as [->|Ne]; [rewrite !Rminus_eq_0, Rabs_R0; lra|].
  destruct (MVT_cor2 W w s hi ltac:(lra) ltac:(intros; apply D; lra)) as (c & E & Hc). rewrite Rabs_minus_sym, E, Rabs_mult, (Rabs_pos_eq (hi - s)) by lra.
  apply Rmult_le_compat_r; [lra|]. apply B. lra.
Qed.
Lemma top (W w : R -> R) : (forall s, lo <= s <= hi -> derivable_pt_lim W s (w s)) -> exists c, lo <= c <= hi /\ forall s, lo <= s <= hi -> Rabs (W s) <= Rabs (W c).
Proof.
  intros D. destruct (continuity_ab_maj (fun s => Rabs (W s)) lo hi Hlh) as (c & H & Hc); [|exists c; auto].
  intros s Hs. apply (continuity_pt_comp W Rabs); [apply derivable_continuous_pt; exists (w s); apply D; exact Hs|apply Rcontinuity_abs].
Qed.
Lemma speeds B1 B2 s : lo <= s <= hi -> Rabs (W1 s) <= B1 -> Rabs (W2 s) <= B2 ->
  Rabs (u (X' s) (Y' s) s - u (X s) (Y s) s) <= L * (B1 + B2) /\ Rabs (v (X' s) (Y' s) s - v (X s) (Y s) s) <= L * (B1 + B2).
Proof.
  intros Hs H1 H2. pose proof L_pos. split; (eapply Rle_trans; [eapply tame_lip; eassumption|]); apply Rmult_le_compat_l; auto; fold (W1 s) (W2 s); lra.
Qed.
Lemma spread e : Rabs (W1 hi) <= e -> Rabs (W2 hi) <= e -> forall s, lo <= s <= hi -> Rabs (W1 s) <= 2 * e /\ Rabs (W2 s) <= 2 * e.
Proof.
  intros E1 E2. destruct (top W1 _ (fun s Hs => proj1 (DW s Hs))) as (c & Hc & C1). destruct (top W2 _ (fun s Hs => proj2 (DW s Hs))) as (d & Hd & C2).
  set (B := Rabs (W1 c) + Rabs (W2 d)) in *. pose proof L_pos as LP. assert (PB : 0 <= B) by (unfold B; pose proof (Rabs_pos (W1 c)); pose proof (Rabs_pos (W2 d)); lra).
  assert (K : forall s, lo <= s <= hi -> L * B * (hi - s) <= B / 4).
  { intros s Hs. replace (L * B * (hi - s)) with (B * (L * (hi - s))) by ring. unfold Rdiv. apply Rmult_le_compat_l; [exact PB|].
    apply Rle_trans with (L * (hi - lo)); [apply Rmult_le_compat_l; lra|lra]. }
  assert (F1 : forall s, lo <= s <= hi -> Rabs (W1 s) <= e + B / 4 /\ Rabs (W2 s) <= e + B / 4).
  { intros s Hs.
    pose proof (moved W1 _ (L * B) s (fun s Hs => proj1 (DW s Hs)) (fun s Hs => proj1 (speeds _ _ s Hs (C1 s Hs) (C2 s Hs))) Hs) as Q1.
    pose proof (moved W2 _ (L * B) s (fun s Hs => proj2 (DW s Hs)) (fun s Hs => proj2 (speeds _ _ s Hs (C1 s Hs) (C2 s Hs))) Hs) as Q2.
    specialize (K s Hs). pose proof (Rabs_triang_inv (W1 s) (W1 hi)). pose proof (Rabs_triang_inv (W2 s) (W2 hi)). lra. }
  assert (HB : B <= 4 * e) by (unfold B in *; pose proof (proj1 (F1 c Hc)); pose proof (proj2 (F1 d Hd)); lra).
  intros s Hs. destruct (F1 s Hs). lra.
Qed.
(** to first order in the time *)
Lemma one_component w wx wy (W : R -> R) (e1 e2 e : R) : tame L N w wx wy ->
  (forall s, lo <= s <= hi -> derivable_pt_lim W s (w (X' s) (Y' s) s - w (X s) (Y s) s)) ->
  W1 hi = e1 -> W2 hi = e2 -> Rabs e1 <= e -> Rabs e2 <= e ->
  (forall s, lo <= s <= hi -> Rabs (X s - X hi) <= V * (hi - s) /\ Rabs (Y s - Y hi) <= V * (hi - s)) -> 0 <= V ->
  Rabs (W lo - (W hi - (hi - lo) * (wx (X hi) (Y hi) hi * e1 + wy (X hi) (Y hi) hi * e2))) <=
    4 * (N * (1 + 2 * V) + 2 * L ^ 2) * (hi - lo) ^ 2 * e + 16 * N * (hi - lo) * (e * e).
Proof.
  intros T D E1 E2 H1 H2 NX PV. pose proof L_pos as LP. pose proof N_pos as NP. assert (Pe : 0 <= e) by (eapply Rle_trans; [apply Rabs_pos|exact H1]).
  destruct (Req_dec lo hi) as [Q|Q].
  { rewrite Q. replace (W hi - (W hi - (hi - hi) * (wx (X hi) (Y hi) hi * e1 + wy (X hi) (Y hi) hi * e2))) with 0 by ring. rewrite Rabs_R0, Rminus_eq_0. right. ring. }
  pose proof (spread e ltac:(rewrite E1; exact H1) ltac:(rewrite E2; exact H2)) as SP.
  destruct (MVT_cor2 W _ lo hi ltac:(lra) D) as (c & E & Hc). cbv beta in E. assert (Hc' : lo <= c <= hi) by lra.
  destruct (tame_diff L N w wx wy (X c) (Y c) (X' c) (Y' c) c T) as (t & Ht & ET). rewrite ET in E. fold (W1 c) (W2 c) in E.
  set (p := X c + W1 c * t) in E. set (q := Y c + W2 c * t) in E.
  destruct (SP c Hc') as (S1 & S2). destruct (NX c Hc') as (X1 & Y1). destruct T as (_ & TB & TN). destruct (TB p q c) as (B1 & B2). destruct (TN p q c (X hi) (Y hi) hi) as (N1 & N2).
  set (dt := hi - lo) in *. assert (Hdt : 0 <= dt) by (unfold dt; lra). assert (Hcs : 0 <= hi - c <= dt) by (unfold dt; lra).
  assert (VC : V * (hi - c) <= V * dt) by (apply Rmult_le_compat_l; lra).
  assert (P1 : forall a W, Rabs (a - X hi) <= V * (hi - c) -> Rabs W <= 2 * e -> Rabs (a + W * t - X hi) <= V * dt + 2 * e).
  { intros a b Ha Hb. replace (a + b * t - X hi) with ((a - X hi) + b * t) by ring. eapply Rle_trans; [apply Rabs_triang|]. rewrite Rabs_mult, (Rabs_pos_eq t) by lra.
    pose proof (Rmult_le_compat_l (Rabs b) t 1 (Rabs_pos b) ltac:(lra)). lra. }
  assert (P2 : forall a W, Rabs (a - Y hi) <= V * (hi - c) -> Rabs W <= 2 * e -> Rabs (a + W * t - Y hi) <= V * dt + 2 * e).
  { intros a b Ha Hb. replace (a + b * t - Y hi) with ((a - Y hi) + b * t) by ring. eapply Rle_trans; [apply Rabs_triang|]. rewrite Rabs_mult, (Rabs_pos_eq t) by lra.
    pose proof (Rmult_le_compat_l (Rabs b) t 1 (Rabs_pos b) ltac:(lra)). lra. }
  specialize (P1 _ _ X1 S1). specialize (P2 _ _ Y1 S2). fold p in P1. fold q in P2.
  set (G := (1 + 2 * V) * dt + 4 * e). assert (PG : 0 <= G) by (unfold G; apply Rplus_le_le_0_compat; [apply Rmult_le_pos; lra|lra]).
  assert (HG : Rabs (p - X hi) + Rabs (q - Y hi) + Rabs (c - hi) <= G).
  { rewrite (Rabs_minus_sym c hi), (Rabs_pos_eq (hi - c)) by lra. unfold G. lra. }
  assert (N1' : Rabs (wx p q c - wx (X hi) (Y hi) hi) <= N * G) by (eapply Rle_trans; [exact N1|apply Rmult_le_compat_l; assumption]).
  assert (N2' : Rabs (wy p q c - wy (X hi) (Y hi) hi) <= N * G) by (eapply Rle_trans; [exact N2|apply Rmult_le_compat_l; assumption]).
  assert (SB : forall s, lo <= s <= hi -> Rabs (u (X' s) (Y' s) s - u (X s) (Y s) s) <= L * (4 * e) /\ Rabs (v (X' s) (Y' s) s - v (X s) (Y s) s) <= L * (4 * e)).
  { intros s Hs. destruct (SP s Hs) as (A1 & A2). replace (4 * e) with (2 * e + 2 * e) by ring. apply speeds; assumption. }
  pose proof (moved W1 _ _ c (fun s Hs => proj1 (DW s Hs)) (fun s Hs => proj1 (SB s Hs)) Hc') as M1.
  pose proof (moved W2 _ _ c (fun s Hs => proj2 (DW s Hs)) (fun s Hs => proj2 (SB s Hs)) Hc') as M2. rewrite E1 in M1. rewrite E2 in M2.
  assert (LE : L * (4 * e) * (hi - c) <= 4 * L * e * dt) by (replace (4 * L * e * dt) with (L * (4 * e) * dt) by ring; apply Rmult_le_compat_l; [apply Rmult_le_pos; lra|lra]).
  set (g1 := wx (X hi) (Y hi) hi) in *. set (g2 := wy (X hi) (Y hi) hi) in *. destruct (TB (X hi) (Y hi) hi) as (G1 & G2). fold g1 g2 in G1, G2.
  replace (W lo - (W hi - dt * (g1 * e1 + g2 * e2))) with (- dt * ((wx p q c - g1) * W1 c + (wy p q c - g2) * W2 c + g1 * (W1 c - e1) + g2 * (W2 c - e2))) by lra.
  rewrite Rabs_mult, Rabs_Ropp, (Rabs_pos_eq dt) by lra.
  apply Rle_trans with (dt * (N * G * (2 * e) + N * G * (2 * e) + L * (4 * L * e * dt) + L * (4 * L * e * dt))); [|unfold G; right; ring].
  apply Rmult_le_compat_l; [exact Hdt|].
  eapply Rle_trans; [apply Rabs_triang|]. apply Rplus_le_compat; [eapply Rle_trans; [apply Rabs_triang|]; apply Rplus_le_compat; [eapply Rle_trans; [apply Rabs_triang|]; apply Rplus_le_compat|]|];
    rewrite Rabs_mult; apply Rmult_le_compat; try apply Rabs_pos; try assumption; lra.
Qed.
End Spread.

(** *** slopes of a solution *)
Lemma slope_near (f : R -> R) l g c : derivable_pt_lim f 0 l ->
  (forall eta, 0 < eta -> exists d, 0 < d /\ forall e, Rabs e < d -> Rabs (f e - f 0 - g * e) <= (c + eta) * Rabs e) -> Rabs (l - g) <= c.
Proof.
  intros D H. apply le_epsilon. intros eta He. destruct (D (eta / 2) ltac:(lra)) as (d1 & H1). destruct (H (eta / 2) ltac:(lra)) as (d2 & Hd2 & H2).
  pose proof (cond_pos d1) as Hd1. set (e := Rmin d1 d2 / 2). assert (Hm : 0 < Rmin d1 d2) by (apply Rmin_glb_lt; assumption).
  pose proof (Rmin_l d1 d2). pose proof (Rmin_r d1 d2). assert (Pe : 0 < e) by (unfold e; lra).
  assert (Q1 : Rabs e < d1) by (rewrite Rabs_pos_eq by lra; unfold e; lra). assert (Q2 : Rabs e < d2) by (rewrite Rabs_pos_eq by lra; unfold e; lra).
  specialize (H1 e ltac:(lra) Q1). specialize (H2 e Q2). rewrite Rplus_0_l in H1. rewrite (Rabs_pos_eq e) in H2 by lra.
  assert (HQ : Rabs ((f e - f 0) / e - g) <= c + eta / 2).
  { replace ((f e - f 0) / e - g) with ((f e - f 0 - g * e) * / e) by (field; lra). rewrite Rabs_mult, (Rabs_pos_eq (/ e)) by (left; apply Rinv_0_lt_compat; exact Pe).
    apply (Rmult_le_reg_r e); [exact Pe|]. rewrite Rmult_assoc, Rinv_l, Rmult_1_r by lra. exact H2. }
  replace (l - g) with (((f e - f 0) / e - g) - ((f e - f 0) / e - l)) by ring. eapply Rle_trans; [apply Rabs_triang|]. rewrite Rabs_Ropp. lra.
Qed.
(** a solution at time hi, near a point from which the trajectory leads to a point where the solution at time lo has the slopes a and b *)
Lemma solution_slopes F Tp V K lo hi (u : R -> R -> R -> R) x y X Y a b lx ly (i j : R) : graded_velocity 2 V K F Tp -> true_gradients F Tp -> lo <= hi -> 0 <= V -> V * K * (hi - lo) <= 1 / 4 ->
  solves F Tp lo hi u -> follows F Tp lo hi X Y -> X hi = x -> Y hi = y -> (forall s, lo <= s <= hi -> Rabs (X s - x) <= V * (hi - s) /\ Rabs (Y s - y) <= V * (hi - s)) ->
  differentiable_pt_lim (fun x y => u x y lo) (X lo) (Y lo) a b -> differentiable_pt_lim (fun x y => u x y hi) x y lx ly -> Rabs i <= 1 -> Rabs j <= 1 ->
  let dt := hi - lo in let ox := i - dt * (gradUx F x y hi Tp * i + gradUy F x y hi Tp * j) in let oy := j - dt * (gradVx F x y hi Tp * i + gradVy F x y hi Tp * j) in
  Rabs (lx * i + ly * j - (a * ox + b * oy)) <= (Rabs a + Rabs b) * (4 * (V * K ^ 2 * (1 + 2 * V) + 2 * (V * K) ^ 2) * dt ^ 2).
Proof.
  intros HV HG Hlh PV HL HU HX EX EY NX Dlo Dhi Hi Hj dt ox oy.
  set (wu := fun x y s => Velx F x y s Tp). set (wv := fun x y s => Vely F x y s Tp).
  set (gux := fun x y s => gradUx F x y s Tp). set (guy := fun x y s => gradUy F x y s Tp). set (gvx := fun x y s => gradVx F x y s Tp). set (gvy := fun x y s => gradVy F x y s Tp).
  set (L := V * K) in *. set (N := V * K ^ 2).
  assert (Tu : tame L N wu gux guy) by (apply tame_of; [apply HV|intros p q s; apply (HG p q s)]).
  assert (Tv : tame L N wv gvx gvy) by (apply tame_of; [apply HV|intros p q s; apply (HG p q s)]).
  pose proof (N_pos wu gux guy L N Tu) as NP. assert (Pdt : 0 <= dt) by (unfold dt; lra).
  set (C := 4 * (N * (1 + 2 * V) + 2 * L ^ 2) * dt ^ 2).
  apply (slope_near (fun e => u (x + i * e) (y + j * e) hi)).
  { assert (DL : forall c k t, derivable_pt_lim (fun t => c + k * t) t k) by (intros; apply is_derive_Reals; auto_derive; [auto|ring]).
    apply (derivable_pt_lim_comp_2d (fun x y => u x y hi) (fun e => x + i * e) (fun e => y + j * e) 0); [rewrite !Rmult_0_r, !Rplus_0_r; exact Dhi|apply DL|apply DL]. }
  intros eta He. set (A := Rabs a + Rabs b). assert (PA : 0 <= A) by (unfold A; pose proof (Rabs_pos a); pose proof (Rabs_pos b); lra).
  destruct (Dlo (mkposreal (eta / 4) ltac:(lra))) as (d1 & H1). cbn [pos] in H1. pose proof (cond_pos d1) as Hd1.
  set (Q := 16 * N * dt * A). assert (PQ : 0 <= Q) by (unfold Q; apply Rmult_le_pos; [apply Rmult_le_pos; [apply Rmult_le_pos; [lra|exact NP]|exact Pdt]|exact PA]).
  set (d2 := eta / (2 * (Q + 1))). assert (Hd2 : 0 < d2) by (unfold d2; apply Rdiv_lt_0_compat; lra).
  exists (Rmin (d1 / 2) d2). split; [apply Rmin_glb_lt; lra|]. intros e Hlt.
  assert (L1 : Rabs e < d1 / 2) by (eapply Rlt_le_trans; [exact Hlt|apply Rmin_l]). assert (L2 : Rabs e < d2) by (eapply Rlt_le_trans; [exact Hlt|apply Rmin_r]). clear Hlt.
  destruct (one_through F Tp V K lo hi (x + i * e) (y + j * e) (conj (graded_less _ _ _ _ (proj1 HV)) (graded_less _ _ _ _ (proj2 HV))) Hlh) as (X' & Y' & HX' & EX' & EY' & _).
  pose proof (carried F Tp lo hi u X Y Hlh HU HX) as C1. pose proof (carried F Tp lo hi u X' Y' Hlh HU HX') as C2. rewrite EX, EY in C1. rewrite EX', EY' in C2.
  rewrite !Rmult_0_r, !Rplus_0_r, C1, C2.
  assert (F1 : X' hi - X hi = i * e) by (rewrite EX, EX'; ring). assert (F2 : Y' hi - Y hi = j * e) by (rewrite EY, EY'; ring).
  pose proof (Rabs_pos e) as Pe.
  assert (B1 : Rabs (i * e) <= Rabs e) by (rewrite Rabs_mult; pose proof (Rmult_le_compat_r (Rabs e) _ _ Pe Hi); lra).
  assert (B2 : Rabs (j * e) <= Rabs e) by (rewrite Rabs_mult; pose proof (Rmult_le_compat_r (Rabs e) _ _ Pe Hj); lra).
  rewrite <- EX, <- EY in NX.
  pose proof (spread wu gux guy wv gvx gvy L N lo hi Hlh Tu Tv HL X Y X' Y' HX HX' (Rabs e)) as SP. cbv beta zeta in SP. rewrite F1, F2 in SP. destruct (SP B1 B2 lo ltac:(lra)) as (S1 & S2). clear SP.
  assert (DW1 : forall s, lo <= s <= hi -> derivable_pt_lim (fun s => X' s - X s) s (wu (X' s) (Y' s) s - wu (X s) (Y s) s))
    by (intros s Hs; apply (derivable_pt_lim_minus X' X); [apply HX'; exact Hs|apply HX; exact Hs]).
  assert (DW2 : forall s, lo <= s <= hi -> derivable_pt_lim (fun s => Y' s - Y s) s (wv (X' s) (Y' s) s - wv (X s) (Y s) s))
    by (intros s Hs; apply (derivable_pt_lim_minus Y' Y); [apply HX'; exact Hs|apply HX; exact Hs]).
  pose proof (one_component wu gux guy wv gvx gvy V L N lo hi Hlh Tu Tv HL X Y X' Y' HX HX' wu gux guy (fun s => X' s - X s) (i * e) (j * e) (Rabs e) Tu DW1 F1 F2 B1 B2 NX PV) as O1.
  pose proof (one_component wu gux guy wv gvx gvy V L N lo hi Hlh Tu Tv HL X Y X' Y' HX HX' wv gvx gvy (fun s => Y' s - Y s) (i * e) (j * e) (Rabs e) Tv DW2 F1 F2 B1 B2 NX PV) as O2.
  cbv beta in O1, O2. rewrite F1 in O1. rewrite F2 in O2. fold dt in O1, O2. rewrite EX, EY in O1, O2. unfold gux, guy, gvx, gvy in O1, O2. fold C in O1, O2.
  assert (O1' : Rabs (X' lo - X lo - ox * e) <= C * Rabs e + 16 * N * dt * (Rabs e * Rabs e)).
  { eapply Rle_trans; [|exact O1]. right. f_equal. unfold ox. ring. }
  assert (O2' : Rabs (Y' lo - Y lo - oy * e) <= C * Rabs e + 16 * N * dt * (Rabs e * Rabs e)).
  { eapply Rle_trans; [|exact O2]. right. f_equal. unfold oy. ring. }
  clear O1 O2. set (T := C * Rabs e + 16 * N * dt * (Rabs e * Rabs e)) in *.
  pose proof (H1 (X' lo) (Y' lo) ltac:(lra) ltac:(lra)) as R1.
  assert (R1' : Rabs (u (X' lo) (Y' lo) lo - u (X lo) (Y lo) lo - (a * (X' lo - X lo) + b * (Y' lo - Y lo))) <= eta / 2 * Rabs e).
  { eapply Rle_trans; [exact R1|]. replace (eta / 2 * Rabs e) with (eta / 4 * (2 * Rabs e)) by field. apply Rmult_le_compat_l; [lra|]. apply Rmax_lub; lra. }
  replace (u (X' lo) (Y' lo) lo - u (X lo) (Y lo) lo - (a * ox + b * oy) * e) with
    ((u (X' lo) (Y' lo) lo - u (X lo) (Y lo) lo - (a * (X' lo - X lo) + b * (Y' lo - Y lo))) + (a * (X' lo - X lo - ox * e) + b * (Y' lo - Y lo - oy * e))) by ring.
  eapply Rle_trans; [apply Rabs_triang|].
  assert (R2 : Rabs (a * (X' lo - X lo - ox * e) + b * (Y' lo - Y lo - oy * e)) <= A * T).
  { eapply Rle_trans; [apply Rabs_triang|]. rewrite !Rabs_mult. unfold A. rewrite Rmult_plus_distr_r. apply Rplus_le_compat; apply Rmult_le_compat_l; try apply Rabs_pos; assumption. }
  assert (R3 : A * T <= (A * C + eta / 2) * Rabs e).
  { replace (A * T) with ((A * C + Q * Rabs e) * Rabs e) by (unfold T, Q; ring). apply Rmult_le_compat_r; [exact Pe|]. apply Rplus_le_compat_l.
    apply Rle_trans with ((Q + 1) * d2); [apply Rmult_le_compat; lra|]. unfold d2. right. field. lra. }
  replace ((A * C + eta) * Rabs e) with (eta / 2 * Rabs e + (A * C + eta / 2) * Rabs e) by field. lra.
Qed.

(** *** the derivatives of the numerical trace, to first order in the time step *)
Lemma stretch L dt g g1 h1 al be : 0 <= dt -> L * dt <= 1 / 4 -> Rabs g <= L -> Rabs g1 <= L -> Rabs h1 <= L -> Rabs al <= 5 / 4 -> Rabs be <= 1 / 4 ->
  Rabs (dt / 4 * (g + al * g1 + be * h1)) <= L * dt.
Proof.
  intros Hdt HL Hg H1 H2 Ha Hb. assert (PL : 0 <= L) by (eapply Rle_trans; [apply Rabs_pos|exact Hg]).
  rewrite Rabs_mult, (Rabs_pos_eq (dt / 4)) by lra. apply Rle_trans with (dt / 4 * (L + 5 / 4 * L + 1 / 4 * L)).
  - apply Rmult_le_compat_l; [lra|]. eapply Rle_trans; [apply Rabs_triang|]. apply Rplus_le_compat; [eapply Rle_trans; [apply Rabs_triang|]; apply Rplus_le_compat; [exact Hg|]|];
      rewrite Rabs_mult; apply Rmult_le_compat; try apply Rabs_pos; assumption.
  - pose proof (Rmult_le_pos L dt PL Hdt). lra.
Qed.
Lemma column L N d dt g g1 h1 g2 h2 al be al2 be2 : 0 <= dt -> L * dt <= 1 / 4 -> Rabs g <= L -> Rabs g1 <= L -> Rabs h1 <= L -> Rabs g2 <= L -> Rabs h2 <= L ->
  Rabs (g1 - g) <= N * (d * dt) -> Rabs (g2 - g) <= N * (d * dt) ->
  Rabs (al - 1) <= L * dt -> Rabs be <= L * dt -> Rabs (al2 - 1) <= L * dt -> Rabs be2 <= L * dt ->
  let r := dt / 6 * (g + al * g1 + be * h1 + 4 * (al2 * g2 + be2 * h2)) in
  Rabs (r - dt * g) <= (N * d + 2 * L ^ 2) * dt ^ 2 /\ Rabs r <= 1.
Proof.
  intros Hdt HL Hg H1 K1 H2 K2 N1 N2 A1 B1 A2 B2 r. assert (PL : 0 <= L) by (eapply Rle_trans; [apply Rabs_pos|exact Hg]). pose proof (Rmult_le_pos L dt PL Hdt) as PLd.
  assert (PN : 0 <= N * (d * dt)) by (eapply Rle_trans; [apply Rabs_pos|exact N1]).
  assert (P : forall p q, Rabs p <= L * dt -> Rabs q <= L -> Rabs (p * q) <= L * dt * L) by (intros; rewrite Rabs_mult; apply Rmult_le_compat; try apply Rabs_pos; assumption).
  set (z := (g1 - g) + (al - 1) * g1 + be * h1 + 4 * ((g2 - g) + (al2 - 1) * g2 + be2 * h2)).
  assert (Hz : Rabs z <= 5 * (N * (d * dt)) + 10 * (L * dt * L)).
  { unfold z. pose proof (P _ _ A1 H1) as Q1. pose proof (P _ _ B1 K1) as Q2. pose proof (P _ _ A2 H2) as Q3. pose proof (P _ _ B2 K2) as Q4.
    apply abs_both in N1. apply abs_both in N2. apply abs_both in Q1. apply abs_both in Q2. apply abs_both in Q3. apply abs_both in Q4. apply Rabs_le. lra. }
  assert (E : r = dt * g + dt / 6 * z) by (unfold r, z; field). split.
  - replace (r - dt * g) with (dt / 6 * z) by lra. rewrite Rabs_mult, (Rabs_pos_eq (dt / 6)) by lra. eapply Rle_trans; [apply Rmult_le_compat_l; [lra|exact Hz]|].
    assert (0 <= dt * (N * (d * dt))) by (apply Rmult_le_pos; assumption). assert (0 <= dt * (L * dt * L)) by (apply Rmult_le_pos; [exact Hdt|apply Rmult_le_pos; assumption]).
    replace ((N * d + 2 * L ^ 2) * dt ^ 2) with (dt * (N * (d * dt)) + 2 * (dt * (L * dt * L))) by ring. lra.
  - assert (PP : forall p q, Rabs p <= 1 + L * dt -> Rabs q <= L -> Rabs (p * q) <= (1 + L * dt) * L) by (intros; rewrite Rabs_mult; apply Rmult_le_compat; try apply Rabs_pos; assumption).
    assert (T : forall p, Rabs (p - 1) <= L * dt -> Rabs p <= 1 + L * dt) by (intros p Hp; apply abs_both in Hp; apply Rabs_le; lra).
    pose proof (PP _ _ (T _ A1) H1) as Q1. pose proof (P _ _ B1 K1) as Q2. pose proof (PP _ _ (T _ A2) H2) as Q3. pose proof (P _ _ B2 K2) as Q4.
    unfold r. rewrite Rabs_mult, (Rabs_pos_eq (dt / 6)) by lra.
    apply Rle_trans with (dt / 6 * (L + (1 + L * dt) * L + L * dt * L + 4 * ((1 + L * dt) * L + L * dt * L))).
    + apply Rmult_le_compat_l; [lra|]. apply abs_both in Hg. apply abs_both in Q1. apply abs_both in Q2. apply abs_both in Q3. apply abs_both in Q4. apply Rabs_le. lra.
    + replace (dt / 6 * (L + (1 + L * dt) * L + L * dt * L + 4 * ((1 + L * dt) * L + L * dt * L))) with (L * dt + 10 / 6 * (L * dt * (L * dt))) by field.
      pose proof (Rmult_le_compat (L * dt) (1 / 4) (L * dt) (1 / 4) PLd PLd HL HL). lra.
Qed.
Lemma super_first F Tp V K rk3 x y t dt : graded_velocity 2 V K F Tp -> true_gradients F Tp -> step_number t -> 0 <= dt -> V * K * dt <= 1 / 4 ->
  let hi := (IZR t + 1) * dt in let S a b := SuperConsistentScheme F rk3 x y a b t dt Tp in let Q := (V * K ^ 2 * (1 + 2 * V) + 2 * (V * K) ^ 2) * dt ^ 2 in
  (Rabs (fst (S 1 0) - (1 - dt * gradUx F x y hi Tp)) <= Q /\ Rabs (snd (S 1 0) - (0 - dt * gradUy F x y hi Tp)) <= Q /\
   Rabs (fst (S 0 1) - (0 - dt * gradVx F x y hi Tp)) <= Q /\ Rabs (snd (S 0 1) - (1 - dt * gradVy F x y hi Tp)) <= Q) /\
  Rabs (fst (S 1 0)) <= 2 /\ Rabs (snd (S 1 0)) <= 2 /\ Rabs (fst (S 0 1)) <= 2 /\ Rabs (snd (S 0 1)) <= 2.
Proof.
  intros HV HG Ht Hdt HL hi S Q.
  set (wu := fun x y s => Velx F x y s Tp). set (wv := fun x y s => Vely F x y s Tp).
  set (gux := fun x y s => gradUx F x y s Tp). set (guy := fun x y s => gradUy F x y s Tp). set (gvx := fun x y s => gradVx F x y s Tp). set (gvy := fun x y s => gradVy F x y s Tp).
  pose proof (graded_bounded _ _ _ _ (proj1 HV)) as BU. pose proof (graded_bounded _ _ _ _ (proj2 HV)) as BV. cbv beta in BU, BV.
  set (L := V * K) in *. set (N := V * K ^ 2) in *.
  assert (Tu : tame L N wu gux guy) by (apply tame_of; [apply HV|intros p q s; apply (HG p q s)]).
  assert (Tv : tame L N wv gvx gvy) by (apply tame_of; [apply HV|intros p q s; apply (HG p q s)]).
  pose proof (N_pos wu gux guy L N Tu) as NP. assert (PV : 0 <= V) by (eapply Rle_trans; [apply Rabs_pos|apply (BU 0 0 0)]).
  destruct Tu as (_ & Lu & Nu), Tv as (_ & Lv & Nv).
  assert (PL : 0 <= L) by (eapply Rle_trans; [apply Rabs_pos|apply (Lu 0 0 0)]). pose proof (Rmult_le_pos L dt PL Hdt) as PLd.
  assert (PQ : 0 <= Q) by (unfold Q; apply Rmult_le_pos; [apply Rplus_le_le_0_compat; [apply Rmult_le_pos; [exact NP|lra]|pose proof (pow2_ge_0 L); lra]|apply pow2_ge_0]).
  assert (E1 : time_at (t + 1) dt = hi) by (rewrite time_at_R1 by assumption; reflexivity).
  assert (E0 : time_at t dt = hi - dt) by (rewrite time_at_R by assumption; unfold hi; ring).
  assert (Em : time_mid t dt = hi - dt / 2) by (unfold time_mid; rewrite E0; nr; field).
  assert (M : forall g, Rabs g <= L -> Rabs (dt * g) <= L * dt) by (intros g Hg; rewrite Rabs_mult, (Rabs_pos_eq dt) by lra; rewrite (Rmult_comm L); apply Rmult_le_compat_l; assumption).
  assert (T1 : forall g, Rabs g <= 1 -> Rabs (1 - g) <= 2 /\ Rabs (0 - g) <= 2) by (intros g Hg; apply abs_both in Hg; split; apply Rabs_le; lra).
  unfold S, SuperConsistentScheme. rewrite E1, E0, Em. destruct rk3; cbn [fst snd]; nr.
  2:{ destruct (Lu x y hi) as (l1 & l2), (Lv x y hi) as (l3 & l4). unfold gux, guy, gvx, gvy in l1, l2, l3, l4.
      rewrite !Rmult_1_r, !Rmult_0_r, !Rplus_0_r, !Rplus_0_l. rewrite !Rminus_eq_0, Rabs_R0. split; [repeat split; exact PQ|].
      pose proof (M _ l1). pose proof (M _ l2). pose proof (M _ l3). pose proof (M _ l4). split; [apply T1; lra|]. split; [apply T1; lra|]. split; [apply T1; lra|]. apply T1; lra. }
  set (xr := x - Velx F x y hi Tp * dt). set (yr := y - Vely F x y hi Tp * dt).
  set (xs := x - dt / 2 * (1 / 2 * Velx F x y hi Tp + 1 / 2 * Velx F xr yr (hi - dt) Tp)). set (ys := y - dt / 2 * (1 / 2 * Vely F x y hi Tp + 1 / 2 * Vely F xr yr (hi - dt) Tp)).
  assert (PVd : 0 <= V * dt) by (apply Rmult_le_pos; assumption).
  assert (Near1 : forall c w, Rabs w <= V -> Rabs (c - w * dt - c) <= V * dt).
  { intros c w Hw. replace (c - w * dt - c) with (- (w * dt)) by ring. rewrite Rabs_Ropp, Rabs_mult, (Rabs_pos_eq dt) by lra. apply Rmult_le_compat_r; assumption. }
  assert (Near2 : forall c w w', Rabs w <= V -> Rabs w' <= V -> Rabs (c - dt / 2 * (1 / 2 * w + 1 / 2 * w') - c) <= V * dt).
  { intros c w w' Hw Hw'. replace (c - dt / 2 * (1 / 2 * w + 1 / 2 * w') - c) with (- (dt / 2 * (1 / 2 * w + 1 / 2 * w'))) by ring. rewrite Rabs_Ropp, Rabs_mult, (Rabs_pos_eq (dt / 2)) by lra.
    apply abs_both in Hw. apply abs_both in Hw'. assert (Rabs (1 / 2 * w + 1 / 2 * w') <= V) by (apply Rabs_le; lra).
    pose proof (Rmult_le_compat_l (dt / 2) _ _ ltac:(lra) H). lra. }
  assert (D1 : Rabs (xr - x) + Rabs (yr - y) + Rabs (hi - dt - hi) <= (1 + 2 * V) * dt).
  { pose proof (Near1 x _ (BU x y hi)). pose proof (Near1 y _ (BV x y hi)). fold xr in H. fold yr in H0. replace (hi - dt - hi) with (- dt) by ring. rewrite Rabs_Ropp, (Rabs_pos_eq dt) by lra. lra. }
  assert (D2 : Rabs (xs - x) + Rabs (ys - y) + Rabs (hi - dt / 2 - hi) <= (1 + 2 * V) * dt).
  { pose proof (Near2 x _ _ (BU x y hi) (BU xr yr (hi - dt))). pose proof (Near2 y _ _ (BV x y hi) (BV xr yr (hi - dt))). fold xs in H. fold ys in H0.
    replace (hi - dt / 2 - hi) with (- (dt / 2)) by field. rewrite Rabs_Ropp, (Rabs_pos_eq (dt / 2)) by lra. lra. }
  destruct (Lu x y hi) as (l1 & l2), (Lv x y hi) as (l3 & l4), (Lu xr yr (hi - dt)) as (l5 & l6), (Lv xr yr (hi - dt)) as (l7 & l8),
    (Lu xs ys (hi - dt / 2)) as (l9 & l10), (Lv xs ys (hi - dt / 2)) as (l11 & l12).
  destruct (Nu xr yr (hi - dt) x y hi) as (n1 & n2), (Nv xr yr (hi - dt) x y hi) as (n3 & n4), (Nu xs ys (hi - dt / 2) x y hi) as (n5 & n6), (Nv xs ys (hi - dt / 2) x y hi) as (n7 & n8).
  pose proof (Rmult_le_compat_l N _ _ NP D1) as ND1. pose proof (Rmult_le_compat_l N _ _ NP D2) as ND2.
  unfold gux, guy, gvx, gvy in *. clear Lu Lv Nu Nv.
  set (uxn := gradUx F x y hi Tp) in *. set (uyn := gradUy F x y hi Tp) in *. set (vxn := gradVx F x y hi Tp) in *. set (vyn := gradVy F x y hi Tp) in *.
  set (ux1 := gradUx F xr yr (hi - dt) Tp) in *. set (uy1 := gradUy F xr yr (hi - dt) Tp) in *. set (vx1 := gradVx F xr yr (hi - dt) Tp) in *. set (vy1 := gradVy F xr yr (hi - dt) Tp) in *.
  set (ux2 := gradUx F xs ys (hi - dt / 2) Tp) in *. set (uy2 := gradUy F xs ys (hi - dt / 2) Tp) in *. set (vx2 := gradVx F xs ys (hi - dt / 2) Tp) in *. set (vy2 := gradVy F xs ys (hi - dt / 2) Tp) in *.
  clearbody uxn uyn vxn vyn ux1 uy1 vx1 vy1 ux2 uy2 vx2 vy2. clear wu wv gux guy gvx gvy.
  pose proof (M _ l1) as m1. pose proof (M _ l2) as m2. pose proof (M _ l3) as m3. pose proof (M _ l4) as m4.
  assert (O1 : forall g, Rabs (dt * g) <= L * dt -> Rabs (1 - dt * g - 1) <= L * dt /\ Rabs (1 - dt * g) <= 5 / 4) by (intros g Hg; apply abs_both in Hg; split; apply Rabs_le; lra).
  assert (O0 : forall g, Rabs (dt * g) <= L * dt -> Rabs (0 - dt * g) <= L * dt /\ Rabs (0 - dt * g) <= 1 / 4) by (intros g Hg; apply abs_both in Hg; split; apply Rabs_le; lra).
  assert (P1 : forall r, Rabs r <= L * dt -> Rabs (1 - r - 1) <= L * dt) by (intros r Hr; apply abs_both in Hr; apply Rabs_le; lra).
  assert (P0 : forall r, Rabs r <= L * dt -> Rabs (0 - r) <= L * dt) by (intros r Hr; apply abs_both in Hr; apply Rabs_le; lra).
  destruct (O1 _ m1) as (a1 & a1'), (O0 _ m2) as (a2 & a2'), (O0 _ m3) as (a3 & a3'), (O1 _ m4) as (a4 & a4').
  assert (Z0 : forall a b, a * 1 + b * 0 = a) by (intros; ring). assert (Z1 : forall a b, a * 0 + b * 1 = b) by (intros; ring). rewrite !Z0, !Z1. clear Z0 Z1.
  set (f1 := 1 - dt * uxn) in *. set (f2 := 0 - dt * uyn) in *. set (f3 := 0 - dt * vxn) in *. set (f4 := 1 - dt * vyn) in *.
  pose proof (stretch L dt uxn ux1 uy1 f1 f3 Hdt HL l1 l5 l6 a1' a3') as s1. pose proof (stretch L dt vxn vx1 vy1 f1 f3 Hdt HL l3 l7 l8 a1' a3') as s3.
  pose proof (stretch L dt uyn uy1 ux1 f4 f2 Hdt HL l2 l6 l5 a4' a2') as s2. pose proof (stretch L dt vyn vy1 vx1 f4 f2 Hdt HL l4 l8 l7 a4' a2') as s4.
  replace (uyn + f4 * uy1 + f2 * ux1) with (uyn + f2 * ux1 + f4 * uy1) in s2 by ring. replace (vyn + f4 * vy1 + f2 * vx1) with (vyn + f2 * vx1 + f4 * vy1) in s4 by ring.
  assert (DN : forall g' g X, Rabs (g' - g) <= N * X -> N * X <= N * ((1 + 2 * V) * dt) -> Rabs (g' - g) <= N * ((1 + 2 * V) * dt)) by (intros; lra).
  destruct (column L N (1 + 2 * V) dt uxn ux1 uy1 ux2 uy2 _ _ _ _ Hdt HL l1 l5 l6 l9 l10 (DN _ _ _ n1 ND1) (DN _ _ _ n5 ND2) a1 a3 (P1 _ s1) (P0 _ s3)) as (c1 & d1).
  destruct (column L N (1 + 2 * V) dt vxn vx1 vy1 vx2 vy2 _ _ _ _ Hdt HL l3 l7 l8 l11 l12 (DN _ _ _ n3 ND1) (DN _ _ _ n7 ND2) a1 a3 (P1 _ s1) (P0 _ s3)) as (c3 & d3).
  destruct (column L N (1 + 2 * V) dt uyn uy1 ux1 uy2 ux2 _ _ _ _ Hdt HL l2 l6 l5 l10 l9 (DN _ _ _ n2 ND1) (DN _ _ _ n6 ND2) a4 a2 (P1 _ s4) (P0 _ s2)) as (c2 & d2).
  destruct (column L N (1 + 2 * V) dt vyn vy1 vx1 vy2 vx2 _ _ _ _ Hdt HL l4 l8 l7 l12 l11 (DN _ _ _ n4 ND1) (DN _ _ _ n8 ND2) a4 a2 (P1 _ s4) (P0 _ s2)) as (c4 & d4).
  cbv zeta in c1, c2, c3, c4, d1, d2, d3, d4. fold Q in c1, c2, c3, c4.
  set (h1 := 1 - dt / 4 * (uxn + f1 * ux1 + f3 * uy1)) in *. set (h3 := 0 - dt / 4 * (vxn + f1 * vx1 + f3 * vy1)) in *.
  set (h2 := 0 - dt / 4 * (uyn + f2 * ux1 + f4 * uy1)) in *. set (h4 := 1 - dt / 4 * (vyn + f2 * vx1 + f4 * vy1)) in *.
  replace (uyn + f4 * uy1 + f2 * ux1 + 4 * (h4 * uy2 + h2 * ux2)) with (uyn + f2 * ux1 + f4 * uy1 + 4 * (h2 * ux2 + h4 * uy2)) in c2, d2 by ring.
  replace (vyn + f4 * vy1 + f2 * vx1 + 4 * (h4 * vy2 + h2 * vx2)) with (vyn + f2 * vx1 + f4 * vy1 + 4 * (h2 * vx2 + h4 * vy2)) in c4, d4 by ring.
  assert (Fin : forall o r g, Rabs (r - dt * g) <= Q -> Rabs (o - r - (o - dt * g)) <= Q) by (intros o r g Hr; rewrite Rabs_minus_sym; replace (o - dt * g - (o - r)) with (r - dt * g) by ring; exact Hr).
  split; [repeat split; apply Fin; assumption|]. split; [apply T1; assumption|]. split; [apply T1; assumption|]. split; [apply T1; assumption|]. apply T1; assumption.
Qed.
