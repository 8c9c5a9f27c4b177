(** The slopes of a solution of the level set equation are carried by the linearised flow. *)
From Coq Require Import ZArith List Reals Lra Lia.
From Coquelicot Require Import Coquelicot.
From Verif Require Import Base Num ModelVec SpecGradient ModelRefMath SpecRef SpecRefOrder SpecRefSolve
  ProofsTaylor ProofsRefTrace ProofsRefOrder ProofsRefSmooth ProofsRefScale ProofsRefStepErr ProofsPicard ProofsRefSolve ProofsRefFlowGrad ProofsRefJet.
Import ListNotations.
Open Scope R_scope.

(** (W, Z) solves the flow linearised along (X, Y) and is (i, j) at the end *)
Definition varies (F : flow R) (Tp lo hi : R) (X Y W Z : R -> R) (i j : R) : Prop := W hi = i /\ Z hi = j /\ forall s, lo <= s <= hi ->
  derivable_pt_lim W s (gradUx F (X s) (Y s) s Tp * W s + gradUy F (X s) (Y s) s Tp * Z s) /\
  derivable_pt_lim Z s (gradVx F (X s) (Y s) s Tp * W s + gradVy F (X s) (Y s) s Tp * Z s) /\ Rabs (W s) <= 2 /\ Rabs (Z s) <= 2.

Lemma linear_rest L N w wx wy x y p q s e : tame L N w wx wy -> Rabs (p - x) <= 2 * e -> Rabs (q - y) <= 2 * e -> 0 <= N ->
  Rabs (w p q s - w x y s - (wx x y s * (p - x) + wy x y s * (q - y))) <= 16 * N * (e * e).
Proof.
  intros T Hp Hq HN. assert (Pe : 0 <= e) by (pose proof (Rabs_pos (p - x)); lra).
  destruct (tame_diff L N w wx wy x y p q s T) as (t & Ht & ->). destruct T as (_ & _ & TN).
  destruct (TN (x + (p - x) * t) (y + (q - y) * t) s x y s) as (N1 & N2).
  assert (S : Rabs (x + (p - x) * t - x) + Rabs (y + (q - y) * t - y) + Rabs (s - s) <= 4 * e).
  { replace (x + (p - x) * t - x) with ((p - x) * t) by ring. replace (y + (q - y) * t - y) with ((q - y) * t) by ring. rewrite Rminus_eq_0, Rabs_R0, !Rabs_mult, (Rabs_pos_eq t) by lra.
    pose proof (Rmult_le_compat_l _ t 1 (Rabs_pos (p - x)) ltac:(lra)). pose proof (Rmult_le_compat_l _ t 1 (Rabs_pos (q - y)) ltac:(lra)). lra. }
  apply (Rmult_le_compat_l N) in S; [|exact HN].
  set (g := wx (x + (p - x) * t) (y + (q - y) * t) s) in *. set (h := wy (x + (p - x) * t) (y + (q - y) * t) s) in *.
  replace (g * (p - x) + h * (q - y) - (wx x y s * (p - x) + wy x y s * (q - y))) with ((g - wx x y s) * (p - x) + (h - wy x y s) * (q - y)) by ring.
  eapply Rle_trans; [apply Rabs_triang|]. replace (16 * N * (e * e)) with (N * (4 * e) * (2 * e) + N * (4 * e) * (2 * e)) by ring.
  apply Rplus_le_compat; apply mul_le; try assumption; lra.
Qed.
Lemma flow_slopes F Tp V K lo hi (u : R -> R -> R -> R) x y X Y a b lx ly W Z (i j : R) : graded_velocity 2 V K F Tp -> true_gradients F Tp -> lo <= hi -> V * K * (hi - lo) <= 1 / 4 ->
  solves F Tp lo hi u -> follows F Tp lo hi X Y -> X hi = x -> Y hi = y -> varies F Tp lo hi X Y W Z i j ->
  differentiable_pt_lim (fun x y => u x y lo) (X lo) (Y lo) a b -> differentiable_pt_lim (fun x y => u x y hi) x y lx ly -> Rabs i <= 1 -> Rabs j <= 1 ->
  lx * i + ly * j = a * W lo + b * Z lo.
Proof.
  intros HV HG Hlh HL HU HX EX EY (EW & EZ & HW) Dlo Dhi Hi Hj.
  set (wu := fun x y s => Velx F x y s Tp). set (wv := fun x y s => Vely F x y s Tp).
  set (gux := fun x y s => gradUx F x y s Tp). set (guy := fun x y s => gradUy F x y s Tp). set (gvx := fun x y s => gradVx F x y s Tp). set (gvy := fun x y s => gradVy F x y s Tp).
  set (L := V * K) in *. set (N := V * K ^ 2). set (dt := hi - lo) in *.
  assert (Tu : tame L N wu gux guy) by (apply tame_of; [apply HV|intros p q s; apply (HG p q s)]).
  assert (Tv : tame L N wv gvx gvy) by (apply tame_of; [apply HV|intros p q s; apply (HG p q s)]).
  pose proof (N_pos wu gux guy L N Tu) as NP. pose proof (L_pos wu gux guy L N Tu) as LP. assert (Pdt : 0 <= dt) by (unfold dt; lra).
  apply Rminus_diag_uniq. apply Rabs_eq_0. apply Rle_antisym; [|apply Rabs_pos].
  apply (slope_near (fun e => u (x + i * e) (y + j * e) hi)).
  { assert (DL : forall c k t, derivable_pt_lim (fun t => c + k * t) t k) by (intros; apply is_derive_Reals; auto_derive; [auto|ring]).
    apply (derivable_pt_lim_comp_2d (fun x y => u x y hi) (fun e => x + i * e) (fun e => y + j * e) 0); [rewrite !Rmult_0_r, !Rplus_0_r; exact Dhi|apply DL|apply DL]. }
  intros eta He. set (A := Rabs a + Rabs b). assert (PA : 0 <= A) by (unfold A; pose proof (Rabs_pos a); pose proof (Rabs_pos b); lra).
  destruct (Dlo (mkposreal (eta / 4) ltac:(lra))) as (d1 & H1). cbn [pos] in H1. pose proof (cond_pos d1) as Hd1.
  set (Q := 32 * N * dt * A). assert (PQ : 0 <= Q) by (unfold Q; apply Rmult_le_pos; [apply Rmult_le_pos; [apply Rmult_le_pos; [lra|exact NP]|exact Pdt]|exact PA]).
  set (d2 := eta / (2 * (Q + 1))). assert (Hd2 : 0 < d2) by (unfold d2; apply Rdiv_lt_0_compat; lra).
  exists (Rmin (d1 / 2) d2). split; [apply Rmin_glb_lt; lra|]. intros e Hlt.
  assert (L1 : Rabs e < d1 / 2) by (eapply Rlt_le_trans; [exact Hlt|apply Rmin_l]). assert (L2 : Rabs e < d2) by (eapply Rlt_le_trans; [exact Hlt|apply Rmin_r]). clear Hlt.
  destruct (one_through F Tp V K lo hi (x + i * e) (y + j * e) (conj (graded_less _ _ _ _ (proj1 HV)) (graded_less _ _ _ _ (proj2 HV))) Hlh) as (X' & Y' & HX' & EX' & EY' & _).
  pose proof (carried F Tp lo hi u X Y Hlh HU HX) as C1. pose proof (carried F Tp lo hi u X' Y' Hlh HU HX') as C2. rewrite EX, EY in C1. rewrite EX', EY' in C2.
  rewrite !Rmult_0_r, !Rplus_0_r, C1, C2.
  assert (F1 : X' hi - X hi = i * e) by (rewrite EX, EX'; ring). assert (F2 : Y' hi - Y hi = j * e) by (rewrite EY, EY'; ring).
  pose proof (Rabs_pos e) as Pe.
  assert (B1 : Rabs (i * e) <= Rabs e) by (rewrite Rabs_mult; pose proof (Rmult_le_compat_r (Rabs e) _ _ Pe Hi); lra).
  assert (B2 : Rabs (j * e) <= Rabs e) by (rewrite Rabs_mult; pose proof (Rmult_le_compat_r (Rabs e) _ _ Pe Hj); lra).
  pose proof (spread wu gux guy wv gvx gvy L N lo hi Hlh Tu Tv HL X Y X' Y' HX HX' (Rabs e)) as SP. cbv beta zeta in SP. rewrite F1, F2 in SP. specialize (SP B1 B2).
  (* the remainders *)
  assert (DR : forall (P' P w0 : R -> R) (z' z zw : R) s, derivable_pt_lim P' s z' -> derivable_pt_lim P s z -> derivable_pt_lim w0 s zw ->
    derivable_pt_lim (fun s => P' s - P s - e * w0 s) s (z' - z - e * zw)).
  { intros P' P w0 z' z zw s K1 K2 K3. apply (derivable_pt_lim_minus (fun s => P' s - P s) (fun s => e * w0 s)); [apply (derivable_pt_lim_minus P' P); assumption|].
    apply derivable_pt_lim_scal. exact K3. }
  pose proof (lin_grow (fun _ => 0) L lo hi Hlh HL ltac:(intros; cbv beta; rewrite Rabs_R0; exact LP)
    (fun s => X' s - X s - e * W s) (fun s => wu (X' s) (Y' s) s - wu (X s) (Y s) s - e * (gux (X s) (Y s) s * W s + guy (X s) (Y s) s * Z s))
    (fun s => Y' s - Y s - e * Z s) (fun s => wv (X' s) (Y' s) s - wv (X s) (Y s) s - e * (gvx (X s) (Y s) s * W s + gvy (X s) (Y s) s * Z s))
    (16 * N * (Rabs e * Rabs e))) as G. cbv beta in G.
  assert (RB : forall w wx wy, tame L N w wx wy -> forall s, lo <= s <= hi -> Rabs (w (X' s) (Y' s) s - w (X s) (Y s) s - e * (wx (X s) (Y s) s * W s + wy (X s) (Y s) s * Z s)) <=
     L * (Rabs (X' s - X s - e * W s) + Rabs (Y' s - Y s - e * Z s)) + 16 * N * (Rabs e * Rabs e)).
  { intros w wx wy T s Hs. destruct (SP s Hs) as (S1 & S2). pose proof (linear_rest L N w wx wy (X s) (Y s) (X' s) (Y' s) s (Rabs e) T S1 S2 NP) as LR.
    replace (w (X' s) (Y' s) s - w (X s) (Y s) s - e * (wx (X s) (Y s) s * W s + wy (X s) (Y s) s * Z s)) with
      ((wx (X s) (Y s) s * (X' s - X s - e * W s) + wy (X s) (Y s) s * (Y' s - Y s - e * Z s)) + (w (X' s) (Y' s) s - w (X s) (Y s) s - (wx (X s) (Y s) s * (X' s - X s) + wy (X s) (Y s) s * (Y' s - Y s)))) by ring.
    eapply Rle_trans; [apply Rabs_triang|]. apply Rplus_le_compat; [|exact LR]. destruct T as (_ & TB & _). destruct (TB (X s) (Y s) s) as (b1 & b2).
    eapply Rle_trans; [apply Rabs_triang|]. rewrite Rmult_plus_distr_l. apply Rplus_le_compat; apply mul_le; auto; lra. }
  destruct (G ltac:(intros s Hs; apply DR; [apply HX'; exact Hs|apply HX; exact Hs|apply HW; exact Hs]) ltac:(intros s Hs; apply DR; [apply HX'; exact Hs|apply HX; exact Hs|apply HW; exact Hs])
    ltac:(intros s Hs; split; [apply (RB wu gux guy Tu s Hs)|apply (RB wv gvx gvy Tv s Hs)]) 0 ltac:(rewrite F1, EW; right; rewrite <- Rabs_R0; f_equal; ring)
    ltac:(rewrite F2, EZ; right; rewrite <- Rabs_R0; f_equal; ring) lo ltac:(lra)) as (O1 & O2). clear G RB DR.
  destruct (SP lo ltac:(lra)) as (S1 & S2). fold dt in O1, O2.
  set (T := 32 * N * dt * (Rabs e * Rabs e)). replace (2 * (0 + 16 * N * (Rabs e * Rabs e) * dt)) with T in O1, O2 by (unfold T; ring).
  pose proof (H1 (X' lo) (Y' lo) ltac:(lra) ltac:(lra)) as R1.
  assert (R1' : Rabs (u (X' lo) (Y' lo) lo - u (X lo) (Y lo) lo - (a * (X' lo - X lo) + b * (Y' lo - Y lo))) <= eta / 2 * Rabs e).
  { eapply Rle_trans; [exact R1|]. replace (eta / 2 * Rabs e) with (eta / 4 * (2 * Rabs e)) by field. apply Rmult_le_compat_l; [lra|]. apply Rmax_lub; lra. }
  replace (u (X' lo) (Y' lo) lo - u (X lo) (Y lo) lo - (a * W lo + b * Z lo) * e) with
    ((u (X' lo) (Y' lo) lo - u (X lo) (Y lo) lo - (a * (X' lo - X lo) + b * (Y' lo - Y lo))) + (a * (X' lo - X lo - e * W lo) + b * (Y' lo - Y lo - e * Z lo))) by ring.
  eapply Rle_trans; [apply Rabs_triang|].
  assert (R2 : Rabs (a * (X' lo - X lo - e * W lo) + b * (Y' lo - Y lo - e * Z lo)) <= A * T).
  { eapply Rle_trans; [apply Rabs_triang|]. rewrite !Rabs_mult. unfold A. rewrite Rmult_plus_distr_r. apply Rplus_le_compat; apply Rmult_le_compat_l; try apply Rabs_pos; assumption. }
  assert (R3 : A * T <= eta / 2 * Rabs e).
  { replace (A * T) with (Q * Rabs e * Rabs e) by (unfold T, Q; ring). apply Rmult_le_compat_r; [exact Pe|].
    apply Rle_trans with ((Q + 1) * d2); [apply Rmult_le_compat; lra|]. unfold d2. right. field. lra. }
  replace ((0 + eta) * Rabs e) with (eta / 2 * Rabs e + eta / 2 * Rabs e) by field. lra.
Qed.

(** the linearised flow exists *)
Lemma varies_ex F Tp V K lo hi X Y i j : graded_velocity 2 V K F Tp -> true_gradients F Tp -> 0 <= K -> lo <= hi -> V * K * (hi - lo) <= 1 / 4 -> follows F Tp lo hi X Y -> Rabs i <= 1 -> Rabs j <= 1 ->
  exists W Z, varies F Tp lo hi X Y W Z i j.
Proof.
  intros HV HG HK Hlh HL HX Hi Hj.
  set (wu := fun x y s => Velx F x y s Tp). set (wv := fun x y s => Vely F x y s Tp).
  set (gux := fun x y s => gradUx F x y s Tp). set (guy := fun x y s => gradUy F x y s Tp). set (gvx := fun x y s => gradVx F x y s Tp). set (gvy := fun x y s => gradVy F x y s Tp).
  set (L := V * K) in *. set (N := V * K ^ 2).
  assert (Tu : tame L N wu gux guy) by (apply tame_of; [apply HV|intros p q s; apply (HG p q s)]).
  assert (Tv : tame L N wv gvx gvy) by (apply tame_of; [apply HV|intros p q s; apply (HG p q s)]).
  pose proof (N_pos wu gux guy L N Tu) as NP.
  destruct HV as (Gu & Gv). pose proof (graded_bounded _ _ _ _ Gu) as Vu. pose proof (graded_bounded _ _ _ _ Gv) as Vv.
  assert (PV : 0 <= V) by (eapply Rle_trans; [apply Rabs_pos|apply (Vu 0 0 0)]).
  pose proof (graded_lip _ _ _ (graded_less _ _ _ _ Gu)) as Hu. pose proof (graded_lip _ _ _ (graded_less _ _ _ _ Gv)) as Hv. set (B := Rmax V (V * K)) in *.
  pose proof (smooth_bounded _ _ _ Hu) as Bu. pose proof (smooth_bounded _ _ _ Hv) as Bv.
  assert (Lu : forall p q r x y s, Rabs (wu p q r - wu x y s) <= B * (Rabs (p - x) + Rabs (q - y) + Rabs (r - s))) by (intros; eapply smooth_lipschitz; exact Hu).
  assert (Lv : forall p q r x y s, Rabs (wv p q r - wv x y s) <= B * (Rabs (p - x) + Rabs (q - y) + Rabs (r - s))) by (intros; eapply smooth_lipschitz; exact Hv).
  destruct (trajectory wu wv B hi (X hi) (Y hi) Bu Bv Lu Lv) as (X0 & Y0 & EX & EY & D).
  pose proof (one_trajectory wu wv B hi Bu Lu Lv lo X Y X0 Y0 HX (fun s _ => D s) (eq_sym EX) (eq_sym EY)) as U.
  assert (LP : forall (P p : R -> R), (forall s, derivable_pt_lim P s (p s)) -> (forall s, Rabs (p s) <= V) -> forall s t, Rabs (P s - P t) <= V * Rabs (s - t)).
  { intros P p DP BP s t. destruct (MVT_abs P p t s (fun c _ => DP c)) as (c & -> & _). apply Rmult_le_compat_r; [apply Rabs_pos|apply BP]. }
  pose proof (LP X0 _ (fun s => proj1 (D s)) (fun s => Vu _ _ _)) as LX. pose proof (LP Y0 _ (fun s => proj2 (D s)) (fun s => Vv _ _ _)) as LY.
  assert (LA : forall w : R -> R -> R -> R, (forall p q r x y s, Rabs (w p q r - w x y s) <= N * (Rabs (p - x) + Rabs (q - y) + Rabs (r - s))) ->
     forall s t, Rabs (w (X0 s) (Y0 s) s - w (X0 t) (Y0 t) t) <= N * (1 + 2 * V) * Rabs (s - t)).
  { intros w Hw s t. eapply Rle_trans; [apply Hw|]. rewrite Rmult_assoc. apply Rmult_le_compat_l; [exact NP|]. pose proof (LX s t). pose proof (LY s t). lra. }
  destruct Tu as (_ & TBu & TNu), Tv as (_ & TBv & TNv).
  destruct (linear_flow (fun s => gux (X0 s) (Y0 s) s) (fun s => guy (X0 s) (Y0 s) s) (fun s => gvx (X0 s) (Y0 s) s) (fun s => gvy (X0 s) (Y0 s) s) L (N * (1 + 2 * V)) lo hi i j) as (W & Z & EW & EZ & H);
    try assumption; try (intros; apply TBu); try (intros; apply TBv).
  - apply Rmult_le_pos; lra.
  - apply LA. intros; apply TNu.
  - apply LA. intros; apply TNu.
  - apply LA. intros; apply TNv.
  - apply LA. intros; apply TNv.
  - exists W, Z. split; [exact EW|]. split; [exact EZ|]. intros s Hs. specialize (H s Hs). destruct (U s Hs) as (E1 & E2). rewrite <- E1, <- E2 in H. exact H.
Qed.
