(** The level set equation has a solution for every differentiable start. *)
From Coq Require Import ZArith List Reals Lra Lia.
From Coquelicot Require Import Coquelicot.
From Verif Require Import Base Num ModelVec SpecGradient ModelRefMath SpecRef SpecRefOrder SpecRefSolve SpecRefExist
  ProofsTaylor ProofsRefTrace ProofsRefOrder ProofsRefSmooth ProofsRefScale ProofsRefStepErr ProofsPicard ProofsRefSolve ProofsRefFlowGrad ProofsRefJet ProofsRefVariation.
Import ListNotations.
Open Scope R_scope.

(** over a short time the end of a trajectory depends differentiably on its start *)
Lemma short_map F Tp V K lo hi X Y X' Y' W1 Z1 W2 Z2 e : graded_velocity 2 V K F Tp -> true_gradients F Tp -> lo <= hi -> V * K * (hi - lo) <= 1 / 4 ->
  follows F Tp lo hi X Y -> follows F Tp lo hi X' Y' -> varies F Tp lo hi X Y W1 Z1 1 0 -> varies F Tp lo hi X Y W2 Z2 0 1 ->
  let a := X' hi - X hi in let b := Y' hi - Y hi in Rabs a <= e -> Rabs b <= e ->
  Rabs (X' lo - X lo - (W1 lo * a + W2 lo * b)) <= 32 * (V * K ^ 2) * (hi - lo) * (e * e) /\ Rabs (Y' lo - Y lo - (Z1 lo * a + Z2 lo * b)) <= 32 * (V * K ^ 2) * (hi - lo) * (e * e).
Proof.
  intros HV HG Hlh HL HX HX' (EW1 & EZ1 & H1) (EW2 & EZ2 & H2) a b Ha Hb.
  set (wu := fun x y s => Velx F x y s Tp). set (wv := fun x y s => Vely F x y s Tp).
  set (gux := fun x y s => gradUx F x y s Tp). set (guy := fun x y s => gradUy F x y s Tp). set (gvx := fun x y s => gradVx F x y s Tp). set (gvy := fun x y s => gradVy F x y s Tp).
  set (L := V * K) in *. set (N := V * K ^ 2).
  assert (Tu : tame L N wu gux guy) by (apply tame_of; [apply HV|intros p q s; apply (HG p q s)]).
  assert (Tv : tame L N wv gvx gvy) by (apply tame_of; [apply HV|intros p q s; apply (HG p q s)]).
  pose proof (N_pos wu gux guy L N Tu) as NP. pose proof (L_pos wu gux guy L N Tu) as LP.
  pose proof (spread wu gux guy wv gvx gvy L N lo hi Hlh Tu Tv HL X Y X' Y' HX HX' e Ha Hb) as SP. cbv beta zeta in SP.
  assert (DR : forall (P' P w0 w1 : R -> R) (z' z zw zx : R) s, derivable_pt_lim P' s z' -> derivable_pt_lim P s z -> derivable_pt_lim w0 s zw -> derivable_pt_lim w1 s zx ->
    derivable_pt_lim (fun s => P' s - P s - (w0 s * a + w1 s * b)) s (z' - z - (zw * a + zx * b))).
  { intros P' P w0 w1 z' z zw zx s K1 K2 K3 K4. apply (derivable_pt_lim_minus (fun s => P' s - P s) (fun s => w0 s * a + w1 s * b)); [apply (derivable_pt_lim_minus P' P); assumption|].
    apply (derivable_pt_lim_plus (fun s => w0 s * a) (fun s => w1 s * b)).
    - replace (zw * a) with (a * zw) by ring. apply (derivable_pt_lim_ext (fun s => a * w0 s)); [intros; ring|]. apply derivable_pt_lim_scal. exact K3.
    - replace (zx * b) with (b * zx) by ring. apply (derivable_pt_lim_ext (fun s => b * w1 s)); [intros; ring|]. apply derivable_pt_lim_scal. exact K4. }
  pose proof (lin_grow (fun _ => 0) L lo hi Hlh HL ltac:(intros; cbv beta; rewrite Rabs_R0; exact LP)
    (fun s => X' s - X s - (W1 s * a + W2 s * b)) (fun s => wu (X' s) (Y' s) s - wu (X s) (Y s) s - ((gux (X s) (Y s) s * W1 s + guy (X s) (Y s) s * Z1 s) * a + (gux (X s) (Y s) s * W2 s + guy (X s) (Y s) s * Z2 s) * b))
    (fun s => Y' s - Y s - (Z1 s * a + Z2 s * b)) (fun s => wv (X' s) (Y' s) s - wv (X s) (Y s) s - ((gvx (X s) (Y s) s * W1 s + gvy (X s) (Y s) s * Z1 s) * a + (gvx (X s) (Y s) s * W2 s + gvy (X s) (Y s) s * Z2 s) * b))
    (16 * N * (e * e))) as G. cbv beta in G.
  assert (RB : forall w wx wy, tame L N w wx wy -> forall s, lo <= s <= hi ->
     Rabs (w (X' s) (Y' s) s - w (X s) (Y s) s - ((wx (X s) (Y s) s * W1 s + wy (X s) (Y s) s * Z1 s) * a + (wx (X s) (Y s) s * W2 s + wy (X s) (Y s) s * Z2 s) * b)) <=
     L * (Rabs (X' s - X s - (W1 s * a + W2 s * b)) + Rabs (Y' s - Y s - (Z1 s * a + Z2 s * b))) + 16 * N * (e * e)).
  { intros w wx wy T s Hs. destruct (SP s Hs) as (S1 & S2). pose proof (linear_rest L N w wx wy (X s) (Y s) (X' s) (Y' s) s e T S1 S2 NP) as LR.
    replace (w (X' s) (Y' s) s - w (X s) (Y s) s - ((wx (X s) (Y s) s * W1 s + wy (X s) (Y s) s * Z1 s) * a + (wx (X s) (Y s) s * W2 s + wy (X s) (Y s) s * Z2 s) * b)) with
      ((wx (X s) (Y s) s * (X' s - X s - (W1 s * a + W2 s * b)) + wy (X s) (Y s) s * (Y' s - Y s - (Z1 s * a + Z2 s * b))) + (w (X' s) (Y' s) s - w (X s) (Y s) s - (wx (X s) (Y s) s * (X' s - X s) + wy (X s) (Y s) s * (Y' s - Y s)))) by ring.
    eapply Rle_trans; [apply Rabs_triang|]. apply Rplus_le_compat; [|exact LR]. destruct T as (_ & TB & _). destruct (TB (X s) (Y s) s) as (b1 & b2).
    eapply Rle_trans; [apply Rabs_triang|]. rewrite Rmult_plus_distr_l. apply Rplus_le_compat; apply mul_le; auto; lra. }
  destruct (G ltac:(intros s Hs; apply DR; [apply HX'; exact Hs|apply HX; exact Hs|apply H1; exact Hs|apply H2; exact Hs]) ltac:(intros s Hs; apply DR; [apply HX'; exact Hs|apply HX; exact Hs|apply H1; exact Hs|apply H2; exact Hs])
    ltac:(intros s Hs; split; [apply (RB wu gux guy Tu s Hs)|apply (RB wv gvx gvy Tv s Hs)]) 0 ltac:(rewrite EW1, EW2; fold a; replace (a - (1 * a + 0 * b)) with 0 by ring; rewrite Rabs_R0; lra)
    ltac:(rewrite EZ1, EZ2; fold b; replace (b - (0 * a + 1 * b)) with 0 by ring; rewrite Rabs_R0; lra) lo ltac:(lra)) as (O1 & O2).
  replace (2 * (0 + 16 * N * (e * e) * (hi - lo))) with (32 * N * (hi - lo) * (e * e)) in O1, O2 by ring. split; assumption.
Qed.

Section Flow.
Variables (F : flow R) (Tp V K : R).
Hypothesis HK : 0 <= K.
Hypothesis HV : graded_velocity 2 V K F Tp.
Hypothesis HG : true_gradients F Tp.
Notation wu := (fun x y s => Velx F x y s Tp).
Notation wv := (fun x y s => Vely F x y s Tp).
Notation B := (Rmax V (V * K)).
Lemma eu : (forall x y s, Rabs (Velx F x y s Tp) <= B) /\ forall p q r x y s, Rabs (Velx F p q r Tp - Velx F x y s Tp) <= B * (Rabs (p - x) + Rabs (q - y) + Rabs (r - s)).
Proof. pose proof (graded_lip _ _ _ (graded_less _ _ _ _ (proj1 HV))) as H. split; [exact (smooth_bounded _ _ _ H)|intros p q r x y s; eapply (smooth_lipschitz 0 B wu); exact H]. Qed.
Lemma ev : (forall x y s, Rabs (Vely F x y s Tp) <= B) /\ forall p q r x y s, Rabs (Vely F p q r Tp - Vely F x y s Tp) <= B * (Rabs (p - x) + Rabs (q - y) + Rabs (r - s)).
Proof. pose proof (graded_lip _ _ _ (graded_less _ _ _ _ (proj2 HV))) as H. split; [exact (smooth_bounded _ _ _ H)|intros p q r x y s; eapply (smooth_lipschitz 0 B wv); exact H]. Qed.

(** the place at time r of the point that is at (x, y) at time s *)
Definition OX (x y s r : R) : R := PX wu wv s x y r.
Definition OY (x y s r : R) : R := PY wu wv s x y r.
Definition runs (X Y : R -> R) : Prop := forall r, derivable_pt_lim X r (Velx F (X r) (Y r) r Tp) /\ derivable_pt_lim Y r (Vely F (X r) (Y r) r Tp).
Lemma O_runs x y s : OX x y s s = x /\ OY x y s s = y /\ runs (OX x y s) (OY x y s).
Proof. exact (trajectory_is wu wv B s x y (proj1 eu) (proj1 ev) (proj2 eu) (proj2 ev)). Qed.
(** two trajectories that meet are the same *)
Lemma same_back X Y X' Y' t : runs X Y -> runs X' Y' -> X t = X' t -> Y t = Y' t -> forall r, r <= t -> X r = X' r /\ Y r = Y' r.
Proof.
  intros H H' E1 E2 r Hr. exact (one_trajectory wu wv B t (proj1 eu) (proj2 eu) (proj2 ev) r X Y X' Y' (fun s _ => H s) (fun s _ => H' s) E1 E2 r ltac:(lra)).
Qed.
Lemma flip_d (X x : R -> R) r : derivable_pt_lim X (- r) (x (- r)) -> derivable_pt_lim (fun r => X (- r)) r (- x (- r)).
Proof.
  intros H. replace (- x (- r)) with (x (- r) * - 1) by ring. apply (derivable_pt_lim_comp (fun r => - r) X); [|exact H].
  apply is_derive_Reals. auto_derive; [auto|ring].
Qed.
Lemma same_fore X Y X' Y' t : runs X Y -> runs X' Y' -> X t = X' t -> Y t = Y' t -> forall r, t <= r -> X r = X' r /\ Y r = Y' r.
Proof.
  intros H H' E1 E2 r Hr. set (u' := fun x y s => - Velx F x y (- s) Tp). set (v' := fun x y s => - Vely F x y (- s) Tp).
  assert (Bu : forall x y s, Rabs (u' x y s) <= B) by (intros; unfold u'; rewrite Rabs_Ropp; apply eu).
  assert (Lp : forall w : R -> R -> R -> R, (forall p q r x y s, Rabs (w p q r - w x y s) <= B * (Rabs (p - x) + Rabs (q - y) + Rabs (r - s))) ->
    forall p q r x y s, Rabs (- w p q (- r) - - w x y (- s)) <= B * (Rabs (p - x) + Rabs (q - y) + Rabs (r - s))).
  { intros w Hw p q r0 x y s. replace (- w p q (- r0) - - w x y (- s)) with (- (w p q (- r0) - w x y (- s))) by ring. rewrite Rabs_Ropp. eapply Rle_trans; [apply Hw|].
    replace (- r0 - - s) with (- (r0 - s)) by ring. rewrite Rabs_Ropp. lra. }
  assert (D : forall X Y, runs X Y -> forall s, - r <= s <= - t -> derivable_pt_lim (fun s => X (- s)) s (u' (X (- s)) (Y (- s)) s) /\ derivable_pt_lim (fun s => Y (- s)) s (v' (X (- s)) (Y (- s)) s)).
  { intros X0 Y0 H0 s _. destruct (H0 (- s)) as (D1 & D2). split; unfold u', v'.
    - exact (flip_d X0 (fun r => Velx F (X0 r) (Y0 r) r Tp) s D1).
    - exact (flip_d Y0 (fun r => Vely F (X0 r) (Y0 r) r Tp) s D2). }
  destruct (one_trajectory u' v' B (- t) Bu (Lp wu (proj2 eu)) (Lp wv (proj2 ev)) (- r) (fun s => X (- s)) (fun s => Y (- s)) (fun s => X' (- s)) (fun s => Y' (- s))
    (D X Y H) (D X' Y' H') ltac:(cbv beta; rewrite Ropp_involutive; exact E1) ltac:(cbv beta; rewrite Ropp_involutive; exact E2) (- r) ltac:(lra)) as (A1 & A2).
  rewrite Ropp_involutive in A1, A2. auto.
Qed.
Lemma same X Y X' Y' t : runs X Y -> runs X' Y' -> X t = X' t -> Y t = Y' t -> forall r, X r = X' r /\ Y r = Y' r.
Proof. intros H H' E1 E2 r. destruct (Rle_dec r t); [apply (same_back X Y X' Y' t)|apply (same_fore X Y X' Y' t)]; auto; lra. Qed.
(** going to time r and on to time t *)
Lemma O_comp x y s r t : OX (OX x y s r) (OY x y s r) r t = OX x y s t /\ OY (OX x y s r) (OY x y s r) r t = OY x y s t.
Proof.
  destruct (O_runs x y s) as (_ & _ & H). destruct (O_runs (OX x y s r) (OY x y s r) r) as (E1 & E2 & H'). exact (same _ _ _ _ r H' H E1 E2 t).
Qed.

(** differentiability over a short time *)
Lemma O_short x y s r : r <= s -> V * K * (s - r) <= 1 / 4 -> exists a b c d, differentiable_pt_lim (fun x y => OX x y s r) x y a b /\ differentiable_pt_lim (fun x y => OY x y s r) x y c d.
Proof.
  intros Hr HL. destruct (O_runs x y s) as (E1 & E2 & H).
  assert (HX : follows F Tp r s (OX x y s) (OY x y s)) by (intros t _; apply H).
  destruct (varies_ex F Tp V K r s _ _ 1 0 HV HG HK Hr HL HX ltac:(rewrite Rabs_R1; lra) ltac:(rewrite Rabs_R0; lra)) as (W1 & Z1 & H1).
  destruct (varies_ex F Tp V K r s _ _ 0 1 HV HG HK Hr HL HX ltac:(rewrite Rabs_R0; lra) ltac:(rewrite Rabs_R1; lra)) as (W2 & Z2 & H2).
  exists (W1 r), (W2 r), (Z1 r), (Z2 r).
  set (C := 32 * (V * K ^ 2) * (s - r)).
  assert (G : forall p q, let e := Rmax (Rabs (p - x)) (Rabs (q - y)) in
    Rabs (OX p q s r - OX x y s r - (W1 r * (p - x) + W2 r * (q - y))) <= C * (e * e) /\ Rabs (OY p q s r - OY x y s r - (Z1 r * (p - x) + Z2 r * (q - y))) <= C * (e * e)).
  { intros p q e. destruct (O_runs p q s) as (E1' & E2' & H'). assert (HX' : follows F Tp r s (OX p q s) (OY p q s)) by (intros t _; apply H').
    pose proof (short_map F Tp V K r s _ _ _ _ W1 Z1 W2 Z2 e HV HG Hr HL HX HX' H1 H2) as Q. cbv zeta in Q. rewrite E1, E2, E1', E2' in Q. apply Q; [apply Rmax_l|apply Rmax_r]. }
  assert (D : forall (f : R -> R -> R) a b, (forall p q, let e := Rmax (Rabs (p - x)) (Rabs (q - y)) in Rabs (f p q - f x y - (a * (p - x) + b * (q - y))) <= C * (e * e)) -> differentiable_pt_lim f x y a b).
  { intros f a b Hf eps. pose proof (cond_pos eps) as He. assert (PC : 0 <= Rabs C) by apply Rabs_pos.
    assert (Hd : 0 < eps / (Rabs C + 1)) by (apply Rdiv_lt_0_compat; lra). exists (mkposreal _ Hd). intros p q Hp Hq. cbn [pos] in Hp, Hq. eapply Rle_trans; [apply Hf|].
    set (e := Rmax (Rabs (p - x)) (Rabs (q - y))). assert (Pe : 0 <= e) by (eapply Rle_trans; [apply Rabs_pos|apply Rmax_l]).
    assert (Le : e <= eps / (Rabs C + 1)) by (apply Rmax_lub; lra). rewrite <- Rmult_assoc. apply Rmult_le_compat_r; [exact Pe|].
    apply Rle_trans with ((Rabs C + 1) * e); [apply Rmult_le_compat_r; [exact Pe|]; pose proof (Rle_abs C); lra|].
    apply Rle_trans with ((Rabs C + 1) * (eps / (Rabs C + 1))); [apply Rmult_le_compat_l; lra|right; field; lra]. }
  split; apply D; intros p q; apply G.
Qed.
(** a differentiable function carried along, after a long time *)
Lemma V_pos : 0 <= V.
Proof. eapply Rle_trans; [apply Rabs_pos|exact (graded_bounded _ _ _ _ (proj1 HV) 0 0 0)]. Qed.
Lemma O_long D b : differentiable D -> forall n s, b <= s -> V * K * (s - b) <= INR n / 4 -> differentiable (fun x y => D (OX x y s b) (OY x y s b)).
Proof.
  intros HD. induction n as [|n IH]; intros s Hs Hn x y.
  - destruct (O_short x y s b Hs ltac:(cbn in Hn; lra)) as (a1 & b1 & c1 & d1 & D1 & D2). destruct (HD (OX x y s b) (OY x y s b)) as (a & c & DD).
    eexists. eexists. exact (differentiable_pt_lim_comp D _ _ x y _ _ _ _ _ _ DD D1 D2).
  - rewrite S_INR in Hn. set (m := b + (s - b) * (INR n / (INR n + 1))). pose proof (pos_INR n) as Pn. pose proof V_pos as PV. pose proof (Rmult_le_pos V K PV HK) as PL.
    assert (Hf : 0 <= INR n / (INR n + 1) <= 1) by (split; [apply Rmult_le_pos; [exact Pn|left; apply Rinv_0_lt_compat; lra]|apply (Rmult_le_reg_r (INR n + 1)); [lra|]; replace (INR n / (INR n + 1) * (INR n + 1)) with (INR n) by (field; lra); lra]).
    assert (Hm : b <= m <= s).
    { unfold m. pose proof (Rmult_le_pos (s - b) _ ltac:(lra) (proj1 Hf)). pose proof (Rmult_le_compat_l (s - b) _ _ ltac:(lra) (proj2 Hf)). lra. }
    assert (Q1 : V * K * (m - b) <= INR n / 4).
    { replace (V * K * (m - b)) with (V * K * (s - b) * (INR n / (INR n + 1))) by (unfold m; field; lra).
      apply Rle_trans with ((INR n + 1) / 4 * (INR n / (INR n + 1))); [apply Rmult_le_compat_r; [apply Hf|exact Hn]|right; field; lra]. }
    assert (Q2 : V * K * (s - m) <= 1 / 4).
    { replace (V * K * (s - m)) with (V * K * (s - b) * (1 / (INR n + 1))) by (unfold m; field; lra).
      apply Rle_trans with ((INR n + 1) / 4 * (1 / (INR n + 1))); [apply Rmult_le_compat_r; [left; apply Rdiv_lt_0_compat; lra|exact Hn]|right; field; lra]. }
    destruct (O_short x y s m ltac:(lra) Q2) as (a1 & b1 & c1 & d1 & D1 & D2).
    destruct (IH m ltac:(lra) Q1 (OX x y s m) (OY x y s m)) as (a & c & DD).
    eexists. eexists. apply (differentiable_pt_lim_ext (fun x y => D (OX (OX x y s m) (OY x y s m) m b) (OY (OX x y s m) (OY x y s m) m b))).
    { exists (mkposreal 1 Rlt_0_1). intros p q _ _. destruct (O_comp p q s m b) as (-> & ->). reflexivity. }
    exact (differentiable_pt_lim_comp (fun x y => D (OX x y m b) (OY x y m b)) _ _ x y _ _ _ _ _ _ DD D1 D2).
Qed.
Lemma O_fore D b s : differentiable D -> b <= s -> differentiable (fun x y => D (OX x y s b) (OY x y s b)).
Proof.
  intros HD Hs. destruct (archimed (4 * (V * K * (s - b)))) as (A & _). pose proof V_pos as PV. pose proof (Rmult_le_pos V K PV HK) as PL. pose proof (Rmult_le_pos (V * K) (s - b) PL ltac:(lra)) as P.
  set (z := up (4 * (V * K * (s - b)))) in *. assert (Hz : (0 <= z)%Z) by (apply le_IZR; lra).
  apply (O_long D b HD (Z.to_nat z) s Hs). rewrite INR_IZR_INZ, Z2Nat.id by exact Hz. lra.
Qed.
End Flow.

(** *** the flow backwards in time *)
Definition mirror (F : flow R) (Tp : R) : flow R := mkFlow (fun x y s _ => - Velx F x y (- s) Tp) (fun x y s _ => - Vely F x y (- s) Tp)
  (fun x y s _ => - gradUx F x y (- s) Tp) (fun x y s _ => - gradUy F x y (- s) Tp) (fun x y s _ => - gradVx F x y (- s) Tp) (fun x y s _ => - gradVy F x y (- s) Tp).
Lemma mirror_graded3 n : forall V K w, graded3 n V K w -> graded3 n V K (fun x y s => - w x y (- s)) /\ graded3 n V K (fun x y s => w x y (- s)).
Proof.
  induction n as [|n IH]; intros V K w G.
  - destruct G as (H & _). split; (split; [intros; rewrite ?Rabs_Ropp; apply H|exact I]).
  - destruct G as (H & wx & wy & ws & D & Gx & Gy & Gs).
    assert (D1 : diff3 (fun x y s => w x y (- s)) (fun x y s => wx x y (- s)) (fun x y s => wy x y (- s)) (fun x y s => - ws x y (- s))).
    { intros x y s eps He. destruct (D x y (- s) eps He) as (d & Hd & Q). exists d. split; [exact Hd|]. intros p q r Hp Hq Hr.
      specialize (Q p q (- r) Hp Hq). replace (- r - - s) with (- (r - s)) in Q by ring. rewrite Rabs_Ropp in Q. specialize (Q Hr).
      replace (wx x y (- s) * (p - x) + wy x y (- s) * (q - y) + - ws x y (- s) * (r - s)) with (wx x y (- s) * (p - x) + wy x y (- s) * (q - y) + ws x y (- s) * - (r - s)) by ring. exact Q. }
    split; (split; [intros; rewrite ?Rabs_Ropp; apply H|]).
    + exists (fun x y s => - wx x y (- s)), (fun x y s => - wy x y (- s)), (fun x y s => ws x y (- s)). split; [|split; [apply IH, Gx|split; [apply IH, Gy|apply IH, Gs]]].
      intros x y s eps He. destruct (D1 x y s eps He) as (d & Hd & Q). exists d. split; [exact Hd|]. intros p q r Hp Hq Hr. specialize (Q p q r Hp Hq Hr). rewrite <- Rabs_Ropp in Q.
      match type of Q with Rabs ?a <= _ => match goal with |- Rabs ?b <= _ => replace b with a by ring end end. exact Q.
    + exists (fun x y s => wx x y (- s)), (fun x y s => wy x y (- s)), (fun x y s => - ws x y (- s)). split; [exact D1|split; [apply IH, Gx|split; [apply IH, Gy|apply IH, Gs]]].
Qed.
Lemma mirror_graded n V K F Tp : graded_velocity n V K F Tp -> graded_velocity n V K (mirror F Tp) Tp.
Proof. intros (H1 & H2). split; cbn [mirror Velx Vely]; [exact (proj1 (mirror_graded3 n V K _ H1))|exact (proj1 (mirror_graded3 n V K _ H2))]. Qed.
Lemma mirror_true F Tp : true_gradients F Tp -> true_gradients (mirror F Tp) Tp.
Proof.
  intros H x y s. destruct (H x y (- s)) as (H1 & H2). cbn [mirror Velx Vely gradUx gradUy gradVx gradVy].
  assert (N : forall (f : R -> R -> R) a b, differentiable_pt_lim f x y a b -> differentiable_pt_lim (fun x y => - f x y) x y (- a) (- b)).
  { intros f a b Hf eps. destruct (Hf eps) as (d & Hd). exists d. intros p q Hp Hq. specialize (Hd p q Hp Hq). rewrite <- Rabs_Ropp in Hd.
    match type of Hd with Rabs ?u <= _ => match goal with |- Rabs ?v <= _ => replace v with u by ring end end. exact Hd. }
  split; apply N; assumption.
Qed.
Lemma mirror_O F Tp V K x y s r : graded_velocity 2 V K F Tp -> OX (mirror F Tp) Tp x y (- s) (- r) = OX F Tp x y s r /\ OY (mirror F Tp) Tp x y (- s) (- r) = OY F Tp x y s r.
Proof.
  intros HV. destruct (O_runs F Tp V K HV x y s) as (E1 & E2 & H). destruct (O_runs (mirror F Tp) Tp V K (mirror_graded 2 V K F Tp HV) x y (- s)) as (E1' & E2' & H').
  assert (H2 : runs (mirror F Tp) Tp (fun r => OX F Tp x y s (- r)) (fun r => OY F Tp x y s (- r))).
  { intros t. destruct (H (- t)) as (D1 & D2). cbn [mirror Velx Vely]. split.
    - exact (flip_d (OX F Tp x y s) (fun r => Velx F (OX F Tp x y s r) (OY F Tp x y s r) r Tp) t D1).
    - exact (flip_d (OY F Tp x y s) (fun r => Vely F (OX F Tp x y s r) (OY F Tp x y s r) r Tp) t D2). }
  destruct (same (mirror F Tp) Tp V K (mirror_graded 2 V K F Tp HV) _ _ _ _ (- s) H' H2 ltac:(cbv beta; rewrite Ropp_involutive, E1; exact E1') ltac:(cbv beta; rewrite Ropp_involutive, E2; exact E2') (- r)) as (A1 & A2).
  cbv beta in A1, A2. rewrite Ropp_involutive in A1, A2. auto.
Qed.
(** a differentiable function carried along, at any time *)
Lemma O_any F Tp V K D b s : 0 <= K -> graded_velocity 2 V K F Tp -> true_gradients F Tp -> differentiable D -> differentiable (fun x y => D (OX F Tp x y s b) (OY F Tp x y s b)).
Proof.
  intros HK HV HG HD. destruct (Rle_dec b s) as [H|H]; [apply (O_fore F Tp V K); assumption|].
  intros x y. destruct (O_fore (mirror F Tp) Tp V K HK (mirror_graded 2 V K F Tp HV) (mirror_true F Tp HG) D (- b) (- s) HD ltac:(lra) x y) as (a & c & H1). exists a, c.
  apply (differentiable_pt_lim_ext (fun x y => D (OX (mirror F Tp) Tp x y (- s) (- b)) (OY (mirror F Tp) Tp x y (- s) (- b)))); [|exact H1].
  exists (mkposreal 1 Rlt_0_1). intros p q _ _. destruct (mirror_O F Tp V K p q s b HV) as (-> & ->). reflexivity.
Qed.

(** *** the solution *)
Section Solution.
Variables (F : flow R) (Tp V K b : R) (D : R -> R -> R).
Hypothesis HK : 0 <= K.
Hypothesis HV : graded_velocity 2 V K F Tp.
Hypothesis HG : true_gradients F Tp.
Hypothesis HD : differentiable D.
Definition sol (x y s : R) : R := D (OX F Tp x y s b) (OY F Tp x y s b).
Definition sol_x (x y s : R) : R := Derive (fun x => sol x y s) x.
Definition sol_y (x y s : R) : R := Derive (fun y => sol x y s) y.
Lemma sol_space x y s : differentiable_pt_lim (fun x y => sol x y s) x y (sol_x x y s) (sol_y x y s).
Proof.
  destruct (O_any F Tp V K D b s HK HV HG HD x y) as (a & c & H). destruct (differentiable_pt_lim_unique _ _ _ _ _ H) as (Ea & Ec).
  unfold sol_x, sol_y, sol. cbv beta in Ea, Ec |- *. rewrite Ea, Ec. exact H.
Qed.
Lemma sol_carried x y s r : sol x y s = sol (OX F Tp x y s r) (OY F Tp x y s r) r.
Proof. unfold sol. destruct (O_comp F Tp V K HV x y s r b) as (-> & ->). reflexivity. Qed.
Lemma sol_start x y : sol x y b = D x y.
Proof. unfold sol. destruct (O_runs F Tp V K HV x y b) as (-> & -> & _). reflexivity. Qed.
Lemma sol_diff : diff3 sol sol_x sol_y (fun x y s => - (Velx F x y s Tp * sol_x x y s + Vely F x y s Tp * sol_y x y s)).
Proof.
  intros x y s eps He. set (ux := sol_x x y s). set (uy := sol_y x y s). set (vu := Velx F x y s Tp). set (vv := Vely F x y s Tp).
  destruct (eu F Tp V K HV) as (Bu & Lu). destruct (ev F Tp V K HV) as (Bv & Lv). set (B := Rmax V (V * K)) in *.
  assert (PB : 0 <= B) by (eapply Rle_trans; [apply Rabs_pos|apply (Bu 0 0 0)]).
  set (A := Rabs ux + Rabs uy). assert (PA : 0 <= A) by (unfold A; pose proof (Rabs_pos ux); pose proof (Rabs_pos uy); lra).
  assert (P1 : 0 < eps / (2 * (1 + B))) by (apply Rdiv_lt_0_compat; lra).
  destruct (sol_space x y s (mkposreal _ P1)) as (d1 & H1). cbn [pos] in H1. pose proof (cond_pos d1) as Pd1. fold ux uy in H1.
  set (C := A * (B * ((1 + 2 * B) + 1))). assert (PC : 0 <= C) by (unfold C; apply Rmult_le_pos; [exact PA|apply Rmult_le_pos; lra]).
  set (d := Rmin (d1 / (3 * (1 + B))) (eps / (2 * (C + 1)))).
  assert (Hd : 0 < d) by (unfold d; apply Rmin_glb_lt; apply Rdiv_lt_0_compat; lra).
  exists d. split; [exact Hd|]. intros p q r Hp Hq Hr. set (S := Rabs (p - x) + Rabs (q - y) + Rabs (r - s)).
  pose proof (Rabs_pos (p - x)) as Pp. pose proof (Rabs_pos (q - y)) as Pq. pose proof (Rabs_pos (r - s)) as Pr. assert (PS : 0 <= S) by (unfold S; lra).
  rewrite (sol_carried p q r s). destruct (O_runs F Tp V K HV p q r) as (E1 & E2 & H).
  set (X := OX F Tp p q r) in *. set (Y := OY F Tp p q r) in *.
  (* the path stays near *)
  assert (MV : forall (Z z : R -> R), (forall t, derivable_pt_lim Z t (z t)) -> forall t, exists c, Rabs (c - r) <= Rabs (t - r) /\ Z t - Z r = z c * (t - r)).
  { intros Z z DZ t. destruct (Rtotal_order r t) as [Q|[Q|Q]].
    - destruct (MVT_cor2 Z z r t Q ltac:(intros; apply DZ)) as (c & E & Hc). exists c. split; [rewrite !Rabs_pos_eq by lra; lra|exact E].
    - exists r. subst t. split; [lra|]. ring.
    - destruct (MVT_cor2 Z z t r Q ltac:(intros; apply DZ)) as (c & E & Hc). exists c. split; [rewrite !Rabs_left1 by lra; lra|]. lra. }
  assert (NX : forall t, Rabs (X t - p) <= B * Rabs (t - r)).
  { intros t. destruct (MV X _ (fun t => proj1 (H t)) t) as (c & _ & E). rewrite E1 in E. rewrite E, Rabs_mult. apply Rmult_le_compat_r; [apply Rabs_pos|apply Bu]. }
  assert (NY : forall t, Rabs (Y t - q) <= B * Rabs (t - r)).
  { intros t. destruct (MV Y _ (fun t => proj2 (H t)) t) as (c & _ & E). rewrite E2 in E. rewrite E, Rabs_mult. apply Rmult_le_compat_r; [apply Rabs_pos|apply Bv]. }
  assert (NV : forall (w : R -> R -> R -> R), (forall p q r x y s, Rabs (w p q r - w x y s) <= B * (Rabs (p - x) + Rabs (q - y) + Rabs (r - s))) ->
    forall c, Rabs (c - r) <= Rabs (s - r) -> Rabs (w (X c) (Y c) c - w x y s) <= B * ((1 + 2 * B) * S + S)).
  { intros w Lw c Hc. eapply Rle_trans; [apply Lw|]. apply Rmult_le_compat_l; [exact PB|]. pose proof (NX c) as N1. pose proof (NY c) as N2.
    pose proof (Rmult_le_compat_l B _ _ PB Hc) as N3. rewrite (Rabs_minus_sym s r) in N3, Hc.
    assert (T1 : Rabs (X c - x) <= Rabs (X c - p) + Rabs (p - x)) by (replace (X c - x) with ((X c - p) + (p - x)) by ring; apply Rabs_triang).
    assert (T2 : Rabs (Y c - y) <= Rabs (Y c - q) + Rabs (q - y)) by (replace (Y c - y) with ((Y c - q) + (q - y)) by ring; apply Rabs_triang).
    assert (T3 : Rabs (c - s) <= Rabs (c - r) + Rabs (r - s)) by (replace (c - s) with ((c - r) + (r - s)) by ring; apply Rabs_triang).
    assert (T4 : B * Rabs (r - s) <= B * S) by (apply Rmult_le_compat_l; [exact PB|unfold S; lra]). unfold S in *. lra. }
  destruct (MV X _ (fun t => proj1 (H t)) s) as (c1 & Hc1 & EX). destruct (MV Y _ (fun t => proj2 (H t)) s) as (c2 & Hc2 & EY). rewrite E1 in EX. rewrite E2 in EY.
  pose proof (NV (fun x y s => Velx F x y s Tp) Lu c1 Hc1) as G1. pose proof (NV (fun x y s => Vely F x y s Tp) Lv c2 Hc2) as G2. cbv beta in EX, EY, G1, G2. fold vu in G1. fold vv in G2.
  set (w1 := Velx F (X c1) (Y c1) c1 Tp) in *. set (w2 := Vely F (X c2) (Y c2) c2 Tp) in *.
  pose proof (NX s) as N1. pose proof (NY s) as N2. rewrite (Rabs_minus_sym s r) in N1, N2.
  set (Xs := X s) in *. set (Ys := Y s) in *.
  assert (T1 : Rabs (Xs - x) <= (1 + B) * S).
  { replace (Xs - x) with ((Xs - p) + (p - x)) by ring. eapply Rle_trans; [apply Rabs_triang|]. assert (B * Rabs (r - s) <= B * S) by (apply Rmult_le_compat_l; [exact PB|unfold S; lra]). unfold S in *. lra. }
  assert (T2 : Rabs (Ys - y) <= (1 + B) * S).
  { replace (Ys - y) with ((Ys - q) + (q - y)) by ring. eapply Rle_trans; [apply Rabs_triang|]. assert (B * Rabs (r - s) <= B * S) by (apply Rmult_le_compat_l; [exact PB|unfold S; lra]). unfold S in *. lra. }
  assert (Sd : (1 + B) * S < d1).
  { apply Rlt_le_trans with ((1 + B) * (3 * d)); [apply Rmult_lt_compat_l; [lra|unfold S; lra]|]. assert (d <= d1 / (3 * (1 + B))) by (unfold d; apply Rmin_l).
    apply Rle_trans with ((1 + B) * (3 * (d1 / (3 * (1 + B))))); [apply Rmult_le_compat_l; lra|]. right. field. lra. }
  pose proof (H1 Xs Ys ltac:(lra) ltac:(lra)) as G. cbv beta in G.
  assert (G' : Rabs (sol Xs Ys s - sol x y s - (ux * (Xs - x) + uy * (Ys - y))) <= eps / 2 * S).
  { eapply Rle_trans; [exact G|]. apply Rle_trans with (eps / (2 * (1 + B)) * ((1 + B) * S)); [apply Rmult_le_compat_l; [lra|apply Rmax_lub; assumption]|]. right. field. lra. }
  assert (R1 : Rabs (ux * ((s - r) * (w1 - vu)) + uy * ((s - r) * (w2 - vv))) <= eps / 2 * S).
  { assert (Ps : forall k w, Rabs w <= B * ((1 + 2 * B) * S + S) -> Rabs (k * ((s - r) * w)) <= Rabs k * (Rabs (r - s) * (B * ((1 + 2 * B) * S + S)))).
    { intros k w Hw. rewrite !Rabs_mult, (Rabs_minus_sym s r). apply Rmult_le_compat_l; [apply Rabs_pos|]. apply Rmult_le_compat_l; [apply Rabs_pos|exact Hw]. }
    pose proof (Ps ux _ G1) as Q1. pose proof (Ps uy _ G2) as Q2. eapply Rle_trans; [apply Rabs_triang|].
    apply Rle_trans with (C * Rabs (r - s) * S); [unfold C, A; lra|]. apply Rmult_le_compat_r; [exact PS|].
    assert (d <= eps / (2 * (C + 1))) by (unfold d; apply Rmin_r).
    apply Rle_trans with ((C + 1) * (eps / (2 * (C + 1)))); [apply Rmult_le_compat; lra|]. right. field. lra. }
  replace (sol Xs Ys s - sol x y s - (ux * (p - x) + uy * (q - y) + - (vu * ux + vv * uy) * (r - s)))
    with ((sol Xs Ys s - sol x y s - (ux * (Xs - x) + uy * (Ys - y))) + (ux * ((s - r) * (w1 - vu)) + uy * ((s - r) * (w2 - vv))))
    by (replace (Xs - x) with (w1 * (s - r) + (p - x)) by lra; replace (Ys - y) with (w2 * (s - r) + (q - y)) by lra; ring).
  eapply Rle_trans; [apply Rabs_triang|]. fold S. lra.
Qed.
End Solution.

Lemma O_near F Tp V K x y s r : graded_velocity 2 V K F Tp -> Rabs (OX F Tp x y s r - x) <= V * Rabs (s - r) /\ Rabs (OY F Tp x y s r - y) <= V * Rabs (s - r).
Proof.
  intros HV. destruct (O_runs F Tp V K HV x y s) as (E1 & E2 & H).
  assert (G : forall (Z z : R -> R), (forall t, derivable_pt_lim Z t (z t)) -> (forall t, Rabs (z t) <= V) -> Rabs (Z r - Z s) <= V * Rabs (s - r)).
  { intros Z z DZ Bz. rewrite (Rabs_minus_sym s r). destruct (Rtotal_order r s) as [Q|[Q|Q]].
    - destruct (MVT_cor2 Z z r s Q ltac:(intros; apply DZ)) as (c & E & _). replace (Z r - Z s) with (z c * (r - s)) by lra. rewrite Rabs_mult. apply Rmult_le_compat_r; [apply Rabs_pos|apply Bz].
    - subst r. replace (Z s - Z s) with 0 by ring. replace (s - s) with 0 by ring. rewrite Rabs_R0. lra.
    - destruct (MVT_cor2 Z z s r Q ltac:(intros; apply DZ)) as (c & E & _). rewrite E, Rabs_mult. apply Rmult_le_compat_r; [apply Rabs_pos|apply Bz]. }
  pose proof (G _ _ (fun t => proj1 (H t)) (fun t => graded_bounded _ _ _ _ (proj1 HV) _ _ t)) as G1. pose proof (G _ _ (fun t => proj2 (H t)) (fun t => graded_bounded _ _ _ _ (proj2 HV) _ _ t)) as G2.
  rewrite E1 in G1. rewrite E2 in G2. auto.
Qed.
(** any solution is constant on the trajectories *)
Lemma solution_constant F Tp V K lo hi u x y s r : graded_velocity 2 V K F Tp -> solves F Tp lo hi u -> lo <= s <= hi -> lo <= r <= hi -> u (OX F Tp x y s r) (OY F Tp x y s r) r = u x y s.
Proof.
  intros HV Hu Hs Hr. destruct (O_runs F Tp V K HV x y s) as (E1 & E2 & H).
  assert (Sub : forall a b, lo <= a -> b <= hi -> solves F Tp a b u).
  { intros a b Ha Hb. destruct Hu as (ux & uy & us & D & He). exists ux, uy, us. split; [exact D|]. intros p q t Ht. apply He. lra. }
  assert (Fo : forall a b, follows F Tp a b (OX F Tp x y s) (OY F Tp x y s)) by (intros a b t _; apply H).
  destruct (Rle_dec r s) as [Q|Q].
  - pose proof (carried F Tp r s u _ _ Q (Sub r s ltac:(lra) ltac:(lra)) (Fo r s)) as C. rewrite E1, E2 in C. auto.
  - pose proof (carried F Tp s r u _ _ ltac:(lra) (Sub s r ltac:(lra) ltac:(lra)) (Fo s r)) as C. rewrite E1, E2 in C. auto.
Qed.
Lemma one_solution F Tp V K D b : 0 <= K -> graded_velocity 2 V K F Tp -> true_gradients F Tp -> differentiable D ->
  exists u, (forall lo hi, solves F Tp lo hi u) /\ (forall x y, u x y b = D x y) /\
    (forall x y s, exists p q, Rabs (p - x) <= V * Rabs (s - b) /\ Rabs (q - y) <= V * Rabs (s - b) /\ u x y s = D p q) /\
    forall lo hi u', lo <= b <= hi -> solves F Tp lo hi u' -> (forall x y, u' x y b = D x y) -> forall x y s, lo <= s <= hi -> u' x y s = u x y s.
Proof.
  intros HK HV HG HD. exists (sol F Tp b D).
  assert (Sl : forall lo hi, solves F Tp lo hi (sol F Tp b D)).
  { intros lo hi. eexists _, _, _. split; [exact (sol_diff F Tp V K b D HK HV HG HD)|]. intros x y s _. cbv beta. ring. }
  split; [exact Sl|]. split; [exact (sol_start F Tp V K b D HV)|]. split.
  - intros x y s. exists (OX F Tp x y s b), (OY F Tp x y s b). destruct (O_near F Tp V K x y s b HV) as (N1 & N2). auto.
  - intros lo hi u' Hb Hu E x y s Hs. unfold sol. rewrite <- E. symmetry. exact (solution_constant F Tp V K lo hi u' x y s b HV Hu Hs Hb).
Qed.

(** *** reversal *)
Lemma reversed F Tp V K u x y s : graded_velocity 2 V K F Tp -> reverses F Tp -> s <= Tp / 2 -> solves F Tp s (Tp - s) u -> u x y (Tp - s) = u x y s.
Proof.
  intros HV HR Hs Hu. destruct (O_runs F Tp V K HV x y (Tp - s)) as (E1 & E2 & H). set (X := OX F Tp x y (Tp - s)) in *. set (Y := OY F Tp x y (Tp - s)) in *.
  assert (H2 : runs F Tp (fun r => X (Tp - r)) (fun r => Y (Tp - r))).
  { intros t. destruct (H (Tp - t)) as (D1 & D2). destruct (HR (X (Tp - t)) (Y (Tp - t)) t) as (R1 & R2). rewrite R1 in D1. rewrite R2 in D2.
    assert (G : forall (Z : R -> R) z, derivable_pt_lim Z (Tp - t) (- z) -> derivable_pt_lim (fun r => Z (Tp - r)) t z).
    { intros Z z DZ. replace z with (- z * -1) by ring. apply (derivable_pt_lim_comp (fun r => Tp - r) Z t); [|exact DZ].
      replace (-1) with (0 - 1) by ring. apply derivable_pt_lim_minus; [apply derivable_pt_lim_const|apply derivable_pt_lim_id]. }
    split; apply G; assumption. }
  destruct (same F Tp V K HV X Y _ _ (Tp / 2) H H2 ltac:(cbv beta; f_equal; lra) ltac:(cbv beta; f_equal; lra) s) as (A1 & A2). cbv beta in A1, A2. rewrite E1 in A1. rewrite E2 in A2.
  pose proof (solution_constant F Tp V K s (Tp - s) u x y (Tp - s) s HV Hu ltac:(lra) ltac:(lra)) as C. fold X Y in C. rewrite A1, A2 in C. symmetry. exact C.
Qed.
