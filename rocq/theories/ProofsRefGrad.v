(** The error of the gradient after one time step of the reference programs. *)
From Coq Require Import ZArith List String Reals Lra Lia.
From Coquelicot Require Import Coquelicot.
From Verif Require Import Base Num ModelVec ModelInterp SpecGradient SpecAccuracy ModelRefMath ModelRefMem ModelRef SpecRef SpecRefRun SpecRefOrder SpecRefStep SpecRefGrad
  ProofsHermite ProofsHermiteCell ProofsHermiteErr ProofsAccuracy ProofsRefMath ProofsRefHermite ProofsRefExact ProofsRefReal ProofsRefApi ProofsRefTrace ProofsRefOrder ProofsRefSmooth ProofsRefStepErr.
Import ListNotations.
Open Scope R_scope.
Notation q0 := ModelRefMath.q0.
Notation q1 := ModelRefMath.q1.
Notation q2 := ModelRefMath.q2.
Notation q3 := ModelRefMath.q3.

(** *** slopes in one cell, the corner data with errors *)
Section Cell.
Variables (D : nat -> nat -> R -> R -> R) (M : nat -> nat -> R) (a h c k e0 e1 e2 : R).
Hypothesis Hh : 0 < h.
Hypothesis Hk : 0 < k.
Hypothesis SD : smooth2 D.
Hypothesis HM : forall i j u v, (i <= 4)%nat -> (j <= 4)%nat -> a <= u <= a + h -> c <= v <= c + k -> Rabs (D i j u v) <= M i j.
Variables (phi psix psiy psixy : quad R).
Notation near := (corner_near D e0 e1 e2 phi psix psiy psixy).
Hypothesis N0 : near q0 a c.
Hypothesis N1 : near q1 (a + h) c.
Hypothesis N2 : near q2 a (c + k).
Hypothesis N3 : near q3 (a + h) (c + k).

Lemma unit_of z b l : 0 < l -> b <= z <= b + l -> 0 <= (z - b) / l <= 1.
Proof.
  intros Hl Hz. split; [apply Rmult_le_pos; [lra|left; apply Rinv_0_lt_compat; exact Hl]|apply (Rmult_le_reg_r l); [exact Hl|]; unfold Rdiv; rewrite Rmult_assoc, Rinv_l by lra; lra].
Qed.
(** one line of the cell in the y direction *)
Lemma y_line d i y u p0 s0 p1 s1 A B : (i <= 1)%nat -> a <= u <= a + h -> c <= y <= c + k -> Rabs (p0 - D i 0%nat u c) <= A -> Rabs (p1 - D i 0%nat u (c + k)) <= A ->
  Rabs (s0 - D i 1%nat u c) <= B -> Rabs (s1 - D i 1%nat u (c + k)) <= B ->
  Rabs (sc d k (Hw (wts d ((y - c) / k)) p0 s0 p1 s1 k) - D i (if d then 1%nat else 0%nat) u y) <= own d k (M i 4%nat) + amp d k A B.
Proof.
  intros Hi Hu Hy P0 P1 S0 S1. assert (Ey : c + (y - c) / k * k = y) by (field; lra).
  pose proof (one_way d (D i 0%nat u) (D i 1%nat u) (D i 2%nat u) (D i 3%nat u) (D i 4%nat u) c k (M i 4%nat) ((y - c) / k) p0 s0 p1 s1 A B Hk) as E.
  rewrite Ey in E. replace (D i (if d then 1%nat else 0%nat) u y) with ((if d then D i 1%nat u else D i 0%nat u) y) by (destruct d; reflexivity).
  apply E; try assumption; [cbn [derivs]; repeat split; intros; apply SD|intros t Ht; apply HM; auto; lia|apply unit_of; auto].
Qed.
Lemma cell_slope_x x y : a <= x <= a + h -> c <= y <= c + k ->
  Rabs (hermx phi psix psiy psixy x y a c h k - D 1%nat 0%nat x y) <= slope_x_bound h k M e0 e1 e2.
Proof.
  intros Hx Hy. rewrite hermx_H2w. unfold H2w, nodals, N_of. cbn [q_phi q_psi q_m0 vx vy vz].
  pose proof (unit_of x a h Hh Hx) as He. assert (Ex : a + (x - a) / h * h = x) by (field; lra).
  destruct N0 as (A0 & A1 & A2 & A3), N1 as (B0 & B1 & B2 & B3), N2 as (C0 & C1 & C2 & C3), N3 as (D0 & D1 & D2 & D3).
  pose proof (one_way true (fun t => D 0%nat 0%nat t y) (fun t => D 1%nat 0%nat t y) (fun t => D 2%nat 0%nat t y) (fun t => D 3%nat 0%nat t y) (fun t => D 4%nat 0%nat t y) a h (M 4%nat 0%nat) ((x - a) / h)
    (Hw (wts false ((y - c) / k)) (q0 phi) (q0 psiy) (q2 phi) (q2 psiy) k) (Hw (wts false ((y - c) / k)) (q0 psix) (q0 psixy) (q2 psix) (q2 psixy) k)
    (Hw (wts false ((y - c) / k)) (q1 phi) (q1 psiy) (q3 phi) (q3 psiy) k) (Hw (wts false ((y - c) / k)) (q1 psix) (q1 psixy) (q3 psix) (q3 psixy) k)
    (k ^ 4 / 384 * M 0%nat 4%nat + (e0 + k / 4 * e1)) (k ^ 4 / 384 * M 1%nat 4%nat + (e1 + k / 4 * e2)) Hh) as E.
  cbn [sc own amp] in E. rewrite Ex in E. unfold slope_x_bound.
  assert (W : forall i u p0 s0 p1 s1 A B, (i <= 1)%nat -> a <= u <= a + h -> Rabs (p0 - D i 0%nat u c) <= A -> Rabs (p1 - D i 0%nat u (c + k)) <= A ->
     Rabs (s0 - D i 1%nat u c) <= B -> Rabs (s1 - D i 1%nat u (c + k)) <= B ->
     Rabs (Hw (wts false ((y - c) / k)) p0 s0 p1 s1 k - D i 0%nat u y) <= k ^ 4 / 384 * M i 4%nat + (A + k / 4 * B)) by (intros; apply (y_line false); assumption).
  eapply Rle_trans; [apply E|]; try assumption; try (apply W; auto; lra); [cbn [derivs]; repeat split; intros; apply SD|intros t Ht; apply HM; auto; lia|right; ring].
Qed.
Lemma cell_slope_y x y : a <= x <= a + h -> c <= y <= c + k ->
  Rabs (hermy phi psix psiy psixy x y a c h k - D 0%nat 1%nat x y) <= slope_y_bound h k M e0 e1 e2.
Proof.
  intros Hx Hy. rewrite hermy_H2w. unfold H2w, nodals, N_of. cbn [q_phi q_psi q_m0 vx vy vz].
  pose proof (unit_of x a h Hh Hx) as He. assert (Ex : a + (x - a) / h * h = x) by (field; lra).
  destruct N0 as (A0 & A1 & A2 & A3), N1 as (B0 & B1 & B2 & B3), N2 as (C0 & C1 & C2 & C3), N3 as (D0 & D1 & D2 & D3).
  assert (W : forall i u p0 s0 p1 s1 A B, (i <= 1)%nat -> a <= u <= a + h -> Rabs (p0 - D i 0%nat u c) <= A -> Rabs (p1 - D i 0%nat u (c + k)) <= A ->
     Rabs (s0 - D i 1%nat u c) <= B -> Rabs (s1 - D i 1%nat u (c + k)) <= B ->
     Rabs (sc true k (Hw (wts true ((y - c) / k)) p0 s0 p1 s1 k) - D i 1%nat u y) <= k ^ 3 / 24 * M i 4%nat + (3 / k * A + B)) by (intros; apply (y_line true); assumption).
  match goal with |- Rabs (Hw ?w ?p ?s ?q ?r ?l * / ?m - _) <= _ => replace (Hw w p s q r l * / m) with (Hw w (sc true k p) (sc true k s) (sc true k q) (sc true k r) l) end.
  2:{ rewrite <- Hw_sc by (apply four_bern). reflexivity. }
  pose proof (one_way false (fun t => D 0%nat 1%nat t y) (fun t => D 1%nat 1%nat t y) (fun t => D 2%nat 1%nat t y) (fun t => D 3%nat 1%nat t y) (fun t => D 4%nat 1%nat t y) a h (M 4%nat 1%nat) ((x - a) / h)
    (sc true k (Hw (wts true ((y - c) / k)) (q0 phi) (q0 psiy) (q2 phi) (q2 psiy) k)) (sc true k (Hw (wts true ((y - c) / k)) (q0 psix) (q0 psixy) (q2 psix) (q2 psixy) k))
    (sc true k (Hw (wts true ((y - c) / k)) (q1 phi) (q1 psiy) (q3 phi) (q3 psiy) k)) (sc true k (Hw (wts true ((y - c) / k)) (q1 psix) (q1 psixy) (q3 psix) (q3 psixy) k))
    (k ^ 3 / 24 * M 0%nat 4%nat + (3 / k * e0 + e1)) (k ^ 3 / 24 * M 1%nat 4%nat + (3 / k * e1 + e2)) Hh) as E.
  cbn [own amp] in E. rewrite Ex in E. unfold sc at 1 in E. unfold slope_y_bound.
  eapply Rle_trans; [apply E|]; try assumption; try (apply W; auto; lra); [cbn [derivs]; repeat split; intros; apply SD|intros t Ht; apply HM; auto; lia|right; ring].
Qed.
End Cell.

(** *** a bounded function of the box is totally differentiable inside it *)
Lemma line_mvt (f f' : R -> R) lo hi u u' B : (forall z, derivable_pt_lim f z (f' z)) -> lo <= u <= hi -> lo <= u' <= hi -> (forall z, lo <= z <= hi -> Rabs (f' z) <= B) ->
  Rabs (f u - f u') <= B * Rabs (u - u').
Proof.
  intros DF Hu Hu' HB. destruct (MVT_gen f u' u f' (fun z _ => proj2 (is_derive_Reals f z (f' z)) (DF z))) as (z & Hz & Eq);
    [intros z _; apply derivable_continuous_pt; exists (f' z); apply DF|].
  rewrite Eq, Rabs_mult. apply Rmult_le_compat_r; [apply Rabs_pos|]. apply HB. unfold Rmin, Rmax in Hz. destruct (Rle_dec u' u); lra.
Qed.
Lemma box_lip2 D M (s : settings R) i j x y x' y' : smooth2 D -> bounded_in_box s D M -> (i <= 3)%nat -> (j <= 3)%nat -> s_xlim1 s <= x <= s_xlim2 s -> s_ylim1 s <= y <= s_ylim2 s ->
  s_xlim1 s <= x' <= s_xlim2 s -> s_ylim1 s <= y' <= s_ylim2 s ->
  Rabs (D i j x y - D i j x' y') <= M (S i) j * Rabs (x - x') + M i (S j) * Rabs (y - y').
Proof.
  intros SD HM Hi Hj Hx Hy Hx' Hy'. replace (D i j x y - D i j x' y') with ((D i j x y - D i j x' y) + (D i j x' y - D i j x' y')) by ring.
  eapply Rle_trans; [apply Rabs_triang|]. apply Rplus_le_compat.
  - apply (line_mvt (fun z => D i j z y) (fun z => D (S i) j z y) (s_xlim1 s) (s_xlim2 s)); auto; [intros; apply SD|intros; apply HM; auto; lia].
  - apply (line_mvt (fun z => D i j x' z) (fun z => D i (S j) x' z) (s_ylim1 s) (s_ylim2 s)); auto; [intros; apply SD|intros; apply HM; auto; lia].
Qed.
Lemma between u x z d : Rmin x u <= z <= Rmax x u -> Rabs (u - x) < d -> Rabs (z - x) < d.
Proof.
  intros Hz Hu. unfold Rabs in *. unfold Rmin, Rmax in Hz. destruct (Rle_dec x u), (Rcase_abs (u - x)), (Rcase_abs (z - x)); lra.
Qed.
Lemma box_total D M (s : settings R) x y : smooth2 D -> bounded_in_box s D M -> s_xlim1 s < x < s_xlim2 s -> s_ylim1 s < y < s_ylim2 s ->
  dlim (D 0%nat 0%nat) x y (D 1%nat 0%nat x y) (D 0%nat 1%nat x y).
Proof.
  intros SD HM Hx Hy eps. pose proof (cond_pos eps) as He.
  assert (P : forall i j, (i <= 4)%nat -> (j <= 4)%nat -> 0 <= M i j).
  { intros i j Hi Hj. eapply Rle_trans; [apply Rabs_pos|apply (HM i j x y)]; auto; lra. }
  pose proof (P 2%nat 0%nat ltac:(lia) ltac:(lia)) as P1. pose proof (P 1%nat 1%nat ltac:(lia) ltac:(lia)) as P2. pose proof (P 0%nat 2%nat ltac:(lia) ltac:(lia)) as P3.
  set (C := M 2%nat 0%nat + M 1%nat 1%nat + M 1%nat 1%nat + M 0%nat 2%nat + 1).
  set (d := Rmin (Rmin (Rmin (x - s_xlim1 s) (s_xlim2 s - x)) (Rmin (y - s_ylim1 s) (s_ylim2 s - y))) (eps / C)).
  assert (HC : 0 < C) by (unfold C; lra). assert (Hq : 0 < eps / C) by (apply Rdiv_lt_0_compat; assumption).
  assert (Hd : 0 < d) by (unfold d; repeat apply Rmin_glb_lt; lra).
  assert (L : d <= x - s_xlim1 s /\ d <= s_xlim2 s - x /\ d <= y - s_ylim1 s /\ d <= s_ylim2 s - y /\ d <= eps / C).
  { unfold d. set (a := x - s_xlim1 s). set (b := s_xlim2 s - x). set (e := y - s_ylim1 s). set (g := s_ylim2 s - y). set (q := eps / C).
    pose proof (Rmin_l (Rmin (Rmin a b) (Rmin e g)) q). pose proof (Rmin_r (Rmin (Rmin a b) (Rmin e g)) q). pose proof (Rmin_l (Rmin a b) (Rmin e g)). pose proof (Rmin_r (Rmin a b) (Rmin e g)).
    pose proof (Rmin_l a b). pose proof (Rmin_r a b). pose proof (Rmin_l e g). pose proof (Rmin_r e g). lra. }
  clearbody d. destruct L as (L1 & L2 & L3 & L4 & L5). exists (mkposreal d Hd). cbn [pos]. intros u v Hu Hv.
  assert (Bu : forall z, Rabs (z - x) < d -> s_xlim1 s <= z <= s_xlim2 s) by (intros z Hz; apply Rabs_def2 in Hz; lra).
  assert (Bv : forall z, Rabs (z - y) < d -> s_ylim1 s <= z <= s_ylim2 s) by (intros z Hz; apply Rabs_def2 in Hz; lra).
  destruct (MVT_gen (fun z => D 0%nat 0%nat z v) x u (fun z => D 1%nat 0%nat z v) (fun z _ => proj2 (is_derive_Reals _ z _) (proj1 (SD 0%nat 0%nat z v)))) as (a & Ha & E1);
    [intros z _; apply derivable_continuous_pt; eexists; apply SD|].
  destruct (MVT_gen (fun z => D 0%nat 0%nat x z) y v (fun z => D 0%nat 1%nat x z) (fun z _ => proj2 (is_derive_Reals _ z _) (proj2 (SD 0%nat 0%nat x z)))) as (b & Hb & E2);
    [intros z _; apply derivable_continuous_pt; eexists; apply SD|].
  cbv beta in E1, E2. pose proof (between _ _ _ _ Ha Hu) as Ha'. pose proof (between _ _ _ _ Hb Hv) as Hb'.
  replace (D 0%nat 0%nat u v - D 0%nat 0%nat x y - (D 1%nat 0%nat x y * (u - x) + D 0%nat 1%nat x y * (v - y)))
    with ((D 1%nat 0%nat a v - D 1%nat 0%nat x y) * (u - x) + (D 0%nat 1%nat x b - D 0%nat 1%nat x y) * (v - y)) by lra.
  pose proof (box_lip2 D M s 1 0 a v x y SD HM ltac:(lia) ltac:(lia) (Bu a Ha') (Bv v Hv) ltac:(lra) ltac:(lra)) as Q1.
  pose proof (box_lip2 D M s 0 1 x b x y SD HM ltac:(lia) ltac:(lia) ltac:(lra) (Bv b Hb') ltac:(lra) ltac:(lra)) as Q2.
  set (m := Rmax (Rabs (u - x)) (Rabs (v - y))). assert (M1 : Rabs (u - x) <= m) by apply Rmax_l. assert (M2 : Rabs (v - y) <= m) by apply Rmax_r.
  eapply Rle_trans; [apply Rabs_triang|]. rewrite !Rabs_mult.
  assert (Q1' : Rabs (D 1%nat 0%nat a v - D 1%nat 0%nat x y) <= (M 2%nat 0%nat + M 1%nat 1%nat) * d).
  { eapply Rle_trans; [exact Q1|]. rewrite Rmult_plus_distr_r. apply Rplus_le_compat; apply Rmult_le_compat_l; lra. }
  assert (Q2' : Rabs (D 0%nat 1%nat x b - D 0%nat 1%nat x y) <= (M 1%nat 1%nat + M 0%nat 2%nat) * d).
  { eapply Rle_trans; [exact Q2|]. rewrite Rmult_plus_distr_r. apply Rplus_le_compat; apply Rmult_le_compat_l; try lra.
    replace (x - x) with 0 by ring. rewrite Rabs_R0. lra. }
  apply Rle_trans with ((M 2%nat 0%nat + M 1%nat 1%nat) * d * m + (M 1%nat 1%nat + M 0%nat 2%nat) * d * m).
  { apply Rplus_le_compat; apply Rmult_le_compat; try apply Rabs_pos; assumption. }
  rewrite <- Rmult_plus_distr_r. apply Rmult_le_compat_r; [eapply Rle_trans; [apply Rabs_pos|exact M1]|].
  apply Rle_trans with (C * d); [rewrite <- Rmult_plus_distr_r; apply Rmult_le_compat_r; unfold C; lra|].
  replace (pos eps) with (C * (eps / C)) by (field; lra). apply Rmult_le_compat_l; lra.
Qed.

(** *** the step *)
Lemma super_split F rk3 x y rx ry t dt Tp : let S a b := SuperConsistentScheme F rk3 x y a b t dt Tp in
  fst (S rx ry) = rx * fst (S 1 0) + ry * fst (S 0 1) /\ snd (S rx ry) = rx * snd (S 1 0) + ry * snd (S 0 1).
Proof. unfold SuperConsistentScheme. destruct rk3; cbn [fst snd]; nr; split; ring. Qed.
Lemma super_map F Tp rk3 x y t dt : true_gradients F Tp -> let S a b := SuperConsistentScheme F rk3 x y a b t dt Tp in
  derivatives_of (fun a b => back_trace F rk3 a b t dt Tp) x y (fst (S 1 0)) (snd (S 1 0)) (fst (S 0 1)) (snd (S 0 1)).
Proof.
  intros HF S. split.
  - apply (super_consistent F Tp rk3 x y t dt (fun u _ => u) 1 0 HF). apply d_fst.
  - apply (super_consistent F Tp rk3 x y t dt (fun _ v => v) 0 1 HF). apply d_snd.
Qed.

Lemma step_slopes whole (F : flow R) s t f m D M e0 e1 e2 : proper s -> s_psischeme s = "SuperConsistent"%string -> true_gradients F (s_Tp s) ->
  smooth2 D -> bounded_in_box s D M ->
  nodes_at (s_nx s) (s_ny s) (node_x s) (node_y s) m -> contains (s_nx s) (s_ny s) f m -> near_samples s D f e0 e1 e2 ->
  let ex := slope_x_bound (s_dx s) (s_dy s) M e0 e1 e2 in let ey := slope_y_bound (s_dx s) (s_dy s) M e0 e1 e2 in
  exists m', step whole F s t m = Ok m' /\
    forall i j, (0 <= i < s_ny s)%Z -> (0 <= j < s_nx s)%Z -> whole = true \/ (i < s_ny s - 1 /\ j < s_nx s - 1)%Z ->
      let trace a b := back_trace F (s_rk3 s) a b t (s_dt s) (s_Tp s) in let p := trace (node_x s j) (node_y s i) in
      inside (s_xlim1 s) (s_xlim2 s) (fst p) -> inside (s_ylim1 s) (s_ylim2 s) (snd p) ->
      exists gx gy vx vy, m' (MPsix, i, j) = Some (ModelRefMem.D gx) /\ m' (MPsiy, i, j) = Some (ModelRefMem.D gy) /\
        differentiable_pt_lim (fun a b => D 0%nat 0%nat (fst (trace a b)) (snd (trace a b))) (node_x s j) (node_y s i) vx vy /\
        exists Xx Xy Yx Yy, derivatives_of trace (node_x s j) (node_y s i) Xx Xy Yx Yy /\
        vx = D 1%nat 0%nat (fst p) (snd p) * Xx + D 0%nat 1%nat (fst p) (snd p) * Yx /\ vy = D 1%nat 0%nat (fst p) (snd p) * Xy + D 0%nat 1%nat (fst p) (snd p) * Yy /\
        Rabs (gx - vx) <= ex * Rabs Xx + ey * Rabs Yx /\ Rabs (gy - vy) <= ex * Rabs Xy + ey * Rabs Yy.
Proof.
  intros Hs Hsc HG SD HM HN Hf Hd ex ey. destruct (step_inside whole F s t f m Hs HN Hf) as (m' & E & H). exists m'. split; [exact E|].
  intros i j Hi Hj Hw trace p Jx Jy.
  destruct (H i j Hi Hj Hw Jx Jy) as (cx & cy & (X1 & X2 & X3 & X4) & (Y1 & Y2 & Y3 & Y4) & _ & V & _). fold p in X3, X4, Y3, Y4, V.
  change (back_trace F (s_rk3 s) (node_x s j) (node_y s i) t (s_dt s) (s_Tp s)) with p in *.
  rewrite clamp_inside in X3, X4, Y3, Y4 by assumption. destruct (V Hsc) as (V1 & V2). clear V H.
  unfold inside in Jx, Jy.
  assert (NX : forall z, node_x s (z + 1) = node_x s z + s_dx s) by (intros; apply even_succ). assert (NY : forall z, node_y s (z + 1) = node_y s z + s_dy s) by (intros; apply even_succ).
  destruct (sorted_x s Hs) as (SX1 & SX2 & SX3). destruct (sorted_y s Hs) as (SY1 & SY2 & SY3). pose proof (dx_pos s Hs) as Dx. pose proof (dy_pos s Hs) as Dy.
  assert (LX : forall z, (0 <= z < s_nx s)%Z -> s_xlim1 s <= node_x s z <= s_xlim2 s).
  { intros z Hz. rewrite <- SX1, <- SX2. split.
    - destruct (Z.eq_dec z 0) as [->|]; [lra|left; apply SX3; lia].
    - destruct (Z.eq_dec z (s_nx s - 1)) as [->|]; [lra|left; apply SX3; lia]. }
  assert (LY : forall z, (0 <= z < s_ny s)%Z -> s_ylim1 s <= node_y s z <= s_ylim2 s).
  { intros z Hz. rewrite <- SY1, <- SY2. split.
    - destruct (Z.eq_dec z 0) as [->|]; [lra|left; apply SY3; lia].
    - destruct (Z.eq_dec z (s_ny s - 1)) as [->|]; [lra|left; apply SY3; lia]. }
  pose proof (LX cx ltac:(lia)) as B1. pose proof (LX (cx + 1)%Z ltac:(lia)) as B2. pose proof (LY cy ltac:(lia)) as B3. pose proof (LY (cy + 1)%Z ltac:(lia)) as B4.
  rewrite NX in X4, B2. rewrite NY in Y4, B4.
  set (rx := hermx _ _ _ _ _ _ _ _ _ _) in V1, V2. set (ry := hermy _ _ _ _ _ _ _ _ _ _) in V1, V2.
  assert (CX : Rabs (rx - D 1%nat 0%nat (fst p) (snd p)) <= ex).
  { unfold rx, ex. apply cell_slope_x; try assumption.
    - intros a b u w Ha Hb Hu Hw'. apply HM; auto; lra.
    - unfold corner_near, quad_at. cbn [q0]. apply Hd; lia.
    - unfold corner_near, quad_at. cbn [q1]. rewrite <- NX. apply Hd; lia.
    - unfold corner_near, quad_at. cbn [q2]. rewrite <- NY. apply Hd; lia.
    - unfold corner_near, quad_at. cbn [q3]. rewrite <- NX, <- NY. apply Hd; lia.
    - lra.
    - lra. }
  assert (CY : Rabs (ry - D 0%nat 1%nat (fst p) (snd p)) <= ey).
  { unfold ry, ey. apply cell_slope_y; try assumption.
    - intros a b u w Ha Hb Hu Hw'. apply HM; auto; lra.
    - unfold corner_near, quad_at. cbn [q0]. apply Hd; lia.
    - unfold corner_near, quad_at. cbn [q1]. rewrite <- NX. apply Hd; lia.
    - unfold corner_near, quad_at. cbn [q2]. rewrite <- NY. apply Hd; lia.
    - unfold corner_near, quad_at. cbn [q3]. rewrite <- NX, <- NY. apply Hd; lia.
    - lra.
    - lra. }
  clearbody rx ry.
  destruct (super_split F (s_rk3 s) (node_x s j) (node_y s i) rx ry t (s_dt s) (s_Tp s)) as (S1 & S2). cbv zeta in S1, S2.
  pose proof (super_map F (s_Tp s) (s_rk3 s) (node_x s j) (node_y s i) t (s_dt s) HG) as SM. cbv zeta in SM. fold trace in SM.
  pose proof (super_consistent F (s_Tp s) (s_rk3 s) (node_x s j) (node_y s i) t (s_dt s) (D 0%nat 0%nat) (D 1%nat 0%nat (fst p) (snd p)) (D 0%nat 1%nat (fst p) (snd p)) HG
    (box_total D M s (fst p) (snd p) SD HM Jx Jy)) as SC. cbv zeta in SC.
  destruct (super_split F (s_rk3 s) (node_x s j) (node_y s i) (D 1%nat 0%nat (fst p) (snd p)) (D 0%nat 1%nat (fst p) (snd p)) t (s_dt s) (s_Tp s)) as (T1 & T2). cbv zeta in T1, T2.
  do 4 eexists. split; [exact V1|]. split; [exact V2|]. split; [exact SC|]. do 4 eexists. split; [exact SM|]. split; [exact T1|]. split; [exact T2|].
  rewrite S1, S2, T1, T2.
  assert (K : forall a b A B c d, Rabs (a - A) <= ex -> Rabs (b - B) <= ey -> Rabs (a * c + b * d - (A * c + B * d)) <= ex * Rabs c + ey * Rabs d).
  { intros a b A B c d Ha Hb. replace (a * c + b * d - (A * c + B * d)) with ((a - A) * c + (b - B) * d) by ring. eapply Rle_trans; [apply Rabs_triang|]. rewrite !Rabs_mult.
    apply Rplus_le_compat; apply Rmult_le_compat_r; try apply Rabs_pos; assumption. }
  split; apply K; assumption.
Qed.
