(** One time step of the reference programs and the solutions of the level set equation. *)
From Coq Require Import ZArith List String Reals Ranalysis5 Lra Lia.
From Coquelicot Require Import Coquelicot.
From Verif Require Import Base Num ModelVec SpecGradient ModelRefMath ModelRefMem ModelRef SpecRef SpecRefRun SpecRefOrder SpecRefStep SpecRefSolve
  ProofsTaylor ProofsRefHermite ProofsRefTrace ProofsRefOrder ProofsRefSmooth ProofsRefSmoothCases ProofsRefScale ProofsRefExact ProofsRefReal ProofsRefFlows ProofsRefStepErr ProofsPicard.
Import ListNotations.
Open Scope R_scope.

Lemma graded_lip V K w : graded3 1 V K w -> smooth3 1 (Rmax V (V * K)) w.
Proof.
  intros (H & wx & wy & ws & D & (Hx & _) & (Hy & _) & (Hs & _)). pose proof (Rmax_l V (V * K)) as M1. pose proof (Rmax_r V (V * K)) as M2.
  split; [intros; eapply Rle_trans; [apply H|exact M1]|]. exists wx, wy, ws. split; [exact D|].
  repeat split; intros; (eapply Rle_trans; [|exact M2]); auto.
Qed.
Lemma one_through F Tp V K lo hi x y : graded_velocity 1 V K F Tp -> lo <= hi -> exists X Y, follows F Tp lo hi X Y /\ X hi = x /\ Y hi = y /\
  (forall s, lo <= s <= hi -> Rabs (X s - x) <= V * (hi - s) /\ Rabs (Y s - y) <= V * (hi - s)) /\
  forall X' Y', follows F Tp lo hi X' Y' -> X' hi = x -> Y' hi = y -> forall s, lo <= s <= hi -> X' s = X s /\ Y' s = Y s.
Proof.
  intros (Gu & Gv) Hlh. set (u := fun x y s => Velx F x y s Tp) in *. set (v := fun x y s => Vely F x y s Tp) in *.
  pose proof (graded_bounded _ _ _ _ Gu) as Vu. pose proof (graded_bounded _ _ _ _ Gv) as Vv.
  pose proof (graded_lip _ _ _ Gu) as Hu. pose proof (graded_lip _ _ _ Gv) as Hv. set (B := Rmax V (V * K)) in *.
  pose proof (smooth_bounded _ _ _ Hu) as Bu. pose proof (smooth_bounded _ _ _ Hv) as Bv.
  assert (Lu : forall p q r x y s, Rabs (u p q r - u x y s) <= B * (Rabs (p - x) + Rabs (q - y) + Rabs (r - s))) by (intros; eapply smooth_lipschitz; exact Hu).
  assert (Lv : forall p q r x y s, Rabs (v p q r - v x y s) <= B * (Rabs (p - x) + Rabs (q - y) + Rabs (r - s))) by (intros; eapply smooth_lipschitz; exact Hv).
  destruct (trajectory u v B hi x y Bu Bv Lu Lv) as (X & Y & EX & EY & D). exists X, Y.
  assert (M : forall (Z z : R -> R), (forall s, derivable_pt_lim Z s (z s)) -> (forall s, Rabs (z s) <= V) -> forall s, lo <= s <= hi -> Rabs (Z s - Z hi) <= V * (hi - s)).
  { intros Z z DZ BZ s Hs. destruct (Req_dec s hi) as [->|N]; [replace (Z hi - Z hi) with 0 by ring; rewrite Rabs_R0; lra|].
    destruct (MVT_cor2 Z z s hi ltac:(lra) ltac:(intros; apply DZ)) as (c & E & _). rewrite Rabs_minus_sym, E, Rabs_mult, (Rabs_pos_eq (hi - s)) by lra.
    apply Rmult_le_compat_r; [lra|apply BZ]. }
  split; [intros s Hs; apply D|]. split; [exact EX|]. split; [exact EY|]. split.
  - intros s Hs. rewrite <- EX, <- EY. split.
    + apply (M X (fun s => u (X s) (Y s) s)); auto; intros; apply D.
    + apply (M Y (fun s => v (X s) (Y s) s)); auto; intros; apply D.
  - intros X' Y' H EX' EY'. apply (one_trajectory u v B hi Bu Lu Lv lo X' Y' X Y); auto; congruence.
Qed.

(** a solution keeps its value along a trajectory *)
Lemma carried F Tp lo hi u X Y : lo <= hi -> solves F Tp lo hi u -> follows F Tp lo hi X Y -> u (X hi) (Y hi) hi = u (X lo) (Y lo) lo.
Proof.
  intros Hlh (ux & uy & us & D & H) HX. destruct (Req_dec lo hi) as [->|N]; [reflexivity|].
  destruct (MVT_cor2 (fun s => u (X s) (Y s) s) (fun _ => 0) lo hi ltac:(lra)) as (c & E & _); [|lra].
  intros s Hs. destruct (HX s Hs) as (D1 & D2). eapply ProofsTaylor.d_eq; [apply (chain3 u ux uy us X Y (fun s => s) s _ _ 1 D D1 D2); apply derivable_pt_lim_id|].
  specialize (H (X s) (Y s) s Hs). lra.
Qed.

Lemma times (t dt : R) : 0 <= dt -> t * dt <= (t + 1) * dt /\ (t + 1) * dt - t * dt = dt.
Proof. intros H. split; [|ring]. lra. Qed.
Lemma less31 V K F Tp : graded_velocity 3 V K F Tp -> graded_velocity 1 V K F Tp.
Proof. intros (Hu & Hv). split; do 2 apply graded_less; assumption. Qed.

Lemma step_solves whole (F : flow R) s t f m D M e0 e1 e2 V K u : proper s -> step_number t -> 0 <= s_dt s -> 0 < K ->
  graded_velocity 3 V K F (s_Tp s) -> smooth2 D -> bounded_in_box s D M ->
  nodes_at (s_nx s) (s_ny s) (node_x s) (node_y s) m -> contains (s_nx s) (s_ny s) f m -> near_samples s D f e0 e1 e2 ->
  let lo := IZR t * s_dt s in let hi := (IZR t + 1) * s_dt s in let E := origin_bound (s_rk3 s) (s_dt s) V K in
  solves F (s_Tp s) lo hi u -> (forall x y, u x y lo = D 0%nat 0%nat x y) ->
  exists m', step whole F s t m = Ok m' /\
    forall i j, (0 <= i < s_ny s)%Z -> (0 <= j < s_nx s)%Z -> whole = true \/ (i < s_ny s - 1 /\ j < s_nx s - 1)%Z ->
      deep s (node_x s j) (node_y s i) (V * s_dt s + E) ->
      exists v, m' (MPhi, i, j) = Some (ModelRefMem.D v) /\
        Rabs (v - u (node_x s j) (node_y s i) hi) <= value_bound (s_dx s) (s_dy s) M e0 e1 e2 + (M 1%nat 0%nat + M 0%nat 1%nat) * E.
Proof.
  intros Hs Ht Hdt HK HB SD HM HN Hf Hd lo hi E HU H0. destruct (step_error_any whole F s t f m D M e0 e1 e2 Hs SD HM HN Hf Hd) as (m' & Em & H).
  exists m'. split; [exact Em|]. intros i j Hi Hj Hw (Ix & Iy). destruct (times (IZR t) (s_dt s) Hdt) as (T1 & T2). fold lo hi in T1, T2.
  destruct (one_through F (s_Tp s) V K lo hi (node_x s j) (node_y s i) (less31 _ _ _ _ HB) T1) as (X & Y & HX & EX & EY & NR & _).
  destruct (NR lo ltac:(lra)) as (N1 & N2). rewrite T2 in N1, N2. apply abs_both in N1. apply abs_both in N2.
  pose proof (origin F (s_Tp s) t (s_dt s) X Y V K (s_rk3 s) HK Ht Hdt HB HX) as (O1 & O2). fold lo hi in O1, O2. rewrite EX, EY in O1, O2. fold E in O1, O2.
  pose proof (carried F (s_Tp s) lo hi u X Y T1 HU HX) as C. rewrite EX, EY, H0 in C. rewrite C. unfold inside in Ix, Iy.
  apply (H i j (X lo) (Y lo) E Hi Hj Hw); try assumption; unfold inside; lra.
Qed.

(** *** the swirling flow in the unit square *)
(** a path that moves at most K times as fast as it is away from a point does not reach the point *)
Lemma repel (D d : R -> R) K lo hi : lo <= hi -> (forall s, lo <= s <= hi -> derivable_pt_lim D s (d s)) -> (forall s, lo <= s <= hi -> Rabs (d s) <= K * Rabs (D s)) ->
  0 < D hi -> D hi * (1 - K * (hi - lo)) <= D lo.
Proof.
  intros Hlh HD Hd P.
  assert (S : forall s, lo <= s <= hi -> D hi * D hi * exp (- 2 * K * hi) <= D s * D s * exp (- 2 * K * s)).
  { intros s Hs. pose proof (rising (fun s => - (D s * D s * exp (- 2 * K * s))) (fun s => - ((2 * (D s * d s) - 2 * K * (D s * D s)) * exp (- 2 * K * s))) s hi ltac:(lra)) as M.
    cbv beta in M. apply Ropp_le_cancel, M.
    - intros r Hr. apply (is_derive_opp (fun s => D s * D s * exp (- 2 * K * s))). evar_last.
      + apply (is_derive_mult (fun s => D s * D s) (fun s => exp (- 2 * K * s))).
        * apply (is_derive_mult D D); [apply is_derive_Reals, HD; lra|apply is_derive_Reals, HD; lra|intros; apply Rmult_comm].
        * auto_derive; [auto|reflexivity].
        * intros; apply Rmult_comm.
      + unfold plus, mult; cbn. ring.
    - intros r Hr. pose proof (exp_pos (- 2 * K * r)) as EP. pose proof (Hd r ltac:(lra)) as B.
      assert (D r * d r <= K * (D r * D r)).
      { eapply Rle_trans; [apply Rle_abs|]. rewrite Rabs_mult. replace (D r * D r) with (Rabs (D r) * Rabs (D r)) by (rewrite <- Rabs_mult; apply Rabs_pos_eq, Rle_0_sqr).
        replace (K * (Rabs (D r) * Rabs (D r))) with (Rabs (D r) * (K * Rabs (D r))) by ring. apply Rmult_le_compat_l; [apply Rabs_pos|exact B]. }
      assert (0 <= (2 * K * (D r * D r) - 2 * (D r * d r)) * exp (- 2 * K * r)) by (apply Rmult_le_pos; lra). lra. }
  assert (Pos : forall s, lo <= s <= hi -> D s <> 0).
  { intros s Hs Z. specialize (S s Hs). rewrite Z in S. assert (0 < D hi * D hi * exp (- 2 * K * hi)) by (apply Rmult_lt_0_compat; [apply Rmult_lt_0_compat; exact P|apply exp_pos]). lra. }
  assert (P0 : 0 < D lo).
  { destruct (Rle_lt_dec (D lo) 0) as [L|L]; [exfalso|exact L]. destruct (Req_dec lo hi) as [E|N]; [rewrite E in L; lra|].
    assert (C : forall z, lo <= z <= hi -> continuity_pt D z) by (intros z Hz; apply derivable_continuous_pt; exists (d z); apply HD; exact Hz).
    destruct (Req_dec (D lo) 0) as [Z|Z]; [apply (Pos lo); [lra|exact Z]|].
    destruct (IVT_interv D lo hi C ltac:(lra) ltac:(lra) P) as (z & Hz & Ez). apply (Pos z Hz Ez). }
  specialize (S lo ltac:(lra)). set (q := exp (- K * (hi - lo))).
  assert (Q : q = exp (- K * (hi - lo)) /\ D hi * q * (D hi * q) <= D lo * D lo).
  { split; [reflexivity|]. unfold q. replace (D hi * exp (- K * (hi - lo)) * (D hi * exp (- K * (hi - lo)))) with (D hi * D hi * (exp (- K * (hi - lo)) * exp (- K * (hi - lo)))) by ring.
    rewrite <- exp_plus. apply (Rmult_le_reg_r (exp (- 2 * K * lo))); [apply exp_pos|]. rewrite Rmult_assoc, <- exp_plus.
    replace (- K * (hi - lo) + - K * (hi - lo) + - 2 * K * lo) with (- 2 * K * hi) by ring. exact S. }
  destruct Q as (_ & Q). assert (Hq : 0 < q) by apply exp_pos.
  assert (L : D hi * q <= D lo).
  { destruct (Rle_lt_dec (D hi * q) (D lo)) as [L|L]; [exact L|exfalso]. assert (D lo * D lo < D hi * q * (D hi * q)) by (apply Rmult_gt_0_lt_compat; lra). lra. }
  eapply Rle_trans; [|exact L]. apply Rmult_le_compat_l; [lra|]. unfold q. pose proof (exp_ineq1_le (- K * (hi - lo))). lra.
Qed.
Lemma sin_slope a : Rabs (sin a) <= Rabs a.
Proof. pose proof (sin_lip a 0) as H. rewrite sin_0, !Rminus_0_r in H. exact H. Qed.
(** the velocity near the walls *)
Lemma vortex_near Tp x y s K : 2 * PI <= K ->
  Rabs (Velx vortex x y s Tp) <= K * Rabs x /\ Rabs (Velx vortex x y s Tp) <= K * Rabs (1 - x) /\
  Rabs (Vely vortex x y s Tp) <= K * Rabs y /\ Rabs (Vely vortex x y s Tp) <= K * Rabs (1 - y).
Proof.
  intros HK. pose proof PI_RGT_0 as HP.
  assert (S : forall z, Rabs (sin (PI * z)) <= K * Rabs z /\ Rabs (sin (PI * z)) <= K * Rabs (1 - z)).
  { intros z. assert (A : forall z, Rabs (sin (PI * z)) <= K * Rabs z).
    { intros w. eapply Rle_trans; [apply sin_slope|]. rewrite Rabs_mult, (Rabs_pos_eq PI) by lra. apply Rmult_le_compat_r; [apply Rabs_pos|lra]. }
    split; [apply A|]. replace (sin (PI * z)) with (sin (PI * (1 - z))); [apply A|]. replace (PI * (1 - z)) with (PI - PI * z) by ring. apply sin_PI_x. }
  assert (T : forall a b c L, Rabs a <= L -> Rabs a <= 1 -> Rabs b <= 1 -> Rabs c <= 1 -> Rabs (a * a * b * c) <= L).
  { intros a b c L Ha H1 Hb Hc. rewrite !Rabs_mult. pose proof (Rabs_pos a). pose proof (Rabs_pos b). pose proof (Rabs_pos c).
    apply Rle_trans with (L * 1 * 1 * 1); [|lra]. assert (0 <= L) by lra.
    repeat apply Rmult_le_compat; try assumption; repeat apply Rmult_le_pos; assumption. }
  cbn [vortex Velx Vely]. unfold sqr. nr.
  split; [apply T; auto using s1, c1; apply S|]. split; [apply T; auto using s1, c1; apply S|].
  replace ((0 - sin (PI * y) * sin (PI * y)) * sin (2 * PI * x) * cos (PI * s / Tp)) with (- (sin (PI * y) * sin (PI * y) * sin (2 * PI * x) * cos (PI * s / Tp))) by ring.
  rewrite Rabs_Ropp. split; apply T; auto using s1, c1; apply S.
Qed.
Lemma d_flip (f f' : R -> R) s : derivable_pt_lim f s (f' s) -> derivable_pt_lim (fun s => 1 - f s) s (- f' s).
Proof. intros H. eapply ProofsTaylor.d_eq; [apply (derivable_pt_lim_minus (fun _ => 1) f); [apply derivable_pt_lim_const|exact H]|]. ring. Qed.
(** trajectories stay in the square *)
Lemma vortex_stays Tp K lo hi X Y h k : 2 * PI <= K -> lo <= hi -> K * (hi - lo) <= 1 -> follows vortex Tp lo hi X Y -> 0 < h -> 0 < k -> h <= X hi <= 1 - h -> k <= Y hi <= 1 - k ->
  h * (1 - K * (hi - lo)) <= X lo <= 1 - h * (1 - K * (hi - lo)) /\ k * (1 - K * (hi - lo)) <= Y lo <= 1 - k * (1 - K * (hi - lo)).
Proof.
  intros HK Hlh HT HX Hh Hk Bx By. set (r := 1 - K * (hi - lo)) in *. assert (Hr : 0 <= r) by (unfold r; lra).
  assert (R1 : forall a, h <= a -> h * r <= a * r) by (intros; apply Rmult_le_compat_r; assumption).
  assert (R2 : forall a, k <= a -> k * r <= a * r) by (intros; apply Rmult_le_compat_r; assumption).
  assert (V : forall s, Rabs (Velx vortex (X s) (Y s) s Tp) <= K * Rabs (X s) /\ Rabs (Velx vortex (X s) (Y s) s Tp) <= K * Rabs (1 - X s) /\
     Rabs (Vely vortex (X s) (Y s) s Tp) <= K * Rabs (Y s) /\ Rabs (Vely vortex (X s) (Y s) s Tp) <= K * Rabs (1 - Y s)) by (intros; apply vortex_near; exact HK).
  pose proof (repel X (fun s => Velx vortex (X s) (Y s) s Tp) K lo hi Hlh (fun s Hs => proj1 (HX s Hs)) (fun s _ => proj1 (V s)) ltac:(lra)) as A1.
  pose proof (repel (fun s => 1 - X s) (fun s => - Velx vortex (X s) (Y s) s Tp) K lo hi Hlh (fun s Hs => d_flip X (fun s => Velx vortex (X s) (Y s) s Tp) s (proj1 (HX s Hs)))
    ltac:(intros s _; cbv beta; rewrite Rabs_Ropp; exact (proj1 (proj2 (V s)))) ltac:(lra)) as A2.
  pose proof (repel Y (fun s => Vely vortex (X s) (Y s) s Tp) K lo hi Hlh (fun s Hs => proj2 (HX s Hs)) (fun s _ => proj1 (proj2 (proj2 (V s)))) ltac:(lra)) as A3.
  pose proof (repel (fun s => 1 - Y s) (fun s => - Vely vortex (X s) (Y s) s Tp) K lo hi Hlh (fun s Hs => d_flip Y (fun s => Vely vortex (X s) (Y s) s Tp) s (proj2 (HX s Hs)))
    ltac:(intros s _; cbv beta; rewrite Rabs_Ropp; exact (proj2 (proj2 (proj2 (V s))))) ltac:(lra)) as A4.
  cbv beta in A2, A4. fold r in A1, A2, A3, A4.
  pose proof (R1 (X hi) ltac:(lra)). pose proof (R1 (1 - X hi) ltac:(lra)). pose proof (R2 (Y hi) ltac:(lra)). pose proof (R2 (1 - Y hi) ltac:(lra)). lra.
Qed.

Lemma step_vortex whole s t f m D M e0 e1 e2 K u : proper s -> unit_square s -> step_number t -> 0 <= s_dt s ->
  2 * PI <= K -> Rabs (PI / s_Tp s) <= K -> smooth2 D -> bounded_in_box s D M ->
  nodes_at (s_nx s) (s_ny s) (node_x s) (node_y s) m -> contains (s_nx s) (s_ny s) f m -> near_samples s D f e0 e1 e2 ->
  let lo := IZR t * s_dt s in let hi := (IZR t + 1) * s_dt s in
  let E := if s_rk3 s then K ^ 3 * s_dt s ^ 4 * (25 + 3 * K * s_dt s) else K * s_dt s ^ 2 * (3 / 2) in
  E < s_dx s * (1 - K * s_dt s) -> E < s_dy s * (1 - K * s_dt s) ->
  solves vortex (s_Tp s) lo hi u -> (forall x y, u x y lo = D 0%nat 0%nat x y) ->
  exists m', step whole vortex s t m = Ok m' /\
    forall i j, (0 <= i < s_ny s)%Z -> (0 <= j < s_nx s)%Z ->
      exists v, m' (MPhi, i, j) = Some (ModelRefMem.D v) /\
        Rabs (v - u (node_x s j) (node_y s i) hi) <= value_bound (s_dx s) (s_dy s) M e0 e1 e2 + (M 1%nat 0%nat + M 0%nat 1%nat) * E.
Proof.
  intros Hs HU Ht Hdt HK HTp SD HM HN Hf Hd lo hi E Ex Ey Hu H0. destruct (step_error_any whole vortex s t f m D M e0 e1 e2 Hs SD HM HN Hf Hd) as (m' & Em & H).
  exists m'. split; [exact Em|]. intros i j Hi Hj. destruct (times (IZR t) (s_dt s) Hdt) as (T1 & T2). fold lo hi in T1, T2.
  pose proof PI_RGT_0 as HP. pose proof (dx_pos s Hs) as Dx. pose proof (dy_pos s Hs) as Dy.
  assert (HE : 0 <= E).
  { unfold E. destruct (s_rk3 s); repeat (apply Rmult_le_pos || apply pow_le); try lra. assert (0 <= K * s_dt s) by (apply Rmult_le_pos; lra). lra. }
  assert (Hc : K * s_dt s <= 1).
  { destruct (Rle_lt_dec (K * s_dt s) 1) as [L|L]; [exact L|exfalso]. assert (0 < s_dx s * (K * s_dt s - 1)) by (apply Rmult_lt_0_compat; lra). lra. }
  destruct (sorted_x s Hs) as (SX1 & SX2 & SX3). destruct (sorted_y s Hs) as (SY1 & SY2 & SY3). pose proof HU as (U1 & U2 & U3 & U4). pose proof Hs as (NN1 & NN2 & _).
  assert (Hw : (i = 0 \/ i = s_ny s - 1 \/ j = 0 \/ j = s_nx s - 1)%Z \/ (0 < i < s_ny s - 1 /\ 0 < j < s_nx s - 1)%Z) by lia. destruct Hw as [Hw|(Wi & Wj)].
  - destruct (step_R whole vortex s t f m NN1 NN2 ltac:(lra) ltac:(lra) HN Hf) as (m2 & Em2 & _ & C & _). assert (m2 = m') by congruence. subst m2.
    destruct C as (_ & _ & _ & _ & C & _). exists (SpecRefRun.f_phi f i j).
    assert (V : m' (MPhi, i, j) = Some (ModelRefMem.D (SpecRefRun.f_phi f i j))).
    { rewrite (C i j Hi Hj). apply (f_equal (fun v => Some (ModelRefMem.D v))). pose proof (new_wall s t f i j Hs HU Hi Hj Hw whole) as NW. cbv zeta in NW. change (fst (fst (new_node whole vortex s (node_x s) (node_y s) t f i j)) = SpecRefRun.f_phi f i j).  rewrite NW. reflexivity. }
    split; [exact V|]. destruct (wall_rests s i j Hs HU Hi Hj Hw) as (Hr & _).
    assert (FL : follows vortex (s_Tp s) lo hi (fun _ => node_x s j) (fun _ => node_y s i)).
    { intros z _. destruct (Hr z) as (-> & ->). split; apply derivable_pt_lim_const. }
    pose proof (carried vortex (s_Tp s) lo hi u _ _ T1 Hu FL) as Cu. cbv beta in Cu. rewrite Cu, H0. destruct (Hd i j Hi Hj) as (N0 & N1 & _ & N2).
    eapply Rle_trans; [exact N0|].
    assert (P1 : 0 <= e1) by (eapply Rle_trans; [apply Rabs_pos|exact N1]). assert (P2 : 0 <= e2) by (eapply Rle_trans; [apply Rabs_pos|exact N2]).
    assert (PM : forall a b, (a <= 4)%nat -> (b <= 4)%nat -> 0 <= M a b).
    { intros a b Ha Hb. eapply Rle_trans; [apply Rabs_pos|apply (HM a b (s_xlim1 s) (s_ylim1 s) Ha Hb); lra]. }
    pose proof (PM 4%nat 0%nat ltac:(lia) ltac:(lia)) as M1. pose proof (PM 0%nat 4%nat ltac:(lia) ltac:(lia)) as M2. pose proof (PM 1%nat 4%nat ltac:(lia) ltac:(lia)) as M3.
    pose proof (PM 1%nat 0%nat ltac:(lia) ltac:(lia)) as M4. pose proof (PM 0%nat 1%nat ltac:(lia) ltac:(lia)) as M5. clear PM. unfold value_bound.
    set (h := s_dx s) in *. set (k := s_dy s) in *. clearbody E.
    assert (0 <= h ^ 4 / 384) by (pose proof (pow_le h 4 ltac:(lra)); lra). assert (0 <= k ^ 4 / 384) by (pose proof (pow_le k 4 ltac:(lra)); lra).
    assert (0 <= h ^ 4 / 384 * M 4%nat 0%nat) by (apply Rmult_le_pos; assumption). assert (0 <= k ^ 4 / 384 * M 0%nat 4%nat) by (apply Rmult_le_pos; assumption).
    assert (0 <= k ^ 4 / 384 * M 1%nat 4%nat) by (apply Rmult_le_pos; assumption). assert (0 <= k / 4 * e1) by (apply Rmult_le_pos; lra). assert (0 <= k / 4 * e2) by (apply Rmult_le_pos; lra).
    assert (0 <= h / 4 * (k ^ 4 / 384 * M 1%nat 4%nat + (e1 + k / 4 * e2))) by (apply Rmult_le_pos; lra). assert (0 <= (M 1%nat 0%nat + M 0%nat 1%nat) * E) by (apply Rmult_le_pos; lra). lra.
  - assert (NX : forall z, node_x s (z + 1) = node_x s z + s_dx s) by (intros; apply even_succ). assert (NY : forall z, node_y s (z + 1) = node_y s z + s_dy s) by (intros; apply even_succ).
    assert (LE : forall n (x : Z -> R) lo hi a b, sorted_nodes n x lo hi -> (0 <= a <= b)%Z -> (b < n)%Z -> x a <= x b).
    { intros n x l h a b (_ & _ & S3) Hab Hb. destruct (Z.eq_dec a b) as [->|]; [lra|left; apply S3; lia]. }
    assert (Bx : s_dx s <= node_x s j <= 1 - s_dx s).
    { split.
      - pose proof (LE (s_nx s) _ _ _ 1%Z j (sorted_x s Hs) ltac:(lia) ltac:(lia)) as A. pose proof (NX 0%Z) as B. cbn [Z.add] in B. rewrite SX1, U1 in B. lra.
      - pose proof (LE (s_nx s) _ _ _ (j + 1)%Z (s_nx s - 1)%Z (sorted_x s Hs) ltac:(lia) ltac:(lia)) as A. rewrite NX, SX2, U2 in A. lra. }
    assert (By : s_dy s <= node_y s i <= 1 - s_dy s).
    { split.
      - pose proof (LE (s_ny s) _ _ _ 1%Z i (sorted_y s Hs) ltac:(lia) ltac:(lia)) as A. pose proof (NY 0%Z) as B. cbn [Z.add] in B. rewrite SY1, U3 in B. lra.
      - pose proof (LE (s_ny s) _ _ _ (i + 1)%Z (s_ny s - 1)%Z (sorted_y s Hs) ltac:(lia) ltac:(lia)) as A. rewrite NY, SY2, U4 in A. lra. }
    destruct (one_through vortex (s_Tp s) 1 K lo hi (node_x s j) (node_y s i) (vortex_graded 1 _ _ HK HTp) T1) as (X & Y & HX & EX & EY & _).
    destruct (vortex_stays (s_Tp s) K lo hi X Y (s_dx s) (s_dy s) HK T1 ltac:(rewrite T2; exact Hc) HX Dx Dy ltac:(rewrite EX; exact Bx) ltac:(rewrite EY; exact By)) as (Lx & Ly).
    rewrite T2 in Lx, Ly.
    pose proof (origin_vortex (s_Tp s) K t (s_dt s) X Y (s_rk3 s) HK HTp Ht Hdt HX) as (O1 & O2). fold lo hi in O1, O2. rewrite EX, EY in O1, O2. fold E in O1, O2.
    pose proof (carried vortex (s_Tp s) lo hi u X Y T1 Hu HX) as C. rewrite EX, EY, H0 in C. rewrite C.
    apply (H i j (X lo) (Y lo) E Hi Hj); try assumption; [right; lia|unfold inside; lra..].
Qed.
