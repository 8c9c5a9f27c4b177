(** The gradient after one time step of the reference programs and the gradient of the solutions of the level set equation. *)
From Coq Require Import ZArith List String Reals Lra Lia.
From Coquelicot Require Import Coquelicot.
From Verif Require Import Base Num ModelVec SpecGradient ModelRefMath ModelRefMem ModelRef SpecRef SpecRefRun SpecRefOrder SpecRefStep SpecRefSolve SpecRefGrad
  ProofsTaylor ProofsRefMath ProofsRefHermite ProofsRefTrace ProofsRefOrder ProofsRefSmooth ProofsRefSmoothCases ProofsRefScale ProofsRefExact ProofsRefReal ProofsRefApi ProofsRefStepErr ProofsRefSolve ProofsRefGrad ProofsRefFlowGrad.
Import ListNotations.
Open Scope R_scope.

Lemma less32 V K F Tp : graded_velocity 3 V K F Tp -> graded_velocity 2 V K F Tp.
Proof. intros (Hu & Hv). split; apply graded_less; assumption. Qed.

Lemma step_gradient_from whole (F : flow R) s t f m D M e0 e1 e2 V K u : proper s -> s_psischeme s = "SuperConsistent"%string -> step_number t -> 0 <= s_dt s -> 0 < K -> V * K * s_dt s <= 1 / 4 ->
  graded_velocity 3 V K F (s_Tp s) -> true_gradients F (s_Tp s) -> smooth2 D -> bounded_in_box s D M ->
  nodes_at (s_nx s) (s_ny s) (node_x s) (node_y s) m -> contains (s_nx s) (s_ny s) f m -> near_samples s D f e0 e1 e2 ->
  let lo := IZR t * s_dt s in let hi := (IZR t + 1) * s_dt s in let E := origin_bound (s_rk3 s) (s_dt s) V K in
  let ex := slope_x_bound (s_dx s) (s_dy s) M e0 e1 e2 in let ey := slope_y_bound (s_dx s) (s_dy s) M e0 e1 e2 in
  solves F (s_Tp s) lo hi u -> (forall x y, u x y lo = D 0%nat 0%nat x y) ->
  exists m', step whole F s t m = Ok m' /\
    forall i j, (0 <= i < s_ny s)%Z -> (0 <= j < s_nx s)%Z -> whole = true \/ (i < s_ny s - 1 /\ j < s_nx s - 1)%Z ->
      (forall X Y, follows F (s_Tp s) lo hi X Y -> X hi = node_x s j -> Y hi = node_y s i -> inside (s_xlim1 s + E) (s_xlim2 s - E) (X lo) /\ inside (s_ylim1 s + E) (s_ylim2 s - E) (Y lo)) ->
      exists gx gy ux uy, m' (MPsix, i, j) = Some (ModelRefMem.D gx) /\ m' (MPsiy, i, j) = Some (ModelRefMem.D gy) /\
        differentiable_pt_lim (fun x y => u x y hi) (node_x s j) (node_y s i) ux uy /\
        Rabs (gx - ux) <= gradient_bound (s_dt s) V K M ex ey E /\ Rabs (gy - uy) <= gradient_bound (s_dt s) V K M ex ey E.
Proof.
  intros Hs Hsc Ht Hdt HK HL HV HG SD HM HN Hf Hd lo hi E ex ey HU H0.
  destruct (step_slopes whole F s t f m D M e0 e1 e2 Hs Hsc HG SD HM HN Hf Hd) as (m' & Em & H).
  exists m'. split; [exact Em|]. intros i j Hi Hj Hw HI. destruct (times (IZR t) (s_dt s) Hdt) as (T1 & T2). fold lo hi in T1, T2.
  set (x := node_x s j) in *. set (y := node_y s i) in *.
  destruct (one_through F (s_Tp s) V K lo hi x y (less31 _ _ _ _ HV) T1) as (X & Y & HX & EX & EY & NR & _).
  destruct (HI X Y HX EX EY) as (Ix & Iy).
  pose proof (origin F (s_Tp s) t (s_dt s) X Y V K (s_rk3 s) HK Ht Hdt HV HX) as (O1 & O2). fold lo hi in O1, O2. rewrite EX, EY in O1, O2. fold E in O1, O2.
  assert (PE : 0 <= E) by (eapply Rle_trans; [apply Rabs_pos|exact O1]).
  assert (PV : 0 <= V) by (eapply Rle_trans; [apply Rabs_pos|exact (graded_bounded _ _ _ _ (proj1 HV) 0 0 0)]).
  pose proof (abs_both _ _ O1) as O1'. pose proof (abs_both _ _ O2) as O2'. unfold inside in Ix, Iy.
  specialize (H i j Hi Hj Hw). cbv beta zeta in H. fold x y in H. set (p := back_trace F (s_rk3 s) x y t (s_dt s) (s_Tp s)) in *.
  destruct H as (gx & gy & vx & vy & G1 & G2 & _ & Xx & Xy & Yx & Yy & DT & E1 & E2 & B1 & B2); [unfold inside; lra|unfold inside; lra|].
  pose proof HU as (ux & uy & us & DU & _). pose proof (diff3_plane _ _ _ _ x y hi DU) as Dhi.
  exists gx, gy, (ux x y hi), (uy x y hi). split; [exact G1|]. split; [exact G2|]. split; [exact Dhi|].
  (* the derivatives of the trace *)
  destruct (super_first F (s_Tp s) V K (s_rk3 s) x y t (s_dt s) (less32 _ _ _ _ HV) HG Ht Hdt HL) as ((c1 & c2 & c3 & c4) & d1 & d2 & d3 & d4). fold hi in c1, c2, c3, c4.
  pose proof (super_map F (s_Tp s) (s_rk3 s) x y t (s_dt s) HG) as (SM1 & SM2). destruct DT as (DT1 & DT2).
  destruct (differentiable_pt_lim_unique _ _ _ _ _ DT1) as (q1 & q2). destruct (differentiable_pt_lim_unique _ _ _ _ _ DT2) as (q3 & q4).
  destruct (differentiable_pt_lim_unique _ _ _ _ _ SM1) as (r1 & r2). destruct (differentiable_pt_lim_unique _ _ _ _ _ SM2) as (r3 & r4).
  assert (F1 : fst (SuperConsistentScheme F (s_rk3 s) x y 1 0 t (s_dt s) (s_Tp s)) = Xx) by congruence. assert (F2 : snd (SuperConsistentScheme F (s_rk3 s) x y 1 0 t (s_dt s) (s_Tp s)) = Xy) by congruence.
  assert (F3 : fst (SuperConsistentScheme F (s_rk3 s) x y 0 1 t (s_dt s) (s_Tp s)) = Yx) by congruence. assert (F4 : snd (SuperConsistentScheme F (s_rk3 s) x y 0 1 t (s_dt s) (s_Tp s)) = Yy) by congruence.
  rewrite F1 in c1, d1. rewrite F2 in c2, d2. rewrite F3 in c3, d3. rewrite F4 in c4, d4. clear q1 q2 q3 q4 r1 r2 r3 r4 F1 F2 F3 F4 SM1 SM2 DT1 DT2.
  set (Q := (V * K ^ 2 * (1 + 2 * V) + 2 * (V * K) ^ 2) * s_dt s ^ 2) in *.
  (* the slopes of the solution *)
  assert (Dlo : differentiable_pt_lim (fun x y => u x y lo) (X lo) (Y lo) (D 1%nat 0%nat (X lo) (Y lo)) (D 0%nat 1%nat (X lo) (Y lo))).
  { apply (ProofsRefTrace.d_ext (D 0%nat 0%nat)); [intros; symmetry; apply H0|]. apply (box_total D M s); auto; lra. }
  assert (A1 : Rabs 1 <= 1) by (rewrite Rabs_R1; lra). assert (A0 : Rabs 0 <= 1) by (rewrite Rabs_R0; lra).
  pose proof (solution_slopes F (s_Tp s) V K lo hi u x y X Y _ _ _ _ 1 0 (less32 _ _ _ _ HV) HG T1 PV ltac:(rewrite T2; exact HL) HU HX EX EY NR Dlo Dhi A1 A0) as SX.
  pose proof (solution_slopes F (s_Tp s) V K lo hi u x y X Y _ _ _ _ 0 1 (less32 _ _ _ _ HV) HG T1 PV ltac:(rewrite T2; exact HL) HU HX EX EY NR Dlo Dhi A0 A1) as SY.
  cbv zeta in SX, SY. rewrite T2 in SX, SY. rewrite !Rmult_1_r, !Rmult_0_r, ?Rplus_0_r, ?Rplus_0_l in SX. rewrite !Rmult_1_r, !Rmult_0_r, ?Rplus_0_r, ?Rplus_0_l in SY.
  set (a := D 1%nat 0%nat (X lo) (Y lo)) in *. set (b := D 0%nat 1%nat (X lo) (Y lo)) in *.
  set (a' := D 1%nat 0%nat (fst p) (snd p)) in *. set (b' := D 0%nat 1%nat (fst p) (snd p)) in *.
  assert (Ha : Rabs a <= M 1%nat 0%nat) by (apply HM; try lia; lra). assert (Hb : Rabs b <= M 0%nat 1%nat) by (apply HM; try lia; lra).
  assert (PM : forall k l, (k <= 4)%nat -> (l <= 4)%nat -> 0 <= M k l) by (intros k l Hk Hl; eapply Rle_trans; [apply Rabs_pos|apply (HM k l (X lo) (Y lo))]; auto; lra).
  pose proof (PM 2%nat 0%nat ltac:(lia) ltac:(lia)) as M20. pose proof (PM 1%nat 1%nat ltac:(lia) ltac:(lia)) as M11. pose proof (PM 0%nat 2%nat ltac:(lia) ltac:(lia)) as M02.
  assert (Aa : Rabs (a' - a) <= (M 2%nat 0%nat + M 1%nat 1%nat) * E).
  { eapply Rle_trans; [apply (box_lip2 D M s 1 0); auto; try lia; lra|]. rewrite Rmult_plus_distr_r. apply Rplus_le_compat; apply Rmult_le_compat_l; try assumption; rewrite Rabs_minus_sym; assumption. }
  assert (Bb : Rabs (b' - b) <= (M 1%nat 1%nat + M 0%nat 2%nat) * E).
  { eapply Rle_trans; [apply (box_lip2 D M s 0 1); auto; try lia; lra|]. rewrite Rmult_plus_distr_r. apply Rplus_le_compat; apply Rmult_le_compat_l; try assumption; rewrite Rabs_minus_sym; assumption. }
  assert (PQ : 0 <= Q) by (eapply Rle_trans; [apply Rabs_pos|exact c1]).
  assert (Pex : 0 <= ex /\ 0 <= ey).
  { destruct (Hd 0%Z 0%Z ltac:(destruct Hs; lia) ltac:(destruct Hs; lia)) as (h0 & h1 & _ & h2). pose proof (dx_pos s Hs) as Dx. pose proof (dy_pos s Hs) as Dy.
    assert (P0 : 0 <= e0) by (eapply Rle_trans; [apply Rabs_pos|exact h0]). assert (P1 : 0 <= e1) by (eapply Rle_trans; [apply Rabs_pos|exact h1]). assert (P2 : 0 <= e2) by (eapply Rle_trans; [apply Rabs_pos|exact h2]).
    pose proof (PM 4%nat 0%nat ltac:(lia) ltac:(lia)). pose proof (PM 0%nat 4%nat ltac:(lia) ltac:(lia)). pose proof (PM 1%nat 4%nat ltac:(lia) ltac:(lia)). pose proof (PM 4%nat 1%nat ltac:(lia) ltac:(lia)).
    assert (I3 : forall h, 0 < h -> 0 <= 3 / h) by (intros h Hh; left; apply Rdiv_lt_0_compat; lra).
    assert (I : forall h n c, 0 < h -> 0 < c -> 0 <= h ^ n / c) by (intros h n c Hh Hc; left; apply Rdiv_lt_0_compat; [apply pow_lt; exact Hh|exact Hc]).
    unfold ex, ey, slope_x_bound, slope_y_bound. pose proof (I3 _ Dx). pose proof (I3 _ Dy).
    assert (0 <= s_dx s / 4) by lra. assert (0 <= s_dy s / 4) by lra.
    split; repeat (assumption || (apply I; lra) || apply Rplus_le_le_0_compat || apply Rmult_le_pos); lra. }
  destruct Pex as (Pex & Pey).
  assert (K1 : forall g v sx ca cb oa ob, Rabs (g - v) <= ex * Rabs ca + ey * Rabs cb -> v = a' * ca + b' * cb -> Rabs ca <= 2 -> Rabs cb <= 2 -> Rabs (ca - oa) <= Q -> Rabs (cb - ob) <= Q ->
     Rabs (sx - (a * oa + b * ob)) <= (Rabs a + Rabs b) * (4 * Q) -> Rabs (g - sx) <= gradient_bound (s_dt s) V K M ex ey E).
  { intros g v sx ca cb oa ob Hg Ev Hca Hcb Hoa Hob Hsx. unfold gradient_bound.
    replace (5 * (M 1%nat 0%nat + M 0%nat 1%nat) * (V * K ^ 2 * (1 + 2 * V) + 2 * (V * K) ^ 2) * s_dt s ^ 2) with (5 * ((M 1%nat 0%nat + M 0%nat 1%nat) * Q)) by (unfold Q; ring).
    clearbody Q a b a' b'.
    assert (Q1 : ex * Rabs ca + ey * Rabs cb <= 2 * (ex + ey)).
    { pose proof (Rmult_le_compat_l ex _ _ Pex Hca). pose proof (Rmult_le_compat_l ey _ _ Pey Hcb). lra. }
    assert (Q2 : Rabs ((a' - a) * ca + (b' - b) * cb) <= 2 * (M 2%nat 0%nat + 2 * M 1%nat 1%nat + M 0%nat 2%nat) * E).
    { eapply Rle_trans; [apply Rabs_triang|]. rewrite !Rabs_mult.
      pose proof (Rmult_le_compat _ _ _ _ (Rabs_pos _) (Rabs_pos _) Aa Hca). pose proof (Rmult_le_compat _ _ _ _ (Rabs_pos _) (Rabs_pos _) Bb Hcb). lra. }
    assert (Q3 : Rabs (a * (ca - oa) + b * (cb - ob)) <= (M 1%nat 0%nat + M 0%nat 1%nat) * Q).
    { eapply Rle_trans; [apply Rabs_triang|]. rewrite !Rabs_mult.
      pose proof (Rmult_le_compat _ _ _ _ (Rabs_pos _) (Rabs_pos _) Ha Hoa). pose proof (Rmult_le_compat _ _ _ _ (Rabs_pos _) (Rabs_pos _) Hb Hob). lra. }
    assert (Q4 : (Rabs a + Rabs b) * (4 * Q) <= 4 * ((M 1%nat 0%nat + M 0%nat 1%nat) * Q)).
    { replace (4 * ((M 1%nat 0%nat + M 0%nat 1%nat) * Q)) with ((M 1%nat 0%nat + M 0%nat 1%nat) * (4 * Q)) by ring. apply Rmult_le_compat_r; lra. }
    replace (g - sx) with ((g - v) + ((a' - a) * ca + (b' - b) * cb) + (a * (ca - oa) + b * (cb - ob)) - (sx - (a * oa + b * ob))) by (rewrite Ev; ring).
    eapply Rle_trans; [apply Rabs_triang|]. rewrite Rabs_Ropp. eapply Rle_trans; [apply Rplus_le_compat_r, Rabs_triang|]. eapply Rle_trans; [apply Rplus_le_compat_r, Rplus_le_compat_r, Rabs_triang|]. lra. }
  assert (QQ : forall z, z * (4 * (V * K ^ 2 * (1 + 2 * V) + 2 * (V * K) ^ 2) * s_dt s ^ 2) = z * (4 * Q)) by (intros; unfold Q; ring).
  rewrite QQ in SX, SY. split.
  - exact (K1 gx vx _ Xx Yx _ _ B1 E1 d1 d3 c1 c3 SX).
  - exact (K1 gy vy _ Xy Yy _ _ B2 E2 d2 d4 c2 c4 SY).
Qed.

Lemma step_gradient whole (F : flow R) s t f m D M e0 e1 e2 V K u : proper s -> s_psischeme s = "SuperConsistent"%string -> step_number t -> 0 <= s_dt s -> 0 < K -> V * K * s_dt s <= 1 / 4 ->
  graded_velocity 3 V K F (s_Tp s) -> true_gradients F (s_Tp s) -> smooth2 D -> bounded_in_box s D M ->
  nodes_at (s_nx s) (s_ny s) (node_x s) (node_y s) m -> contains (s_nx s) (s_ny s) f m -> near_samples s D f e0 e1 e2 ->
  let lo := IZR t * s_dt s in let hi := (IZR t + 1) * s_dt s in let E := origin_bound (s_rk3 s) (s_dt s) V K in
  let ex := slope_x_bound (s_dx s) (s_dy s) M e0 e1 e2 in let ey := slope_y_bound (s_dx s) (s_dy s) M e0 e1 e2 in
  solves F (s_Tp s) lo hi u -> (forall x y, u x y lo = D 0%nat 0%nat x y) ->
  exists m', step whole F s t m = Ok m' /\
    forall i j, (0 <= i < s_ny s)%Z -> (0 <= j < s_nx s)%Z -> whole = true \/ (i < s_ny s - 1 /\ j < s_nx s - 1)%Z ->
      deep s (node_x s j) (node_y s i) (V * s_dt s + E) ->
      exists gx gy ux uy, m' (MPsix, i, j) = Some (ModelRefMem.D gx) /\ m' (MPsiy, i, j) = Some (ModelRefMem.D gy) /\
        differentiable_pt_lim (fun x y => u x y hi) (node_x s j) (node_y s i) ux uy /\
        Rabs (gx - ux) <= gradient_bound (s_dt s) V K M ex ey E /\ Rabs (gy - uy) <= gradient_bound (s_dt s) V K M ex ey E.
Proof.
  intros Hs Hsc Ht Hdt HK HL HV HG SD HM HN Hf Hd lo hi E ex ey HU H0.
  destruct (step_gradient_from whole F s t f m D M e0 e1 e2 V K u Hs Hsc Ht Hdt HK HL HV HG SD HM HN Hf Hd HU H0) as (m' & Em & H). exists m'. split; [exact Em|].
  intros i j Hi Hj Hw (Ix & Iy). apply (H i j Hi Hj Hw). fold lo hi E. clear H. intros X' Y' HX' EX' EY'. destruct (times (IZR t) (s_dt s) Hdt) as (T1 & T2). fold lo hi in T1, T2.
  destruct (one_through F (s_Tp s) V K lo hi (node_x s j) (node_y s i) (less31 _ _ _ _ HV) T1) as (X & Y & HX & EX & EY & NR & U).
  destruct (U X' Y' HX' EX' EY' lo ltac:(lra)) as (-> & ->). destruct (NR lo ltac:(lra)) as (N1 & N2). rewrite T2 in N1, N2. apply abs_both in N1. apply abs_both in N2.
  unfold inside in *. split; lra.
Qed.

(** *** the swirling flow in the unit square *)
Lemma vortex_inner s t K i j : proper s -> unit_square s -> 0 <= s_dt s -> 2 * PI <= K -> (0 < i < s_ny s - 1)%Z -> (0 < j < s_nx s - 1)%Z -> K * s_dt s <= 1 ->
  let lo := IZR t * s_dt s in let hi := (IZR t + 1) * s_dt s in forall E X Y,
  E < s_dx s * (1 - K * s_dt s) -> E < s_dy s * (1 - K * s_dt s) ->
  follows vortex (s_Tp s) lo hi X Y -> X hi = node_x s j -> Y hi = node_y s i -> inside (s_xlim1 s + E) (s_xlim2 s - E) (X lo) /\ inside (s_ylim1 s + E) (s_ylim2 s - E) (Y lo).
Proof.
  intros Hs HU Hdt HK Wi Wj Hc lo hi E X Y Ex Ey HX EX EY. destruct (times (IZR t) (s_dt s) Hdt) as (T1 & T2). fold lo hi in T1, T2.
  pose proof (dx_pos s Hs) as Dx. pose proof (dy_pos s Hs) as Dy.
  destruct (sorted_x s Hs) as (SX1 & SX2 & SX3). destruct (sorted_y s Hs) as (SY1 & SY2 & SY3). pose proof HU as (U1 & U2 & U3 & U4). pose proof Hs as (NN1 & NN2 & _).
  assert (NX : forall z, node_x s (z + 1) = node_x s z + s_dx s) by (intros; apply even_succ). assert (NY : forall z, node_y s (z + 1) = node_y s z + s_dy s) by (intros; apply even_succ).
  assert (LE : forall n (x : Z -> R) lo hi a b, sorted_nodes n x lo hi -> (0 <= a <= b)%Z -> (b < n)%Z -> x a <= x b).
  { intros n x l h a b (_ & _ & S3) Hab Hb. destruct (Z.eq_dec a b) as [->|]; [lra|left; apply S3; lia]. }
  assert (Bx : s_dx s <= node_x s j <= 1 - s_dx s).
  { split.
    - pose proof (LE (s_nx s) _ _ _ 1%Z j (sorted_x s Hs) ltac:(lia) ltac:(lia)) as A. pose proof (NX 0%Z) as B. cbn [Z.add] in B. rewrite SX1, U1 in B. lra.
    - pose proof (LE (s_nx s) _ _ _ (j + 1)%Z (s_nx s - 1)%Z (sorted_x s Hs) ltac:(lia) ltac:(lia)) as A. rewrite NX, SX2, U2 in A. lra. }
  assert (By : s_dy s <= node_y s i <= 1 - s_dy s).
  { split.
    - pose proof (LE (s_ny s) _ _ _ 1%Z i (sorted_y s Hs) ltac:(lia) ltac:(lia)) as A. pose proof (NY 0%Z) as B. cbn [Z.add] in B. rewrite SY1, U3 in B. lra.
    - pose proof (LE (s_ny s) _ _ _ (i + 1)%Z (s_ny s - 1)%Z (sorted_y s Hs) ltac:(lia) ltac:(lia)) as A. rewrite NY, SY2, U4 in A. lra. }
  destruct (vortex_stays (s_Tp s) K lo hi X Y (s_dx s) (s_dy s) HK T1 ltac:(rewrite T2; exact Hc) HX Dx Dy ltac:(rewrite EX; exact Bx) ltac:(rewrite EY; exact By)) as (Lx & Ly).
  rewrite T2 in Lx, Ly. unfold inside. rewrite U1, U2, U3, U4. lra.
Qed.
Lemma step_gradient_vortex whole s t f m D M e0 e1 e2 K u : proper s -> unit_square s -> s_psischeme s = "SuperConsistent"%string -> step_number t -> 0 <= s_dt s ->
  2 * PI <= K -> Rabs (PI / s_Tp s) <= K -> K * s_dt s <= 1 / 4 -> smooth2 D -> bounded_in_box s D M ->
  nodes_at (s_nx s) (s_ny s) (node_x s) (node_y s) m -> contains (s_nx s) (s_ny s) f m -> near_samples s D f e0 e1 e2 ->
  let lo := IZR t * s_dt s in let hi := (IZR t + 1) * s_dt s in
  let E := if s_rk3 s then K ^ 3 * s_dt s ^ 4 * (25 + 3 * K * s_dt s) else K * s_dt s ^ 2 * (3 / 2) in
  let ex := slope_x_bound (s_dx s) (s_dy s) M e0 e1 e2 in let ey := slope_y_bound (s_dx s) (s_dy s) M e0 e1 e2 in
  E < s_dx s * (1 - K * s_dt s) -> E < s_dy s * (1 - K * s_dt s) ->
  solves vortex (s_Tp s) lo hi u -> (forall x y, u x y lo = D 0%nat 0%nat x y) ->
  exists m', step whole vortex s t m = Ok m' /\
    forall i j, (0 < i < s_ny s - 1)%Z -> (0 < j < s_nx s - 1)%Z ->
      exists gx gy ux uy, m' (MPsix, i, j) = Some (ModelRefMem.D gx) /\ m' (MPsiy, i, j) = Some (ModelRefMem.D gy) /\
        differentiable_pt_lim (fun x y => u x y hi) (node_x s j) (node_y s i) ux uy /\
        Rabs (gx - ux) <= gradient_bound (s_dt s) 1 K M ex ey E /\ Rabs (gy - uy) <= gradient_bound (s_dt s) 1 K M ex ey E.
Proof.
  intros Hs HS Hsc Ht Hdt HK HTp HL SD HM HN Hf Hd lo hi E ex ey Ex Ey HU H0. pose proof PI_RGT_0 as HP.
  assert (EE : origin_bound (s_rk3 s) (s_dt s) 1 K = E) by (unfold E, origin_bound; destruct (s_rk3 s); field).
  destruct (step_gradient_from whole vortex s t f m D M e0 e1 e2 1 K u Hs Hsc Ht Hdt ltac:(lra) ltac:(lra) (vortex_graded 3 _ _ HK HTp) (vortex_true _) SD HM HN Hf Hd HU H0) as (m' & Em & H).
  rewrite EE in H. exists m'. split; [exact Em|]. intros i j Hi Hj. apply H; [lia|lia|right; lia|]. intros X Y. apply (vortex_inner s t K i j); auto. lra.
Qed.
