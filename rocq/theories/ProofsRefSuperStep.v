(** The gradient after one time step of the reference programs in double arithmetic. *)
From Coq Require Import ZArith List Bool String Lia Reals Lra.
From Coquelicot Require Import Derive_2d.
From Flocq Require Import Core BinarySingleNaN.
From Verif Require Import Base Num NumB64 ModelVec ModelGrid ModelRefMath ModelRefMem ModelRef SpecGrid SpecGradient SpecB64 SpecRound SpecRef SpecRefRun SpecRefOrder SpecRefStep SpecRefSolve SpecRefGrad SpecRefRound SpecRefTraceRound SpecRefStepRound SpecRefSuperRound
  ProofsBase ProofsGridProps ProofsB64 ProofsB64Ops ProofsRound ProofsRefMath ProofsRefMem ProofsRefRun ProofsRefUpd ProofsRefSearch ProofsRefStep ProofsRefApi ProofsRefReal ProofsRefExact ProofsRefStepErr
  ProofsRefHermite ProofsRefTrace ProofsRefScale ProofsRefSolve ProofsRefGrad ProofsRefFlowGrad ProofsRefGradSolve ProofsRefRound ProofsRefTraceRound ProofsRefTraceRoundCases ProofsRefStepRound ProofsRefSuperRound.
Open Scope R_scope.

Lemma near_gradients G F Tp X V K eps : gradients_near64 G F Tp (V * K) eps -> true_gradients F (real Tp) -> graded_velocity 3 V K F (real Tp) ->
  gradients_track64 G F Tp X (V * K) (V * K * K) (V * K * K) eps.
Proof.
  intros HN HT (Gx & Gy).
  assert (One : forall g f w, graded3 2 (V * K) K w -> (forall x y s, f x y s (real Tp) = w x y s) ->
    (forall a b s : b64, is_finite a = true -> is_finite b = true -> is_finite s = true -> is_finite (g a b s Tp) = true /\ Rabs (real (g a b s Tp) - f (real a) (real b) (real s) (real Tp)) <= eps * (V * K)) ->
    tracks64 g f Tp X (V * K) (V * K * K) (V * K * K) eps).
  { intros g f w Hw E Hg a b s a' b' s' Fa Fb Fs _ _. destruct (Hg a b s Fa Fb Fs) as (F1 & E1). rewrite E in E1. rewrite !E. split; [apply Hw|]. split; [exact F1|].
    pose proof (graded_lipschitz 1 (V * K) K w a' b' s' (real a) (real b) (real s) Hw) as Q. generalize dependent (real (g a b s Tp)). intros z E1.
    replace (z - w a' b' s') with ((z - w (real a) (real b) (real s)) + (w (real a) (real b) (real s) - w a' b' s')) by ring. eapply Rle_trans; [apply Rabs_triang|]. lra. }
  destruct Gx as (_ & ux & uy & us & Du & G1 & G2 & _). destruct Gy as (_ & vx & vy & vs & Dv & G3 & G4 & _).
  assert (EU : forall x y s, gradUx F x y s (real Tp) = ux x y s /\ gradUy F x y s (real Tp) = uy x y s).
  { intros x y s. destruct (HT x y s) as (H1 & _). pose proof (diff3_plane _ _ _ _ x y s Du) as H2. cbv beta in H2.
    destruct (differentiable_pt_lim_unique _ _ _ _ _ H1) as (q1 & q2). destruct (differentiable_pt_lim_unique _ _ _ _ _ H2) as (q3 & q4). split; congruence. }
  assert (EV : forall x y s, gradVx F x y s (real Tp) = vx x y s /\ gradVy F x y s (real Tp) = vy x y s).
  { intros x y s. destruct (HT x y s) as (_ & H1). pose proof (diff3_plane _ _ _ _ x y s Dv) as H2. cbv beta in H2.
    destruct (differentiable_pt_lim_unique _ _ _ _ _ H1) as (q1 & q2). destruct (differentiable_pt_lim_unique _ _ _ _ _ H2) as (q3 & q4). split; congruence. }
  split; [|split; [|split]].
  - apply (One _ _ ux G1); [apply EU|]. intros a b s Fa Fb Fs. apply (HN a b s Fa Fb Fs).
  - apply (One _ _ uy G2); [apply EU|]. intros a b s Fa Fb Fs. apply (HN a b s Fa Fb Fs).
  - apply (One _ _ vx G3); [apply EV|]. intros a b s Fa Fb Fs. apply (HN a b s Fa Fb Fs).
  - apply (One _ _ vy G4); [apply EV|]. intros a b s Fa Fb Fs. apply (HN a b s Fa Fb Fs).
Qed.

(** the scheme in real numbers applied to slopes with errors, taken at a position with an error *)
Lemma gradient_core (F : flow R) (s : settings R) t D M V K u E ex ey x y X Y px py rx ry : step_number t -> 0 <= s_dt s -> 0 < K -> V * K * s_dt s <= 1 / 4 ->
  graded_velocity 3 V K F (s_Tp s) -> true_gradients F (s_Tp s) -> smooth2 D -> bounded_in_box s D M ->
  let lo := IZR t * s_dt s in let hi := (IZR t + 1) * s_dt s in solves F (s_Tp s) lo hi u -> (forall x y, u x y lo = D 0%nat 0%nat x y) ->
  follows F (s_Tp s) lo hi X Y -> X hi = x -> Y hi = y -> (forall s, lo <= s <= hi -> Rabs (X s - x) <= V * (hi - s) /\ Rabs (Y s - y) <= V * (hi - s)) ->
  inside (s_xlim1 s) (s_xlim2 s) (X lo) -> inside (s_ylim1 s) (s_ylim2 s) (Y lo) -> s_xlim1 s <= px <= s_xlim2 s -> s_ylim1 s <= py <= s_ylim2 s ->
  Rabs (px - X lo) <= E -> Rabs (py - Y lo) <= E -> Rabs (rx - D 1%nat 0%nat px py) <= ex -> Rabs (ry - D 0%nat 1%nat px py) <= ey ->
  let S := SuperConsistentScheme F (s_rk3 s) x y rx ry t (s_dt s) (s_Tp s) in
  exists ux uy, differentiable_pt_lim (fun x y => u x y hi) x y ux uy /\
    Rabs (fst S - ux) <= gradient_bound (s_dt s) V K M ex ey E /\ Rabs (snd S - uy) <= gradient_bound (s_dt s) V K M ex ey E.
Proof.
  intros Ht Hdt HK HL HV HG SD HM lo hi HU H0 HX EX EY NR Ix Iy Jx Jy Ox Oy Rx Ry S. destruct (times (IZR t) (s_dt s) Hdt) as (T1 & T2). fold lo hi in T1, T2.
  assert (PE : 0 <= E) by (eapply Rle_trans; [apply Rabs_pos|exact Ox]). assert (Pex : 0 <= ex) by (eapply Rle_trans; [apply Rabs_pos|exact Rx]). assert (Pey : 0 <= ey) by (eapply Rle_trans; [apply Rabs_pos|exact Ry]).
  assert (PV : 0 <= V) by (eapply Rle_trans; [apply Rabs_pos|exact (graded_bounded _ _ _ _ (proj1 HV) 0 0 0)]). unfold inside in Ix, Iy.
  pose proof HU as (ux & uy & us & DU & _). pose proof (diff3_plane _ _ _ _ x y hi DU) as Dhi.
  exists (ux x y hi), (uy x y hi). split; [exact Dhi|].
  destruct (super_first F (s_Tp s) V K (s_rk3 s) x y t (s_dt s) (less32 _ _ _ _ HV) HG Ht Hdt HL) as ((c1 & c2 & c3 & c4) & d1 & d2 & d3 & d4). fold hi in c1, c2, c3, c4.
  destruct (super_split F (s_rk3 s) x y rx ry t (s_dt s) (s_Tp s)) as (S1 & S2). cbv zeta in S1, S2. fold S in S1, S2.
  set (Xx := fst (SuperConsistentScheme F (s_rk3 s) x y 1 0 t (s_dt s) (s_Tp s))) in *. set (Xy := snd (SuperConsistentScheme F (s_rk3 s) x y 1 0 t (s_dt s) (s_Tp s))) in *.
  set (Yx := fst (SuperConsistentScheme F (s_rk3 s) x y 0 1 t (s_dt s) (s_Tp s))) in *. set (Yy := snd (SuperConsistentScheme F (s_rk3 s) x y 0 1 t (s_dt s) (s_Tp s))) in *.
  set (Q := (V * K ^ 2 * (1 + 2 * V) + 2 * (V * K) ^ 2) * s_dt s ^ 2) in *.
  assert (Dlo : differentiable_pt_lim (fun x y => u x y lo) (X lo) (Y lo) (D 1%nat 0%nat (X lo) (Y lo)) (D 0%nat 1%nat (X lo) (Y lo))).
  { apply (ProofsRefTrace.d_ext (D 0%nat 0%nat)); [intros; symmetry; apply H0|]. apply (box_total D M s); auto; lra. }
  assert (A1 : Rabs 1 <= 1) by (rewrite Rabs_R1; lra). assert (A0 : Rabs 0 <= 1) by (rewrite Rabs_R0; lra).
  pose proof (solution_slopes F (s_Tp s) V K lo hi u x y X Y _ _ _ _ 1 0 (less32 _ _ _ _ HV) HG T1 PV ltac:(rewrite T2; exact HL) HU HX EX EY NR Dlo Dhi A1 A0) as SX.
  pose proof (solution_slopes F (s_Tp s) V K lo hi u x y X Y _ _ _ _ 0 1 (less32 _ _ _ _ HV) HG T1 PV ltac:(rewrite T2; exact HL) HU HX EX EY NR Dlo Dhi A0 A1) as SY.
  cbv zeta in SX, SY. rewrite T2 in SX, SY. rewrite !Rmult_1_r, !Rmult_0_r, ?Rplus_0_r, ?Rplus_0_l in SX. rewrite !Rmult_1_r, !Rmult_0_r, ?Rplus_0_r, ?Rplus_0_l in SY.
  set (a := D 1%nat 0%nat (X lo) (Y lo)) in *. set (b := D 0%nat 1%nat (X lo) (Y lo)) in *.
  set (a' := D 1%nat 0%nat px py) in *. set (b' := D 0%nat 1%nat px py) in *.
  assert (Ha : Rabs a <= M 1%nat 0%nat) by (apply HM; try lia; lra). assert (Hb : Rabs b <= M 0%nat 1%nat) by (apply HM; try lia; lra).
  assert (PM : forall k l, (k <= 4)%nat -> (l <= 4)%nat -> 0 <= M k l) by (intros k l Hk Hl; eapply Rle_trans; [apply Rabs_pos|apply (HM k l (X lo) (Y lo))]; auto; lra).
  pose proof (PM 2%nat 0%nat ltac:(lia) ltac:(lia)) as M20. pose proof (PM 1%nat 1%nat ltac:(lia) ltac:(lia)) as M11. pose proof (PM 0%nat 2%nat ltac:(lia) ltac:(lia)) as M02.
  assert (Aa : Rabs (a' - a) <= (M 2%nat 0%nat + M 1%nat 1%nat) * E).
  { eapply Rle_trans; [apply (box_lip2 D M s 1 0); auto; try lia; lra|]. rewrite Rmult_plus_distr_r. apply Rplus_le_compat; apply Rmult_le_compat_l; try assumption. }
  assert (Bb : Rabs (b' - b) <= (M 1%nat 1%nat + M 0%nat 2%nat) * E).
  { eapply Rle_trans; [apply (box_lip2 D M s 0 1); auto; try lia; lra|]. rewrite Rmult_plus_distr_r. apply Rplus_le_compat; apply Rmult_le_compat_l; try assumption. }
  assert (PQ : 0 <= Q) by (eapply Rle_trans; [apply Rabs_pos|exact c1]).
  assert (K1 : forall g sx ca cb oa ob, g = rx * ca + ry * cb -> Rabs ca <= 2 -> Rabs cb <= 2 -> Rabs (ca - oa) <= Q -> Rabs (cb - ob) <= Q ->
     Rabs (sx - (a * oa + b * ob)) <= (Rabs a + Rabs b) * (4 * Q) -> Rabs (g - sx) <= gradient_bound (s_dt s) V K M ex ey E).
  { intros g sx ca cb oa ob Eg Hca Hcb Hoa Hob Hsx. unfold gradient_bound.
    replace (5 * (M 1%nat 0%nat + M 0%nat 1%nat) * (V * K ^ 2 * (1 + 2 * V) + 2 * (V * K) ^ 2) * s_dt s ^ 2) with (5 * ((M 1%nat 0%nat + M 0%nat 1%nat) * Q)) by (unfold Q; ring).
    clearbody Q a b a' b'.
    assert (Q1 : Rabs ((rx - a') * ca + (ry - b') * cb) <= 2 * (ex + ey)).
    { eapply Rle_trans; [apply Rabs_triang|]. rewrite !Rabs_mult.
      pose proof (Rmult_le_compat _ _ _ _ (Rabs_pos _) (Rabs_pos _) Rx Hca). pose proof (Rmult_le_compat _ _ _ _ (Rabs_pos _) (Rabs_pos _) Ry Hcb). lra. }
    assert (Q2 : Rabs ((a' - a) * ca + (b' - b) * cb) <= 2 * (M 2%nat 0%nat + 2 * M 1%nat 1%nat + M 0%nat 2%nat) * E).
    { eapply Rle_trans; [apply Rabs_triang|]. rewrite !Rabs_mult.
      pose proof (Rmult_le_compat _ _ _ _ (Rabs_pos _) (Rabs_pos _) Aa Hca). pose proof (Rmult_le_compat _ _ _ _ (Rabs_pos _) (Rabs_pos _) Bb Hcb). lra. }
    assert (Q3 : Rabs (a * (ca - oa) + b * (cb - ob)) <= (M 1%nat 0%nat + M 0%nat 1%nat) * Q).
    { eapply Rle_trans; [apply Rabs_triang|]. rewrite !Rabs_mult.
      pose proof (Rmult_le_compat _ _ _ _ (Rabs_pos _) (Rabs_pos _) Ha Hoa). pose proof (Rmult_le_compat _ _ _ _ (Rabs_pos _) (Rabs_pos _) Hb Hob). lra. }
    assert (Q4 : (Rabs a + Rabs b) * (4 * Q) <= 4 * ((M 1%nat 0%nat + M 0%nat 1%nat) * Q)).
    { replace (4 * ((M 1%nat 0%nat + M 0%nat 1%nat) * Q)) with ((M 1%nat 0%nat + M 0%nat 1%nat) * (4 * Q)) by ring. apply Rmult_le_compat_r; lra. }
    replace (g - sx) with (((rx - a') * ca + (ry - b') * cb) + ((a' - a) * ca + (b' - b) * cb) + (a * (ca - oa) + b * (cb - ob)) - (sx - (a * oa + b * ob))) by (rewrite Eg; ring).
    eapply Rle_trans; [apply Rabs_triang|]. rewrite Rabs_Ropp. eapply Rle_trans; [apply Rplus_le_compat_r, Rabs_triang|]. eapply Rle_trans; [apply Rplus_le_compat_r, Rplus_le_compat_r, Rabs_triang|]. lra. }
  assert (QQ : forall z, z * (4 * (V * K ^ 2 * (1 + 2 * V) + 2 * (V * K) ^ 2) * s_dt s ^ 2) = z * (4 * Q)) by (intros; unfold Q; ring).
  rewrite QQ in SX, SY. split.
  - exact (K1 _ _ Xx Yx _ _ S1 d1 d3 c1 c3 SX).
  - exact (K1 _ _ Xy Yy _ _ S2 d2 d4 c2 c4 SY).
Qed.

(** *** a node whose position is strictly inside the box: the new gradient *)
Section Step.
Variables (whole : bool) (G : flow b64) (s : settings b64).
Notation r := (real_settings s).
Hypothesis Hs : proper r.
Hypothesis HE : exact_grid s.
Let nx := s_nx s.
Let ny := s_ny s.
Lemma node_slopes64 t f i j : s_psischeme s = "SuperConsistent"%string -> whole = true \/ (i < ny - 1 /\ j < nx - 1)%Z -> let p := back_trace G (s_rk3 s) (node_x s j) (node_y s i) t (s_dt s) (s_Tp s) in
  is_finite (fst p) = true -> is_finite (snd p) = true -> inside (s_xlim1 r) (s_xlim2 r) (real (fst p)) -> inside (s_ylim1 r) (s_ylim2 r) (real (snd p)) ->
  exists cx cy, (0 <= cx < nx - 1)%Z /\ (0 <= cy < ny - 1)%Z /\ node_x r cx < real (fst p) <= node_x r (cx + 1) /\ node_y r cy < real (snd p) <= node_y r (cy + 1) /\
    let nd := next whole G s (node_x s) (node_y s) t f in let h := (node_x s 2 - node_x s 1)%num in let k := (node_y s 2 - node_y s 1)%num in
    let a := quad_at (SpecRefRun.f_phi f) cy cx in let ax := quad_at (f_x f) cy cx in let ay := quad_at (f_y f) cy cx in let axy := quad_at (f_xy f) cy cx in
    let S := SuperConsistentScheme G (s_rk3 s) (node_x s j) (node_y s i) (hermx a ax ay axy (fst p) (snd p) (node_x s cx) (node_y s cy) h k)
      (hermy a ax ay axy (fst p) (snd p) (node_x s cx) (node_y s cy) h k) t (s_dt s) (s_Tp s) in
    f_x nd i j = fst S /\ f_y nd i j = snd S.
Proof.
  intros Hsc Hw p F1 F2 (X1 & X2) (Y1 & Y2). pose proof Hs as (N1 & N2 & _). cbn [real_settings s_nx s_ny] in N1, N2. destruct HE as (EX & EY).
  pose proof (sorted_x r Hs) as SX. pose proof (sorted_y r Hs) as SY. cbn [real_settings s_xlim1 s_xlim2 s_ylim1 s_ylim2] in X1, X2, Y1, Y2.
  pose proof EX as (FX1 & FX2 & _). pose proof EY as (FY1 & FY2 & _).
  pose proof (ltb_lt _ _ FX1 F1 X1) as A1. pose proof (ltb_lt _ _ F1 FX2 X2) as A2. pose proof (ltb_lt _ _ FY1 F2 Y1) as B1. pose proof (ltb_lt _ _ F2 FY2 Y2) as B2.
  destruct (locate64 _ _ _ _ _ _ _ _ EX ltac:(lia) SX A1 A2) as (C1 & C2). destruct (locate64 _ _ _ _ _ _ _ _ EY ltac:(lia) SY B1 B2) as (D1 & D2).
  exists (locate (map (node_x s) (range 0 (s_nx s))) (fst p)), (locate (map (node_y s) (range 0 (s_ny s))) (snd p)).
  split; [exact C1|]. split; [exact D1|]. split; [exact C2|]. split; [exact D2|].
  cbv zeta. unfold next. cbn [f_x f_y]. unfold new_node, where_.
  assert (Ef : foot whole G s (node_x s) (node_y s) t i j = p).
  { unfold foot. replace (whole || ((i <? s_ny s - 1) && (j <? s_nx s - 1)))%bool with true; [reflexivity|]. unfold nx, ny in Hw. destruct whole; cbn; [reflexivity|]. destruct Hw; [discriminate|lia]. }
  rewrite Ef. unfold found. change (s_xlim1 s <? fst p)%num with (Bltb (s_xlim1 s) (fst p)). change (fst p <? s_xlim2 s)%num with (Bltb (fst p) (s_xlim2 s)).
  change (s_ylim1 s <? snd p)%num with (Bltb (s_ylim1 s) (snd p)). change (snd p <? s_ylim2 s)%num with (Bltb (snd p) (s_ylim2 s)).
  rewrite A1, A2, B1, B2. cbn [andb fst snd updated]. rewrite Hsc. cbn [String.eqb Ascii.eqb Bool.eqb]. split; reflexivity.
Qed.
End Step.

Theorem step_gradient64 : forall whole (G : flow b64) (F : flow R) s t f m D M e0 e1 e2 Mr Sg eps X V K Ts u, let r := real_settings s in
  proper r -> exact_grid s -> s_psischeme s = "SuperConsistent"%string -> box_within s X -> nodes_at (s_nx s) (s_ny s) (node_x s) (node_y s) m -> contains (s_nx s) (s_ny s) f m -> field_size s f Mr ->
  smooth2 D -> bounded_in_box r D M -> near_samples r D (real_fields f) e0 e1 e2 ->
  bpow radix2 (-53) <= eps <= / 4096 -> moderate X -> moderate V -> moderate Ts -> is_finite (s_dt s) = true -> moderate (real (s_dt s)) ->
  V * real (s_dt s) <= X -> step_number t -> (IZR t + 1) * real (s_dt s) <= Ts -> 0 < K -> K * X <= 8 -> K * Ts <= 8 -> moderate (V * K) -> V * K * real (s_dt s) <= 1 / 4 ->
  flow_near64 G F (s_Tp s) V eps -> gradients_near64 G F (s_Tp s) (V * K) eps -> graded_velocity 3 V K F (s_Tp r) -> true_gradients F (s_Tp r) ->
  let lo := IZR t * s_dt r in let hi := (IZR t + 1) * s_dt r in let E := origin_bound (s_rk3 s) (s_dt r) V K + trace_factor (s_rk3 s) 8 * eps * X in
  let ex := slope_x_bound (s_dx r) (s_dy r) M e0 e1 e2 + bpow radix2 (-33) * (Mr / s_dx r) in let ey := slope_y_bound (s_dx r) (s_dy r) M e0 e1 e2 + bpow radix2 (-33) * (Mr / s_dy r) in
  moderate Sg -> M 1%nat 0%nat + ex <= Sg -> M 0%nat 1%nat + ey <= Sg -> solves F (s_Tp r) lo hi u -> (forall x y, u x y lo = D 0%nat 0%nat x y) ->
  exists m', step whole G s t m = Ok m' /\
    forall i j P Q, (0 <= i < s_ny s)%Z -> (0 <= j < s_nx s)%Z -> whole = true \/ (i < s_ny s - 1 /\ j < s_nx s - 1)%Z ->
      follows F (s_Tp r) lo hi P Q -> P hi = node_x r j -> Q hi = node_y r i ->
      inside (s_xlim1 r + E) (s_xlim2 r - E) (P lo) -> inside (s_ylim1 r + E) (s_ylim2 r - E) (Q lo) ->
      exists gx gy ux uy, m' (MPsix, i, j) = Some (ModelRefMem.D gx) /\ m' (MPsiy, i, j) = Some (ModelRefMem.D gy) /\ is_finite gx = true /\ is_finite gy = true /\
        differentiable_pt_lim (fun x y => u x y hi) (node_x r j) (node_y r i) ux uy /\
        let B := gradient_bound (s_dt r) V K M ex ey E + super_factor (s_rk3 s) * eps * Sg in Rabs (real gx - ux) <= B /\ Rabs (real gy - uy) <= B.
Proof.
  intros whole G F s t f m D M e0 e1 e2 Mr Sg eps X V K Ts u r Hs HE Hsc HB HN Hf HZ SD HM Hd He HX HV HT Fdt Hdt CFL Ht HTs HK HKX HKT HVK HL Near NearG Grd TG lo hi E ex ey HSg S10 S01 HU H0.
  destruct (step64 whole G s Hs HE t f m HN Hf) as (m' & Es & _ & Hf'). exists m'. split; [exact Es|].
  intros i j P Q Hi Hj Hw HF HP HQ IX IY. pose proof HE as (EX & EY). pose proof EX as (_ & _ & NX & FdX & EdX & MdX). pose proof EY as (_ & _ & NY & FdY & EdY & MdY).
  fold r in NX, NY, EdX, EdY, MdX, MdY.
  destruct (NX j Hj) as (Fx & Ex). destruct (NY i Hi) as (Fy & Ey).
  destruct (sorted_x r Hs) as (SX1 & SX2 & SX3). destruct (sorted_y r Hs) as (SY1 & SY2 & SY3). cbn [real_settings s_nx s_ny r] in SX2, SX3, SY2, SY3.
  assert (LX : forall z, (0 <= z < s_nx s)%Z -> s_xlim1 r <= node_x r z <= s_xlim2 r).
  { intros z Hz. rewrite <- SX1, <- SX2. split.
    - destruct (Z.eq_dec z 0) as [->|]; [lra|left; apply SX3; lia].
    - destruct (Z.eq_dec z (s_nx s - 1)) as [->|]; [lra|left; apply SX3; lia]. }
  assert (LY : forall z, (0 <= z < s_ny s)%Z -> s_ylim1 r <= node_y r z <= s_ylim2 r).
  { intros z Hz. rewrite <- SY1, <- SY2. split.
    - destruct (Z.eq_dec z 0) as [->|]; [lra|left; apply SY3; lia].
    - destruct (Z.eq_dec z (s_ny s - 1)) as [->|]; [lra|left; apply SY3; lia]. }
  destruct HB as (B1 & B2 & B3 & B4). change (real (s_xlim1 s)) with (s_xlim1 r) in B1. change (real (s_xlim2 s)) with (s_xlim2 r) in B2.
  change (real (s_ylim1 s)) with (s_ylim1 r) in B3. change (real (s_ylim2 s)) with (s_ylim2 r) in B4.
  pose proof (LX j Hj) as LXj. pose proof (LY i Hi) as LYi.
  assert (Ax : Rabs (real (node_x s j)) <= X) by (rewrite Ex; apply Rabs_le; lra). assert (Ay : Rabs (real (node_y s i)) <= X) by (rewrite Ey; apply Rabs_le; lra).
  pose proof (origin64 G F (s_rk3 s) (node_x s j) (node_y s i) (s_dt s) (s_Tp s) t eps X V K Ts 8 P Q He HX HV HT Fdt Hdt Fx Fy Ax Ay CFL Ht HTs HK ltac:(lra) HKX HKT Near Grd) as OR. cbv zeta in OR.
  change (real (s_dt s)) with (s_dt r) in OR. change (real (s_Tp s)) with (s_Tp r) in OR. fold lo hi in OR. specialize (OR HF). rewrite Ex, Ey in OR. specialize (OR HP HQ). fold E in OR.
  set (p := back_trace G (s_rk3 s) (node_x s j) (node_y s i) t (s_dt s) (s_Tp s)) in *. destruct OR as ((F1 & F2) & P1 & P2).
  unfold inside in IX, IY. pose proof (abs_both _ _ P1) as P1'. pose proof (abs_both _ _ P2) as P2'.
  assert (E0 : 0 <= E) by (eapply Rle_trans; [apply Rabs_pos|exact P1]).
  destruct (node_slopes64 whole G s Hs HE t f i j Hsc Hw F1 F2) as (cx & cy & Cx & Cy & CX & CY & EV).
  { unfold inside. fold p r. lra. } { unfold inside. fold p r. lra. } cbv zeta in EV. fold p r in CX, CY, EV. destruct EV as (EV1 & EV2).
  assert (SX : forall z, node_x r (z + 1) = node_x r z + s_dx r) by (intros; apply even_succ). assert (SY : forall z, node_y r (z + 1) = node_y r z + s_dy r) by (intros; apply even_succ).
  pose proof (dx_pos r Hs) as Dx. pose proof (dy_pos r Hs) as Dy.
  pose proof (LX cx ltac:(lia)) as K1. pose proof (LX (cx + 1)%Z ltac:(lia)) as K2. pose proof (LY cy ltac:(lia)) as K3. pose proof (LY (cy + 1)%Z ltac:(lia)) as K4.
  rewrite SX in CX, K2. rewrite SY in CY, K4.
  destruct (NX cx ltac:(lia)) as (Fcx & Ecx). destruct (NY cy ltac:(lia)) as (Fcy & Ecy).
  assert (RX : within_reach (fst p) (node_x s cx) (node_x s 2 - node_x s 1)%num).
  { split; [exact F1|]. split; [exact Fcx|]. split; [exact FdX|]. rewrite EdX, Ecx. split; [exact MdX|]. apply Rabs_le. lra. }
  assert (RY : within_reach (snd p) (node_y s cy) (node_y s 2 - node_y s 1)%num).
  { split; [exact F2|]. split; [exact Fcy|]. split; [exact FdY|]. rewrite EdY, Ecy. split; [exact MdY|]. apply Rabs_le. lra. }
  destruct HZ as (MM & HZ). fold r in HZ.
  assert (CS : forall g w, (forall i j, (0 <= i < s_ny s)%Z -> (0 <= j < s_nx s)%Z -> is_finite (g i j) = true /\ Rabs (real (g i j)) * w <= Mr) -> corner_size w Mr (quad_at g cy cx)).
  { intros g w Hg z Hz. unfold quad_at in Hz. cbn [ModelRefMath.q0 ModelRefMath.q1 ModelRefMath.q2 ModelRefMath.q3] in Hz. destruct Hz as [->|[->|[->| ->]]]; apply Hg; lia. }
  assert (SZ : cell_size (quad_at (SpecRefRun.f_phi f) cy cx) (quad_at (f_x f) cy cx) (quad_at (f_y f) cy cx) (quad_at (f_xy f) cy cx)
    (real (node_x s 2 - node_x s 1)%num) (real (node_y s 2 - node_y s 1)%num) Mr).
  { rewrite EdX, EdY. split; [exact MM|]. split; [apply CS; intros a b Ha Hb; destruct (HZ a b Ha Hb) as (Z1 & Z2 & Z3 & Z4 & Z5 & Z6 & Z7 & Z8); split; [exact Z1|lra]|].
    split; [apply CS; intros a b Ha Hb; destruct (HZ a b Ha Hb) as (Z1 & Z2 & Z3 & Z4 & Z5 & Z6 & Z7 & Z8); split; assumption|].
    split; apply CS; intros a b Ha Hb; destruct (HZ a b Ha Hb) as (Z1 & Z2 & Z3 & Z4 & Z5 & Z6 & Z7 & Z8); split; assumption. }
  destruct (hermx64 _ _ _ _ _ _ _ _ _ _ _ RX RY SZ) as (FRx & ARx). destruct (hermy64 _ _ _ _ _ _ _ _ _ _ _ RX RY SZ) as (FRy & ARy). rewrite EdX, EdY, Ecx, Ecy in ARx, ARy.
  set (rx := hermx (quad_at _ cy cx) _ _ _ (fst p) (snd p) _ _ _ _) in *. set (ry := hermy (quad_at _ cy cx) _ _ _ (fst p) (snd p) _ _ _ _) in *.
  set (wx := hermx (qreals _) _ _ _ _ _ _ _ _ _) in ARx. set (wy := hermy (qreals _) _ _ _ _ _ _ _ _ _) in ARy.
  assert (CVx : Rabs (wx - D 1%nat 0%nat (real (fst p)) (real (snd p))) <= slope_x_bound (s_dx r) (s_dy r) M e0 e1 e2).
  { unfold wx. apply cell_slope_x; try assumption.
    - intros a b u' z Ha Hb Hu Hz. apply HM; auto; lra.
    - apply (Hd cy cx); cbn [real_settings s_nx s_ny r]; lia.
    - rewrite <- SX. apply (Hd cy (cx + 1)%Z); cbn [real_settings s_nx s_ny r]; lia.
    - rewrite <- SY. apply (Hd (cy + 1)%Z cx); cbn [real_settings s_nx s_ny r]; lia.
    - rewrite <- SX, <- SY. apply (Hd (cy + 1)%Z (cx + 1)%Z); cbn [real_settings s_nx s_ny r]; lia.
    - lra.
    - lra. }
  assert (CVy : Rabs (wy - D 0%nat 1%nat (real (fst p)) (real (snd p))) <= slope_y_bound (s_dx r) (s_dy r) M e0 e1 e2).
  { unfold wy. apply cell_slope_y; try assumption.
    - intros a b u' z Ha Hb Hu Hz. apply HM; auto; lra.
    - apply (Hd cy cx); cbn [real_settings s_nx s_ny r]; lia.
    - rewrite <- SX. apply (Hd cy (cx + 1)%Z); cbn [real_settings s_nx s_ny r]; lia.
    - rewrite <- SY. apply (Hd (cy + 1)%Z cx); cbn [real_settings s_nx s_ny r]; lia.
    - rewrite <- SX, <- SY. apply (Hd (cy + 1)%Z (cx + 1)%Z); cbn [real_settings s_nx s_ny r]; lia.
    - lra.
    - lra. }
  clearbody wx wy. assert (Dp : 0 < real (s_dt s)) by (destruct Hdt as (Q1 & _); eapply Rlt_le_trans; [apply bpow_gt_0|exact Q1]).
  assert (Vp : 0 < V) by (destruct HV as (Q1 & _); eapply Rlt_le_trans; [apply bpow_gt_0|exact Q1]).
  assert (Rx : Rabs (real rx - D 1%nat 0%nat (real (fst p)) (real (snd p))) <= ex).
  { unfold ex. clear EV1 EV2. generalize dependent (real rx). intros z ARx. replace (z - D 1%nat 0%nat (real (fst p)) (real (snd p))) with ((z - wx) + (wx - D 1%nat 0%nat (real (fst p)) (real (snd p)))) by ring.
    eapply Rle_trans; [apply Rabs_triang|]. lra. }
  assert (Ry : Rabs (real ry - D 0%nat 1%nat (real (fst p)) (real (snd p))) <= ey).
  { unfold ey. clear EV1 EV2. generalize dependent (real ry). intros z ARy. replace (z - D 0%nat 1%nat (real (fst p)) (real (snd p))) with ((z - wy) + (wy - D 0%nat 1%nat (real (fst p)) (real (snd p)))) by ring.
    eapply Rle_trans; [apply Rabs_triang|]. lra. }
  assert (Sx : Rabs (real rx) <= Sg).
  { pose proof (HM 1%nat 0%nat (real (fst p)) (real (snd p)) ltac:(lia) ltac:(lia) ltac:(lra) ltac:(lra)) as Q1. clear EV1 EV2 ARx. generalize dependent (real rx). intros z Rx.
    replace z with ((z - D 1%nat 0%nat (real (fst p)) (real (snd p))) + D 1%nat 0%nat (real (fst p)) (real (snd p))) by ring. eapply Rle_trans; [apply Rabs_triang|]. lra. }
  assert (Sy : Rabs (real ry) <= Sg).
  { pose proof (HM 0%nat 1%nat (real (fst p)) (real (snd p)) ltac:(lia) ltac:(lia) ltac:(lra) ltac:(lra)) as Q1. clear EV1 EV2 ARy. generalize dependent (real ry). intros z Ry.
    replace z with ((z - D 0%nat 1%nat (real (fst p)) (real (snd p))) + D 0%nat 1%nat (real (fst p)) (real (snd p))) by ring. eapply Rle_trans; [apply Rabs_triang|]. lra. }
  clear ARx ARy CVx CVy. clearbody rx ry.
  assert (C1 : V * K * X <= 8 * V) by (replace (V * K * X) with (K * X * V) by ring; apply Rmult_le_compat_r; lra). assert (C2 : V * K * Ts <= 8 * V) by (replace (V * K * Ts) with (K * Ts * V) by ring; apply Rmult_le_compat_r; lra).
  assert (VKp : 0 <= V * K) by (apply Rmult_le_pos; lra). assert (VKK : 0 <= V * K * K) by (apply Rmult_le_pos; lra).
  assert (C3 : V * K * K * X <= 8 * (V * K)) by (replace (V * K * K * X) with (K * X * (V * K)) by ring; apply Rmult_le_compat_r; lra).
  assert (C4 : V * K * K * Ts <= 8 * (V * K)) by (replace (V * K * K * Ts) with (K * Ts * (V * K)) by ring; apply Rmult_le_compat_r; lra).
  pose proof Ht as (Ht1 & Ht2).
  destruct (super64 G F (s_rk3 s) (node_x s j) (node_y s i) rx ry (s_dt s) (s_Tp s) t eps X V (V * K) (V * K) (V * K) (V * K * K) (V * K * K) Ts Sg He HX HV HVK HT HSg Fdt Hdt CFL ltac:(lra) Ht1
    ltac:(change (2 ^ 32)%Z with 4294967296%Z; lia) HTs VKp VKp C1 C2 VKK VKK C3 C4 (near_tracks G F (s_Tp s) X V K eps Near Grd) (near_gradients G F (s_Tp s) X V K eps NearG TG Grd)
    Fx Fy Ax Ay FRx FRy Sx Sy) as ((FS1 & FS2) & AS1 & AS2).
  rewrite Ex, Ey in AS1, AS2. change (real (s_dt s)) with (s_dt r) in AS1, AS2. change (real (s_Tp s)) with (s_Tp r) in AS1, AS2.
  destruct (times (IZR t) (s_dt r) ltac:(change (s_dt r) with (real (s_dt s)); lra)) as (T1 & T2). fold lo hi in T1, T2.
  destruct (one_through F (s_Tp r) V K lo hi (node_x r j) (node_y r i) (less31 _ _ _ _ Grd) T1) as (P0 & Q0 & HX0 & EX0 & EY0 & NR & U).
  assert (NR' : forall z, lo <= z <= hi -> Rabs (P z - node_x r j) <= V * (hi - z) /\ Rabs (Q z - node_y r i) <= V * (hi - z)).
  { intros z Hz. destruct (U P Q HF HP HQ z Hz) as (-> & ->). apply NR. exact Hz. }
  assert (I1 : inside (s_xlim1 r) (s_xlim2 r) (P lo)) by (unfold inside; lra). assert (I2 : inside (s_ylim1 r) (s_ylim2 r) (Q lo)) by (unfold inside; lra).
  assert (I3 : s_xlim1 r <= real (fst p) <= s_xlim2 r) by lra. assert (I4 : s_ylim1 r <= real (snd p) <= s_ylim2 r) by lra.
  destruct (gradient_core F r t D M V K u E ex ey (node_x r j) (node_y r i) P Q (real (fst p)) (real (snd p)) (real rx) (real ry) Ht ltac:(change (s_dt r) with (real (s_dt s)); lra) HK HL Grd TG SD HM HU H0
    HF HP HQ NR' I1 I2 I3 I4 P1 P2 Rx Ry) as (ux & uy & DU & GX & GY).
  change (s_rk3 r) with (s_rk3 s) in GX, GY.
  destruct Hf' as (_ & _ & _ & _ & _ & A2 & A3 & _). eexists _, _, ux, uy. split; [exact (A2 i j Hi Hj)|]. split; [exact (A3 i j Hi Hj)|]. rewrite EV1, EV2.
  split; [exact FS1|]. split; [exact FS2|]. split; [exact DU|]. cbv zeta.
  clear EV1 EV2. set (Sb := SuperConsistentScheme G _ _ _ _ _ _ _ _) in *. set (Sr := SuperConsistentScheme F _ _ _ _ _ _ _ _) in *. clearbody Sb Sr.
  generalize dependent (real (fst Sb)). intros g1 AS1. generalize dependent (real (snd Sb)). intros g2 AS2. split.
  - replace (g1 - ux) with ((g1 - fst Sr) + (fst Sr - ux)) by ring. eapply Rle_trans; [apply Rabs_triang|]. lra.
  - replace (g2 - uy) with ((g2 - snd Sr) + (snd Sr - uy)) by ring. eapply Rle_trans; [apply Rabs_triang|]. lra.
Qed.
