(** The mixed derivatives after one time step of the reference program in double arithmetic. *)
From Coq Require Import ZArith List Bool String Lia Reals Lra.
From Coquelicot Require Import Derive_2d.
From Flocq Require Import Core BinarySingleNaN.
From Verif Require Import Base Num NumB64 ModelVec ModelRefMath ModelRefMem ModelRef SpecGrid SpecGradient SpecB64 SpecRound SpecRef SpecRefRun SpecRefOrder SpecRefStep SpecRefSolve SpecRefGrad SpecRefRound SpecRefTraceRound SpecRefStepRound SpecRefSuperRound SpecRefMixed
  ProofsB64 ProofsB64Ops ProofsRound ProofsRefRound ProofsRefExact ProofsRefStepRound ProofsRefSuperStep ProofsRefMixed ProofsRefMixedStep ProofsRefMixedRound.
Import ListNotations.
Open Scope R_scope.

Theorem step_mixed64 : forall whole (G : flow b64) (F : flow R) s t f m D M e0 e1 e2 Mr Sg eps X V K Ts u D' M' S w, let r := real_settings s in
  proper r -> exact_grid s -> s_psischeme s = "SuperConsistent"%string -> box_within s X -> nodes_at (s_nx s) (s_ny s) (node_x s) (node_y s) m -> contains (s_nx s) (s_ny s) f m -> field_size s f Mr ->
  smooth2 D -> bounded_in_box r D M -> near_samples r D (real_fields f) e0 e1 e2 ->
  bpow radix2 (-53) <= eps <= / 4096 -> moderate X -> moderate V -> moderate Ts -> is_finite (s_dt s) = true -> moderate (real (s_dt s)) ->
  V * real (s_dt s) <= X -> step_number t -> (IZR t + 1) * real (s_dt s) <= Ts -> 0 < K -> K * X <= 8 -> K * Ts <= 8 -> moderate (V * K) -> V * K * real (s_dt s) <= 1 / 4 ->
  flow_near64 G F (s_Tp s) V eps -> gradients_near64 G F (s_Tp s) (V * K) eps -> graded_velocity 3 V K F (s_Tp r) -> true_gradients F (s_Tp r) ->
  let lo := IZR t * s_dt r in let hi := (IZR t + 1) * s_dt r in let E := origin_bound (s_rk3 s) (s_dt r) V K + trace_factor (s_rk3 s) 8 * eps * X in
  let ex := slope_x_bound (s_dx r) (s_dy r) M e0 e1 e2 + bpow radix2 (-33) * (Mr / s_dx r) in let ey := slope_y_bound (s_dx r) (s_dy r) M e0 e1 e2 + bpow radix2 (-33) * (Mr / s_dy r) in
  moderate Sg -> M 1%nat 0%nat + ex <= Sg -> M 0%nat 1%nat + ey <= Sg -> solves F (s_Tp r) lo hi u -> (forall x y, u x y lo = D 0%nat 0%nat x y) ->
  smooth2 D' -> bounded_in_box r D' M' -> (forall x y, u x y hi = D' 0%nat 0%nat x y) ->
  let B := gradient_bound (s_dt r) V K M ex ey E + super_factor (s_rk3 s) * eps * Sg in
  steps64 (s_dx s) (s_dy s) w -> real (s_dx s) = s_dx r -> real (s_dy s) = s_dy r -> moderate S -> M' 1%nat 0%nat + B <= S -> M' 0%nat 1%nat + B <= S ->
  exists m', step whole G s t m = Ok m' /\
    forall i j, (0 < i < s_ny s - 2)%Z -> (0 < j < s_nx s - 2)%Z ->
      (forall P Q i' j', (i - 1 <= i' <= i + 1)%Z -> (j - 1 <= j' <= j + 1)%Z -> follows F (s_Tp r) lo hi P Q -> P hi = node_x r j' -> Q hi = node_y r i' ->
         inside (s_xlim1 r + E) (s_xlim2 r - E) (P lo) /\ inside (s_ylim1 r + E) (s_ylim2 r - E) (Q lo)) ->
      exists v, m' (MPsixy, i, j) = Some (ModelRefMem.D v) /\ is_finite v = true /\
        Rabs (real v - D' 1%nat 1%nat (node_x r j) (node_y r i)) <= mixed_bound (s_nx s) (s_ny s) i j (s_dx r) (s_dy r) M' B + bpow radix2 (-48) * (S / w).
Proof.
  intros whole G F s t f m D M e0 e1 e2 Mr Sg eps X V K Ts u D' M' S w r Hs HE Hsc HB HN Hf HZ SD HM Hd He HX HV HT Fdt Hdt CFL Ht HTs HK HKX HKT HVK HL Near NearG Grd TG lo hi E ex ey HSg S10 S01 HU H0 SD' HM' H1 B
    (F1 & F2 & Q1 & Q2 & Qw & W1 & W2) Ex Ey QS T10 T01.
  destruct (step_gradient64 whole G F s t f m D M e0 e1 e2 Mr Sg eps X V K Ts u Hs HE Hsc HB HN Hf HZ SD HM Hd He HX HV HT Fdt Hdt CFL Ht HTs HK HKX HKT HVK HL Near NearG Grd TG HSg S10 S01 HU H0) as (m' & Em & H).
  exists m'. split; [exact Em|]. intros i j Hi Hj HP. fold r lo hi E ex ey in H. cbv zeta in H. fold B in H.
  destruct (step64 whole G s Hs HE t f m HN Hf) as (m2 & Em2 & _ & Cn). rewrite Em in Em2. injection Em2 as <-. destruct Cn as (_ & _ & _ & _ & _ & Cx & Cy & Cxy).
  pose proof Hs as (N1 & N2 & _). cbn [real_settings s_nx s_ny r] in N1, N2.
  set (nd := next whole G s (node_x s) (node_y s) t f) in *.
  assert (NEAR : forall i' j', uses (s_nx s) (s_ny s) i j i' j' -> (is_finite (f_x nd i' j') = true /\ Rabs (real (f_x nd i' j') - D' 1%nat 0%nat (node_x r j') (node_y r i')) <= B) /\
    (is_finite (f_y nd i' j') = true /\ Rabs (real (f_y nd i' j') - D' 0%nat 1%nat (node_x r j') (node_y r i')) <= B)).
  { intros i' j' (U1 & U2 & U3 & U4).
    destruct (ProofsRefSolve.one_through F (s_Tp r) V K lo hi (node_x r j') (node_y r i') (ProofsRefSolve.less31 _ _ _ _ Grd)) as (P & Q & HF & EP & EQ & _).
    { unfold lo, hi. pose proof (okS_pos _ (okS_mod _ Hdt)). change (real (s_dt s)) with (s_dt r) in *. lra. }
    destruct (HP P Q i' j' ltac:(lia) ltac:(lia) HF EP EQ) as (IX & IY).
    destruct (H i' j' P Q U3 U4 ltac:(right; lia) HF EP EQ IX IY) as (gx & gy & ux & uy & G1 & G2 & Fx & Fy & DF & B1 & B2).
    rewrite (Cx i' j' U3 U4) in G1. rewrite (Cy i' j' U3 U4) in G2. injection G1 as <-. injection G2 as <-.
    destruct (slopes_are D' _ _ _ _ _ SD' H1 DF) as (-> & ->). auto. }
  destruct (sorted_x r Hs) as (SX1 & SX2 & SX3). destruct (sorted_y r Hs) as (SY1 & SY2 & SY3). cbn [real_settings s_nx s_ny r] in SX2, SX3, SY2, SY3. fold r in SX1, SX2, SX3, SY1, SY2, SY3.
  assert (LX : forall z, (0 <= z < s_nx s)%Z -> s_xlim1 r <= node_x r z <= s_xlim2 r).
  { intros z Hz. rewrite <- SX1, <- SX2. split.
    - destruct (Z.eq_dec z 0) as [->|]; [lra|left; apply SX3; lia].
    - destruct (Z.eq_dec z (s_nx s - 1)) as [->|]; [lra|left; apply SX3; lia]. }
  assert (LY : forall z, (0 <= z < s_ny s)%Z -> s_ylim1 r <= node_y r z <= s_ylim2 r).
  { intros z Hz. rewrite <- SY1, <- SY2. split.
    - destruct (Z.eq_dec z 0) as [->|]; [lra|left; apply SY3; lia].
    - destruct (Z.eq_dec z (s_ny s - 1)) as [->|]; [lra|left; apply SY3; lia]. }
  assert (SIZE : forall z d b, Rabs (z - d) <= B -> Rabs d <= b -> b + B <= S -> Rabs z <= S).
  { intros z d b Z1 Z2 Z3. replace z with (d + (z - d)) by ring. eapply Rle_trans; [apply Rabs_triang|]. lra. }
  eexists. split; [apply (Cxy i j); lia|]. change (f_xy nd i j) with (mixed_val (s_nx s) (s_ny s) (s_dx s) (s_dy s) (f_x nd) (f_y nd) i j).
  destruct (mixed_rounding (s_nx s) (s_ny s) (s_dx s) (s_dy s) (f_x nd) (f_y nd) S w i j ltac:(lia) ltac:(lia) F1 F2 Q1 Q2 QS Qw W1 W2) as (Fv & Bv); [|lia|lia|].
  { intros i' j' U. destruct (NEAR i' j' U) as ((A1 & A2) & (A3 & A4)). destruct U as (_ & _ & U3 & U4). pose proof (LX j' U4) as L1. pose proof (LY i' U3) as L2.
    split; (split; [assumption|]); [apply (SIZE _ _ _ A2 (HM' 1%nat 0%nat _ _ ltac:(lia) ltac:(lia) L1 L2) T10)|apply (SIZE _ _ _ A4 (HM' 0%nat 1%nat _ _ ltac:(lia) ltac:(lia) L1 L2) T01)]. }
  split; [exact Fv|]. rewrite Ex, Ey in Bv.
  assert (N : Rabs (mixed_val (s_nx s) (s_ny s) (s_dx r) (s_dy r) (fun k l => real (f_x nd k l)) (fun k l => real (f_y nd k l)) i j - D' 1%nat 1%nat (node_x r j) (node_y r i)) <=
    mixed_bound (s_nx s) (s_ny s) i j (s_dx r) (s_dy r) M' B).
  { apply mixed_near; try assumption; try lia; try (apply (dx_pos r Hs)); try (apply (dy_pos r Hs)).
    - fold (node_x r) (node_y r). rewrite SX1, SX2, SY1, SY2. intros a b p q Ha Hb Hp Hq. apply HM'; assumption.
    - intros k l U. fold (node_x r) (node_y r). destruct (NEAR k l U) as ((_ & A2) & (_ & A4)). split; assumption. }
  revert Bv N. generalize (mixed_val (s_nx s) (s_ny s) (s_dx r) (s_dy r) (fun k l => real (f_x nd k l)) (fun k l => real (f_y nd k l)) i j).
  generalize (real (mixed_val (s_nx s) (s_ny s) (s_dx s) (s_dy s) (f_x nd) (f_y nd) i j)). intros v z Bv N.
  replace (v - D' 1%nat 1%nat (node_x r j) (node_y r i)) with ((v - z) + (z - D' 1%nat 1%nat (node_x r j) (node_y r i))) by ring. eapply Rle_trans; [apply Rabs_triang|]. lra.
Qed.
