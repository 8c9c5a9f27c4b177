(** One semi-Lagrangian step of the library in double, compared with the solution of the level set equation. *)
From Coq Require Import ZArith List Reals Lra Lia.
From Flocq Require Import Core BinarySingleNaN.
From Coquelicot Require Import Rcomplements Derive Derive_2d.
From Verif Require Import Base Num NumB64 ModelVec ModelGrid ModelArray ModelInterp ModelTemporal ModelRefMath SpecGrid SpecInterp SpecGradient SpecTemporal SpecAccuracy SpecB64 SpecRound SpecSensitive SpecPde SpecPdeRound
  SpecRef SpecRefOrder SpecRefSolve SpecRefExist ProofsBase ProofsGrid ProofsArray ProofsGridProps ProofsTaylor ProofsInterp ProofsInterpProps ProofsInterpApi ProofsTemporal ProofsTemporalCases
  ProofsAccuracy ProofsAccuracyStep ProofsRunStep ProofsRefOrder ProofsRefSmooth ProofsRefScale ProofsRefSolve ProofsRefFlowGrad ProofsRefSolveCases ProofsPde ProofsSensitiveStep.
Open Scope R_scope.

Section Point.
Variables (n : vec3 Z) (bmin bmax : vec3 R) (dt : R).
Hypothesis Hdt : 0 <= dt.
Variables (D : nat -> nat -> nat -> R -> R -> R -> R) (M : nat -> nat -> nat -> R).
Hypothesis SD : smooth D.
Hypothesis HM : forall i j k p, (i <= 4)%nat -> (j <= 4)%nat -> (k <= 4)%nat -> centre_box 2 n bmin bmax p ->
  Rabs (D i j k (vx p) (vy p) (vz p)) <= M i j k.
Variables (F : flow R) (Tp V K lo eta etag : R) (u : R -> R -> R -> R).
Hypothesis HV : graded_velocity 2 V K F Tp.
Hypothesis HG : true_gradients F Tp.
Hypothesis Hu : solves F Tp lo (lo + dt) u.
Hypothesis Hu0 : forall x y, u x y lo = D 0%nat 0%nat 0%nat x y 0.
Let hx := spacing (vx bmin) (vx bmax) (vx n).
Let hy := spacing (vy bmin) (vy bmax) (vy n).
Hypothesis CX : V * dt < hx.
Hypothesis CY : V * dt < hy.
Variables (x y a11 a12 a21 a22 : R) (q : vec3 R).
Hypothesis DX : forall d, Rabs d < hx -> vx bmin - hx / 2 < x - d < vx bmax + hx / 2.
Hypothesis DY : forall d, Rabs d < hy -> vy bmin - hy / 2 < y - d < vy bmax + hy / 2.
Hypothesis BQ : centre_box 2 n bmin bmax q.
Let hi := lo + dt.
Hypothesis QX : Rabs (vx q - (x - dt * Velx F x y hi Tp)) <= dt * eta.
Hypothesis QY : Rabs (vy q - (y - dt * Vely F x y hi Tp)) <= dt * eta.
Hypothesis A11 : Rabs (a11 - gradUx F x y hi Tp) <= etag.
Hypothesis A12 : Rabs (a12 - gradUy F x y hi Tp) <= etag.
Hypothesis A21 : Rabs (a21 - gradVx F x y hi Tp) <= etag.
Hypothesis A22 : Rabs (a22 - gradVy F x y hi Tp) <= etag.

Let EO := euler_origin dt V K + dt * eta.
Let G2 := (M 1%nat 0%nat 0%nat + M 0%nat 1%nat 0%nat) * (4 * (V * K ^ 2 * (1 + 2 * V) + 2 * (V * K) ^ 2) * dt ^ 2).

Lemma point_solves : Rabs (D 0%nat 0%nat 0%nat (vx q) (vy q) (vz q) - u x y hi) <= (M 1%nat 0%nat 0%nat + M 0%nat 1%nat 0%nat) * EO /\
  (V * K * dt <= 1 / 4 -> exists ux uy, differentiable_pt_lim (fun x y => u x y hi) x y ux uy /\
    forall i j u0, (i = 1 /\ j = 0 /\ u0 = ux) \/ (i = 0 /\ j = 1 /\ u0 = uy) ->
    let w1 := i - dt * (a11 * i + a12 * j) in let w2 := j - dt * (a21 * i + a22 * j) in Rabs w1 <= 2 -> Rabs w2 <= 2 ->
    Rabs (w1 * D 1%nat 0%nat 0%nat (vx q) (vy q) (vz q) + w2 * D 0%nat 1%nat 0%nat (vx q) (vy q) (vz q) - u0) <=
      2 * (M 2%nat 0%nat 0%nat + 2 * M 1%nat 1%nat 0%nat + M 0%nat 2%nat 0%nat) * EO + G2 + (M 1%nat 0%nat 0%nat + M 0%nat 1%nat 0%nat) * (dt * etag)).
Proof.
  assert (Hlh : lo <= hi) by (unfold hi; lra). assert (Edt : hi - lo = dt) by (unfold hi; ring).
  pose proof (graded_bounded _ _ _ _ (proj1 HV)) as Vu. pose proof (graded_bounded _ _ _ _ (proj2 HV)) as Vv. cbv beta in Vu, Vv.
  assert (PV : 0 <= V) by (eapply Rle_trans; [apply Rabs_pos|apply (Vu 0 0 0)]).
  assert (HV1 : graded_velocity 1 V K F Tp) by exact (conj (graded_less _ _ _ _ (proj1 HV)) (graded_less _ _ _ _ (proj2 HV))).
  destruct (one_through F Tp V K lo hi x y HV1 Hlh) as (X & Y & HX & EX & EY & NX & _).
  destruct (trajectory_bend F Tp V K lo hi X Y HV1 Hlh HX) as (TX & TY). rewrite EX, EY, Edt in TX, TY.
  set (r := V3 (X lo) (Y lo) 0).
  assert (BR : centre_box 2 n bmin bmax r).
  { destruct (NX lo ltac:(lra)) as (N1 & N2). rewrite Edt in N1, N2.
    intros a. destruct a; cbn [used Nat.leb r vget vx vy vz]; [..|reflexivity].
    - destruct (DX (x - X lo)) as (B1 & B2); [rewrite Rabs_minus_sym; lra|]. replace (x - (x - X lo)) with (X lo) in * by ring. cbv zeta. fold hx. lra.
    - destruct (DY (y - Y lo)) as (B1 & B2); [rewrite Rabs_minus_sym; lra|]. replace (y - (y - Y lo)) with (Y lo) in * by ring. cbv zeta. fold hy. lra. }
  assert (TT : forall a b c e e', Rabs (a - b) <= e' -> Rabs (c - b) <= e -> Rabs (a - c) <= e + e').
  { intros a b c e e' H1 H2. replace (a - c) with ((a - b) + - (c - b)) by ring. eapply Rle_trans; [apply Rabs_triang|]. rewrite Rabs_Ropp. lra. }
  assert (DQ : forall a, used 2 a = true -> Rabs (vget q a - vget r a) <= EO).
  { intros a Ha. destruct a; cbn [used Nat.leb] in Ha; try discriminate; unfold r, EO; cbn [vget vx vy vz]; eapply TT; eassumption. }
  pose proof (carried F Tp lo hi u X Y Hlh Hu HX) as C. rewrite EX, EY, Hu0 in C.
  assert (MP : forall i j, (i <= 4)%nat -> (j <= 4)%nat -> 0 <= M i j 0%nat) by (intros i' j' Hi' Hj'; eapply Rle_trans; [apply Rabs_pos|apply (HM i' j' 0 _ Hi' Hj' ltac:(lia) BR)]).
  split.
  { rewrite C. pose proof (box_move 2 n bmin bmax D M ltac:(lia) SD HM q r EO BQ BR DQ) as BM.
    unfold over_axes in BM. cbn [used Nat.leb slope_bound] in BM. change (D 0%nat 0%nat 0%nat (X lo) (Y lo) 0) with (D 0%nat 0%nat 0%nat (vx r) (vy r) (vz r)). lra. }
  intros CK. destruct Hu as (ux & uy & us & DU & HP).
  assert (Slice : forall s p q, differentiable_pt_lim (fun x y => u x y s) p q (ux p q s) (uy p q s)) by (intros; apply (diff3_plane u ux uy us); exact DU).
  exists (ux x y hi), (uy x y hi). split; [apply Slice|].
  assert (SA : ux (X lo) (Y lo) lo = D 1%nat 0%nat 0%nat (X lo) (Y lo) 0 /\ uy (X lo) (Y lo) lo = D 0%nat 1%nat 0%nat (X lo) (Y lo) 0).
  { destruct (differentiable_pt_lim_unique _ _ _ _ _ (Slice lo (X lo) (Y lo))) as (U1 & U2). split.
    - rewrite <- U1. apply is_derive_unique, is_derive_Reals. apply derivable_pt_lim_ext with (f := fun t => D 0%nat 0%nat 0%nat t (Y lo) 0); [intros; rewrite Hu0; reflexivity|apply SD].
    - rewrite <- U2. apply is_derive_unique, is_derive_Reals. apply derivable_pt_lim_ext with (f := fun t => D 0%nat 0%nat 0%nat (X lo) t 0); [intros; rewrite Hu0; reflexivity|apply SD]. }
  destruct SA as (SA & SB).
  pose proof (HM 1 0 0 r ltac:(lia) ltac:(lia) ltac:(lia) BR) as R1. pose proof (HM 0 1 0 r ltac:(lia) ltac:(lia) ltac:(lia) BR) as R2. cbn [r vx vy vz] in R1, R2.
  pose proof (slope_moves n bmin bmax D M SD HM AX q r EO ltac:(congruence) BQ BR DQ) as S1. pose proof (slope_moves n bmin bmax D M SD HM AY q r EO ltac:(congruence) BQ BR DQ) as S2. cbn [first_order] in S1, S2.
  change (vx r) with (X lo) in S1, S2. change (vy r) with (Y lo) in S1, S2. change (vz r) with 0 in S1, S2.
  set (dx := D 1%nat 0%nat 0%nat (vx q) (vy q) (vz q)) in *. set (dy := D 0%nat 1%nat 0%nat (vx q) (vy q) (vz q)) in *.
  set (ax := D 1%nat 0%nat 0%nat (X lo) (Y lo) 0) in *. set (ay := D 0%nat 1%nat 0%nat (X lo) (Y lo) 0) in *.
  intros i' j' u0 Hij w1 w2 W1 W2.
  assert (Hi' : Rabs i' <= 1 /\ Rabs j' <= 1) by (destruct Hij as [(-> & -> & _) | (-> & -> & _)]; rewrite Rabs_R0, Rabs_R1; lra).
  pose proof (solution_slopes F Tp V K lo hi u x y X Y _ _ _ _ i' j' HV HG Hlh PV ltac:(rewrite Edt; exact CK) (ex_intro _ ux (ex_intro _ uy (ex_intro _ us (conj DU HP)))) HX EX EY NX (Slice lo (X lo) (Y lo)) (Slice hi x y) (proj1 Hi') (proj2 Hi')) as S0.
  cbv zeta in S0. rewrite Edt, SA, SB in S0. fold ax ay in S0.
  assert (EU : ux x y hi * i' + uy x y hi * j' = u0) by (destruct Hij as [(-> & -> & ->) | (-> & -> & ->)]; ring). rewrite EU in S0.
  set (o1 := i' - dt * (gradUx F x y hi Tp * i' + gradUy F x y hi Tp * j')) in *. set (o2 := j' - dt * (gradVx F x y hi Tp * i' + gradVy F x y hi Tp * j')) in *.
  assert (WO : Rabs (w1 - o1) <= dt * etag /\ Rabs (w2 - o2) <= dt * etag).
  { assert (Q : forall b c, Rabs (b - c) <= etag -> Rabs (dt * (c - b)) <= dt * etag).
    { intros b c Hbc. rewrite Rabs_mult, (Rabs_pos_eq dt) by exact Hdt. rewrite Rabs_minus_sym. apply Rmult_le_compat_l; assumption. }
    unfold w1, o1, w2, o2. destruct Hij as [(-> & -> & _) | (-> & -> & _)]; split.
    - eapply Rle_trans; [right|exact (Q _ _ A11)]. f_equal. ring.
    - eapply Rle_trans; [right|exact (Q _ _ A21)]. f_equal. ring.
    - eapply Rle_trans; [right|exact (Q _ _ A12)]. f_equal. ring.
    - eapply Rle_trans; [right|exact (Q _ _ A22)]. f_equal. ring. }
  destruct WO as (WO1 & WO2).
  pose proof (Rmult_le_compat _ _ _ _ (Rabs_pos w1) (Rabs_pos _) W1 S1) as K3. pose proof (Rmult_le_compat _ _ _ _ (Rabs_pos w2) (Rabs_pos _) W2 S2) as K4.
  pose proof (Rmult_le_compat _ _ _ _ (Rabs_pos _) (Rabs_pos _) R1 WO1) as K5. pose proof (Rmult_le_compat _ _ _ _ (Rabs_pos _) (Rabs_pos _) R2 WO2) as K6.
  rewrite <- Rabs_mult in K3, K4, K5, K6.
  assert (S0' : Rabs (u0 - (ax * o1 + ay * o2)) <= G2).
  { eapply Rle_trans; [exact S0|]. unfold G2. apply Rmult_le_compat_r; [|lra].
    assert (KK : 0 <= V * K ^ 2) by (apply Rmult_le_pos; [exact PV|apply pow2_ge_0]).
    apply Rmult_le_pos; [|apply pow2_ge_0]. apply Rmult_le_pos; [lra|]. apply Rplus_le_le_0_compat; [apply Rmult_le_pos; lra|]. pose proof (pow2_ge_0 (V * K)). lra. }
  clear S0. clearbody w1 w2 o1 o2 dx dy ax ay EO G2.
  replace (w1 * dx + w2 * dy - u0) with (w1 * (dx - ax) + w2 * (dy - ay) + ax * (w1 - o1) + ay * (w2 - o2) + - (u0 - (ax * o1 + ay * o2))) by ring.
  eapply Rle_trans; [apply Rabs_triang|]. rewrite Rabs_Ropp. eapply Rle_trans; [apply Rplus_le_compat_r, Rabs_triang|]. eapply Rle_trans; [apply Rplus_le_compat_r, Rplus_le_compat_r, Rabs_triang|].
  eapply Rle_trans; [apply Rplus_le_compat_r, Rplus_le_compat_r, Rplus_le_compat_r, Rabs_triang|]. lra.
Qed.
End Point.

Section Step.
Variables (ov : ovmode) (n : vec3 Z) (bmin bmax : vec3 b64) (g : grid b64) (l : levelset b64) (S : cell -> cell_values) (Mr rho : R).
Let lo0 := reals bmin.
Let hi0 := reals bmax.
Let h := spacings n lo0 hi0.
Let pos := centre_pos 2 n lo0 hi0.
Hypothesis Hb : built ov 2 n 1 bmin bmax g.
Hypothesis Hl : levelset_on g l.
Hypothesis HS : stores64 ov 2 n 1 g l S.
Hypothesis Hdef : interp_defined ov 2.
Hypothesis Hf : fine_box 2 rho n bmin bmax.
Hypothesis HMr : moderate Mr.
Hypothesis Hz : sized 2 n 1 h Mr S.
Variables (D : nat -> nat -> nat -> R -> R -> R -> R) (M : nat -> nat -> nat -> R) (eps : R).
Hypothesis SD : smooth D.
Hypothesis HM : forall i j k p, (i <= 4)%nat -> (j <= 4)%nat -> (k <= 4)%nat -> centre_box 2 n lo0 hi0 p ->
  Rabs (D i j k (vx p) (vy p) (vz p)) <= M i j k.
Hypothesis He : sized 2 n 1 h eps (fun c => cv_minus (S c) (jet D (pos c))).
Variables (lv : ls_velocity b64) (dt : b64) (hm : R).
Hypothesis Hv : velocity_on g lv.
Hypothesis Hs : slow_flow ov 2 n bmin bmax dt g lv.
Hypothesis Hhm : moderate hm.
Hypothesis Hmin : hm <= vx h /\ hm <= vy h.
Hypothesis Hdt : 0 <= real dt.
Variables (F : flow R) (Tp V K lo eta etag : R) (u : R -> R -> R -> R).
Hypothesis HV : graded_velocity 2 V K F Tp.
Hypothesis HG : true_gradients F Tp.
Hypothesis Hu : solves F Tp lo (lo + real dt) u.
Hypothesis Hu0 : forall x y, u x y lo = D 0%nat 0%nat 0%nat x y 0.
Hypothesis HF : near_flow64 ov n bmin bmax g F Tp (lo + real dt) lv eta etag.
Hypothesis CX : V * real dt < vx h.
Hypothesis CY : V * real dt < vy h.

Lemma step_solves64 : exists l', sl_compute ov g dt lv l = Ok l' /\
  forall i j k, interior_cell n (i, j, k) -> exists phi psi, aget ov g (ls_phi l') i j k = Ok phi /\ aget ov g (ls_psi l') i j k = Ok psi /\
    let p := pos (i, j, k) in is_finite phi = true /\ is_finite (vx psi) = true /\ is_finite (vy psi) = true /\
    Rabs (real phi - u (vx p) (vy p) (lo + real dt)) <= step_value_error64 h M (real dt) V K eta eps Mr rho /\
    (V * K * real dt <= 1 / 4 -> exists ux uy, differentiable_pt_lim (fun x y => u x y (lo + real dt)) (vx p) (vy p) ux uy /\
      Rabs (real (vx psi) - ux) <= step_gradient_error64 h M (real dt) V K eta etag eps Mr rho hm /\ Rabs (real (vy psi) - uy) <= step_gradient_error64 h M (real dt) V K eta etag eps Mr rho hm).
Proof.
  set (W := fun (c : cell) => match c with (i, j, k) => match aget ov g (lv_vel lv) i j k with Ok v => reals v | _ => V3 0 0 0 end end).
  assert (PB : proper_box 2 lo0 hi0) by (intros a Ha; destruct (proj2 Hf a Ha) as (_ & _ & L & _); destruct a; exact L).
  assert (FT : forall i j k v, interior_cell n (i, j, k) -> aget ov g (lv_vel lv) i j k = Ok v -> in_lattice 2 n lo0 hi0 (foot (real dt) (reals v) (pos (i, j, k)))).
  { intros i j k v Hi Ev. destruct (Hs i j k Hi) as (v' & m & E1 & _ & E3 & _). assert (v' = v) by congruence. subst v'. eapply slow_foot; eassumption. }
  assert (HminA : forall a, used 2 a = true -> hm <= vget h a) by (intros a Ha; destruct a; [apply Hmin|apply Hmin|discriminate]).
  destruct (step_total ov 2 n bmin bmax g l S Mr rho D M eps Hb Hl HS Hdef Hf HMr Hz SD HM He lv dt hm 0 Hv Hs Hhm HminA Hdt
    (fun c a t => vget (pos c) a - real dt * vget (W c) a + vget (W c) a * t) (fun c a _ => vget (W c) a) (fun _ _ _ => 0)) as (l' & E & H).
  { intros i j k v Hi Ev. pose proof (FT i j k v Hi Ev) as HL. assert (EW : W (i, j, k) = reals v) by (unfold W; rewrite Ev; reflexivity). rewrite EW. split.
    - intros a Ha. split; [|split; [unfold pos, lo0, hi0; ring|reflexivity]]. intros t Ht. split; [|split; [apply d_const|rewrite Rabs_R0; lra]].
      eapply d_eq; [apply (derivable_pt_lim_plus (fun _ => vget (pos (i, j, k)) a - real dt * vget (reals v) a) (fun t => vget (reals v) a * t)); [apply d_const|apply d_lin]|ring].
    - pose proof (feet_box n lo0 hi0 _ HL) as B. intros a. specialize (B a). unfold start. destruct a; cbn [used Nat.leb flat vget vx vy vz foot] in *; rewrite ?Rmult_0_r, ?Rplus_0_r; exact B. }
  exists l'. split; [exact E|]. intros i j k Hi.
  destruct (H i j k Hi) as (v & m & phi & psi & Ev & Em & E1 & E2 & F1 & B1 & B2). clear H. exists phi, psi. split; [exact E1|]. split; [exact E2|]. cbv zeta.
  assert (EW : W (i, j, k) = reals v) by (unfold W; rewrite Ev; reflexivity).
  pose proof (feet_box n lo0 hi0 _ (FT i j k v Hi Ev)) as BQ. cbv zeta in B1, B2. rewrite EW in B1.
  set (p := pos (i, j, k)) in *. set (q := flat 2 (foot (real dt) (reals v) p)) in *.
  assert (EQ : start 2 (fun a t => vget p a - real dt * vget (reals v) a + vget (reals v) a * t) = q).
  { unfold start, q. unfold flat, foot. cbn [used Nat.leb vget vx vy vz]. f_equal; ring. }
  rewrite EQ in B1. destruct (HF i j k Hi) as (v' & m' & Ev' & Em' & N1 & N2 & M11 & M12 & M21 & M22). fold lo0 hi0 pos p in N1, N2, M11, M12, M21, M22.
  assert (v' = v) by congruence. assert (m' = m) by congruence. subst v' m'.
  assert (Deep : forall b e z (c : Z), b < e -> (0 <= c < z)%Z -> forall d, Rabs d < spacing b e z -> b - spacing b e z / 2 < centre b e z c - d < e + spacing b e z / 2).
  { intros b e z c Hbe Hc d Hd. assert (X1 : spacing b e z * IZR z = e - b) by (unfold spacing; field; apply not_0_IZR; lia).
    assert (SP : 0 < spacing b e z) by (apply spacing_pos; [exact Hbe|lia]).
    assert (C0 : 0 <= IZR c) by (apply IZR_le; lia). assert (C1 : IZR c + 1 <= IZR z) by (rewrite <- plus_IZR; apply IZR_le; lia).
    pose proof (Rmult_le_compat_l _ _ _ (Rlt_le _ _ SP) C0). pose proof (Rmult_le_compat_l _ _ _ (Rlt_le _ _ SP) C1).
    unfold centre. apply Rabs_def2 in Hd. lra. }
  assert (Q : forall w z, Rabs (w - z) <= eta -> forall c, Rabs (c - real dt * w - (c - real dt * z)) <= real dt * eta).
  { intros w z Hwz c. replace (c - real dt * w - (c - real dt * z)) with (real dt * (z - w)) by ring. rewrite Rabs_mult, (Rabs_pos_eq (real dt)), Rabs_minus_sym by exact Hdt. apply Rmult_le_compat_l; assumption. }
  destruct (point_solves n lo0 hi0 (real dt) Hdt D M SD HM F Tp V K lo eta etag u HV HG Hu Hu0 CX CY (vx p) (vy p)
    (real (mget m AX AX)) (real (mget m AX AY)) (real (mget m AY AX)) (real (mget m AY AY)) q
    (Deep _ _ _ i (PB AX eq_refl) (Hi AX)) (Deep _ _ _ j (PB AY eq_refl) (Hi AY)) BQ (Q _ _ N1 _) (Q _ _ N2 _) M11 M12 M21 M22) as (P1 & P2).
  destruct (B2 AX eq_refl) as (FX & BX). destruct (B2 AY eq_refl) as (FY & BY). cbn [vget] in FX, FY.
  split; [exact F1|]. split; [exact FX|]. split; [exact FY|]. split.
  { set (z := D 0%nat 0%nat 0%nat (vx q) (vy q) (vz q)) in *. unfold step_value_error64.
    replace (real phi - u (vx p) (vy p) (lo + real dt)) with ((real phi - z) + (z - u (vx p) (vy p) (lo + real dt))) by ring.
    eapply Rle_trans; [apply Rabs_triang|]. unfold Rdiv in B1 at 1. rewrite !Rmult_0_l, Rplus_0_r in B1. fold lo0 hi0 h in B1. lra. }
  intros CK. destruct (P2 CK) as (ux & uy & Dif & P3). exists ux, uy. split; [exact Dif|].
  destruct (Hs i j k Hi) as (v2 & m2 & E3 & E4 & _ & Sm). assert (m2 = m) by congruence. subst m2.
  assert (WB : forall e a b, (e = 0 \/ e = 1) -> Rabs (e - real dt * real (mget m a b)) <= 2).
  { intros e a b He0. destruct (Sm a b) as (_ & Q2). rewrite Rmult_comm in Q2. apply Rabs_le_between in Q2. apply Rabs_le. destruct He0 as [-> | ->]; lra. }
  assert (MP : forall i j, (i <= 4)%nat -> (j <= 4)%nat -> 0 <= M i j 0%nat) by (intros i' j' Hi' Hj'; eapply Rle_trans; [apply Rabs_pos|apply (HM i' j' 0 _ Hi' Hj' ltac:(lia) BQ)]).
  assert (HX0 : 0 < vx h) by (apply spacing_pos; [apply (PB AX eq_refl)|pose proof (Hi AX) as Q0; cbn [vget ccoord] in Q0; lia]).
  assert (HY0 : 0 < vy h) by (apply spacing_pos; [apply (PB AY eq_refl)|pose proof (Hi AY) as Q0; cbn [vget ccoord] in Q0; lia]).
  assert (EP : forall s, 0 <= error_bound 2 s h M).
  { assert (OP : forall d h z, 0 < h -> 0 <= z -> 0 <= own d h z) by (intros d h' z Hh Hz'; unfold own; destruct d; apply Rmult_le_pos; try exact Hz'; pose proof (pow_lt h' 3 Hh); pose proof (pow_lt h' 4 Hh); lra).
    assert (AP : forall d h a b, 0 < h -> 0 <= a -> 0 <= b -> 0 <= amp d h a b).
    { intros d h' a b Hh Ha Hb0. unfold amp. destruct d.
      - apply Rplus_le_le_0_compat; [apply Rmult_le_pos; [apply Rlt_le, Rdiv_lt_0_compat; lra|exact Ha]|exact Hb0].
      - apply Rplus_le_le_0_compat; [exact Ha|apply Rmult_le_pos; lra]. }
    intros s. unfold error_bound. cbv zeta. apply Rplus_le_le_0_compat; [apply OP; [exact HX0|apply MP; [lia|destruct s as [[]|]; cbn; lia]]|].
    apply AP; [exact HX0|apply OP; [exact HY0|apply MP; lia]|apply OP; [exact HY0|apply MP; lia]]. }
  assert (E0 : 0 <= eps).
  { destruct (He (i, j, k)) as (Q0 & _); [eapply interior_padded; [exact (proj1 Hb)|exact Hi]|]. eapply Rle_trans; [apply Rabs_pos|exact Q0]. }
  pose proof (EP (Some AX)) as PX. pose proof (EP (Some AY)) as PY.
  assert (GX : 0 <= slope_gain 2 * (eps / vx h)) by (apply Rmult_le_pos; [unfold slope_gain; cbn; lra|apply Rmult_le_pos; [exact E0|apply Rlt_le, Rinv_0_lt_compat; exact HX0]]).
  assert (GY : 0 <= slope_gain 2 * (eps / vy h)) by (apply Rmult_le_pos; [unfold slope_gain; cbn; lra|apply Rmult_le_pos; [exact E0|apply Rlt_le, Rinv_0_lt_compat; exact HY0]]).
  assert (Fin : forall psia ua w1 w2, Rabs w1 <= 2 -> Rabs w2 <= 2 ->
     Rabs (psia - (w1 * D 1%nat 0%nat 0%nat (vx q) (vy q) (vz q) + w2 * D 0%nat 1%nat 0%nat (vx q) (vy q) (vz q) + 0)) <=
       Rabs w1 * (error_bound 2 (Some AX) h M + slope_gain 2 * (eps / vx h)) + Rabs w2 * (error_bound 2 (Some AY) h M + slope_gain 2 * (eps / vy h)) + 0 + 8 * round_bound 2 rho * (Mr / hm) ->
     Rabs (w1 * D 1%nat 0%nat 0%nat (vx q) (vy q) (vz q) + w2 * D 0%nat 1%nat 0%nat (vx q) (vy q) (vz q) - ua) <=
       2 * (M 2%nat 0%nat 0%nat + 2 * M 1%nat 1%nat 0%nat + M 0%nat 2%nat 0%nat) * (euler_origin (real dt) V K + real dt * eta) +
       (M 1%nat 0%nat 0%nat + M 0%nat 1%nat 0%nat) * (4 * (V * K ^ 2 * (1 + 2 * V) + 2 * (V * K) ^ 2) * real dt ^ 2) + (M 1%nat 0%nat 0%nat + M 0%nat 1%nat 0%nat) * (real dt * etag) ->
     Rabs (psia - ua) <= step_gradient_error64 h M (real dt) V K eta etag eps Mr rho hm).
  { intros psia ua w1 w2 W1 W2 H1 H2. unfold step_gradient_error64. clear - H1 H2 W1 W2 PX PY GX GY.
    assert (N1 : Rabs w1 * (error_bound 2 (Some AX) h M + slope_gain 2 * (eps / vx h)) <= 2 * (error_bound 2 (Some AX) h M + slope_gain 2 * (eps / vx h))) by (apply Rmult_le_compat_r; lra).
    assert (N2 : Rabs w2 * (error_bound 2 (Some AY) h M + slope_gain 2 * (eps / vy h)) <= 2 * (error_bound 2 (Some AY) h M + slope_gain 2 * (eps / vy h))) by (apply Rmult_le_compat_r; lra).
    set (ee := w1 * D 1%nat 0%nat 0%nat (vx q) (vy q) (vz q) + w2 * D 0%nat 1%nat 0%nat (vx q) (vy q) (vz q)) in *. rewrite Rplus_0_r in H1.
    replace (psia - ua) with ((psia - ee) + (ee - ua)) by ring. eapply Rle_trans; [apply Rabs_triang|]. lra. }
  unfold over_axes in BX, BY. cbn [used Nat.leb axis_eqb first_order vget] in BX, BY. split.
  - eapply Fin; [| |exact BX|]; [apply WB; auto|apply WB; auto|].
    pose proof (P3 1 0 ux (or_introl (conj eq_refl (conj eq_refl eq_refl)))) as S0. cbv zeta in S0. rewrite !Rmult_1_r, !Rmult_0_r, !Rplus_0_r in S0. apply S0; apply WB; auto.
  - eapply Fin; [| |exact BY|]; [apply WB; auto|apply WB; auto|].
    pose proof (P3 0 1 uy (or_intror (conj eq_refl (conj eq_refl eq_refl)))) as S0. cbv zeta in S0. rewrite !Rmult_1_r, !Rmult_0_r, !Rplus_0_l in S0. apply S0; apply WB; auto.
Qed.
End Step.
