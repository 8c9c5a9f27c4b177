(** Rounding error of one semi-Lagrangian step. *)
From Coq Require Import ZArith List Bool Lia Reals Lra.
From Flocq Require Import Core BinarySingleNaN.
From Verif Require Import Base Num NumB64 ModelVec ModelGrid ModelArray ModelInterp ModelTemporal SpecGrid SpecInterp SpecTemporal SpecB64 SpecRound
  ProofsBase ProofsGrid ProofsArray ProofsGridProps ProofsHermiteCell ProofsInterp ProofsTemporal
  ProofsB64 ProofsB64Ops ProofsB64Grid ProofsB64Interp ProofsRound ProofsRoundHermite ProofsRoundAxis ProofsRoundEval ProofsRoundInterp.
Open Scope R_scope.

Section Axis.
Variables (lo hi : b64) (n : Z) (A : R).
Hypothesis Flo : is_finite lo = true.
Hypothesis Fhi : is_finite hi = true.
Hypothesis Hn : (1 <= n < 2 ^ 31)%Z.
Let L := B2R lo.
Let U := B2R hi.
Let D := (U - L) / IZR n.
Hypothesis LU : L < U.
Hypothesis HA : Rabs L <= A /\ Rabs U <= A /\ A <= bpow radix2 1000.
Hypothesis HD : bpow radix2 (-900) <= D.
Lemma foot64_near i (v dt : b64) : (0 <= i <= n - 1)%Z -> 1024 * u * A <= D -> is_finite v = true -> is_finite dt = true ->
  Rabs (B2R v * B2R dt) <= 3 / 4 * D ->
  Rabs (B2R (node64 lo hi n i - v * dt)%num - (L + (IZR i + / 2) * D - B2R v * B2R dt)) <= 128 * u * A.
Proof.
  intros Hi HAD Fv Fdt Hv. destruct (node64_ok lo hi n A Flo Fhi Hn LU HA HD i) as (Fx & Ex); [lia|]. set (x := node64 lo hi n i) in *. clearbody x.
  pose proof (D_pos lo hi n HD) as Dp. pose proof (L_U_A lo hi A LU HA) as LA. pose proof (D_A lo hi n A Hn LU HA HD) as DA. pose proof (n_real n Hn) as Nr. pose proof u_val as Uv. pose proof u_pos as Up. pose proof (H_D lo hi n Hn) as HDe.
  fold L U in Ex, Dp, LA, DA, HDe. fold D in Ex, Dp, DA, HDe.
  pose proof big as BG. destruct HA as (_ & _ & HA3).
  assert (I : 0 <= IZR i <= IZR n - 1) by (split; [apply IZR_le; lia|rewrite <- minus_IZR; apply IZR_le; lia]).
  assert (ID : 0 <= IZR i * D <= IZR n * D - D) by (split; [apply Rmult_le_pos; lra|assert (IZR i * D <= (IZR n - 1) * D) by (apply Rmult_le_compat_r; lra); lra]).
  assert (uD : u * D <= / 100 * D) by (apply Rmult_le_compat_r; lra). assert (uD0 : 0 <= u * D) by (apply Rmult_le_pos; lra).
  assert (uA0 : 0 <= u * A) by (apply Rmult_le_pos; lra).
  assert (uA1 : u * A <= / 100 * A) by (apply Rmult_le_compat_r; lra).
  assert (EPS : bpow radix2 (-1000) <= u * D).
  { apply Rle_trans with (u * bpow radix2 (-900)); [|apply Rmult_le_compat_l; lra]. unfold u. rewrite <- bpow_plus. apply bpow_le. lia. }
  destruct (mul64_abs v dt Fv Fdt) as (Fm & Em).
  { lra. }
  change (Bmult mode_NE v dt) with (v * dt)%num in Fm, Em. set (m := B2R (v * dt)%num) in *. set (w := B2R v * B2R dt) in *.
  assert (uw : u * Rabs w <= u * (3 / 4 * D)) by (apply Rmult_le_compat_l; lra).
  assert (Em' : Rabs (m - w) <= 2 * u * D) by lra.
  set (c := L + (IZR i + / 2) * D) in *.
  assert (Ec : c = L + IZR i * D + D / 2) by (unfold c; field). clearbody c.
  set (xr := B2R x) in *.
  assert (W : - (3 / 4 * D) <= w <= 3 / 4 * D) by (unfold Rabs in Hv; destruct Rcase_abs; lra).
  assert (M : - (2 * u * D) <= m - w <= 2 * u * D) by (unfold Rabs in Em'; destruct Rcase_abs; lra).
  assert (X : - (64 * u * A) <= xr - c <= 64 * u * A) by (unfold Rabs in Ex; destruct Rcase_abs; lra).
  assert (C : close (x - v * dt)%num (xr - m)).
  { apply sub64; auto. fold xr m. apply Rle_trans with (8 * A); [apply Rabs_le; lra|lra]. }
  assert (E : Rabs (B2R (x - v * dt)%num - (c - w)) <= 64 * u * A + 2 * u * D + u * (Rabs (c - w) + (64 * u * A + 2 * u * D))).
  { apply (step_abs _ _ _ _ C). replace (xr - m - (c - w)) with ((xr - c) - (m - w)) by ring. apply Rabs_le. lra. }
  assert (G : u * (Rabs (c - w) + (64 * u * A + 2 * u * D)) <= u * (5 * A)).
  { apply Rmult_le_compat_l; [lra|]. assert (Rabs (c - w) <= 5 / 2 * A) by (apply Rabs_le; lra). lra. }
  assert (u * D <= u * (2 * A)) by (apply Rmult_le_compat_l; lra). lra.
Qed.
End Axis.

(** ** the gradient *)
Section Grad.
Variable eps : R.
Hypothesis Er : u <= eps <= / 4096.
Let C := calc64 eps Er.
Lemma mdot_get {T} {NT : Num T} (m : mat3 T) v i :
  vget (mdot m v) i = (nofZ 0 + mget m AX i * vx v + mget m AY i * vy v + mget m AZ i * vz v)%num.
Proof. destruct i; reflexivity. Qed.
Lemma mid_get {T} {NT : Num T} (m : mat3 T) s i j :
  mget (msub midentity (mscale m s)) i j = (nofZ (if axis_eqb i j then 1 else 0) - mget m i j * s)%num.
Proof. destruct i, j; reflexivity. Qed.

Lemma entry64 (x dt : b64) d : is_finite x = true -> is_finite dt = true -> Rabs (B2R x * B2R dt) <= 1 -> (d = 0 \/ d = 1)%Z ->
  ap64 eps 1 2 (29 / 8) (nofZ d - x * dt)%num (IZR d - B2R x * B2R dt).
Proof.
  intros Fx Fd H Hd. pose proof u_pos. pose proof u_val.
  assert (B : 1 <= bpow radix2 1022) by (change 1 with (bpow radix2 0); apply bpow_le; lia).
  destruct (mul64_abs x dt Fx Fd) as (Fm & Em); [lra|].
  assert (Hm : ap64 eps 1 1 (3 / 2) (x * dt)%num (B2R x * B2R dt)).
  { split; [apply okS_1|]. split; [lra|]. split; [lra|]. split; [exact Fm|]. split; [lra|]. eapply Rle_trans; [exact Em|].
    assert (u * Rabs (B2R x * B2R dt) <= u * 1) by (apply Rmult_le_compat_l; lra).
    assert (bpow radix2 (-1000) <= / 2 * u) by (unfold u; change (/ 2) with (bpow radix2 (-1)); rewrite <- bpow_plus; apply bpow_le; lia). lra. }
  assert (Hi : ap64 eps 1 1 0 (nofZ d) (IZR d)).
  { apply (c_weak _ C 1 (IZR (Z.abs d)) 0); [apply (c_int _ C); destruct Hd as [-> | ->]; cbn; lia| |lra].
    destruct Hd as [-> | ->]; cbn; rewrite ?Rabs_R0, ?Rabs_R1; lra. }
  apply (c_sub _ C 1 1 1 0 (3 / 2)); auto; try (unfold lim20; lra).
  assert (0 <= IZR d <= 1) by (destruct Hd as [-> | ->]; lra). apply Rabs_le. apply Rabs_le_inv in H. lra.
Qed.

Lemma up_scale S S' B k z r : ap64 eps S B k z r -> okS S' -> S <= S' -> ap64 eps S' B k z r.
Proof.
  intros (H1 & H2 & H3 & H4 & H5 & H6) HS HL. apply okS_pos in H1. pose proof u_pos. split; [exact HS|]. split; [auto|]. split; [auto|]. split; [auto|]. split.
  - eapply Rle_trans; [exact H5|]. apply Rmult_le_compat_l; auto.
  - eapply Rle_trans; [exact H6|]. apply Rmult_le_compat_l; auto. apply Rmult_le_pos; lra.
Qed.

Lemma term64 S B k m mr z r : ap64 eps 1 2 (29 / 8) m mr -> ap64 eps S B k z r -> B <= 512 -> k <= 131072 ->
  ap64 eps S (2 * B) (29 / 8 * B + 2 * k + 29 / 8 * k / 4096 + 2 * B + / 512) (m * z)%num (mr * r).
Proof.
  intros Hm Hz HB Hk. destruct (c_pos _ C _ _ _ _ _ Hz) as (O & B0 & k0 & Rr). destruct (c_pos _ C _ _ _ _ _ Hm) as (_ & _ & _ & Rm).
  rewrite <- (Rmult_1_l S) at 1. apply (c_mul _ C 1 S 2 B (29 / 8) k); auto; try (unfold lim20; lra).
  - rewrite Rmult_1_l. exact O.
  - rewrite Rabs_mult, Rmult_1_l. replace (2 * B * S) with (2 * (B * S)) by ring. apply Rmult_le_compat; try apply Rabs_pos; lra.
Qed.
Lemma sum64 S B1 k1 B2 k2 z1 r1 z2 r2 : ap64 eps S B1 k1 z1 r1 -> ap64 eps S B2 k2 z2 r2 -> B1 + B2 <= lim20 -> k1 <= lim20 -> k2 <= lim20 ->
  ap64 eps S (B1 + B2) (k1 + k2 + (B1 + B2) + / 1024) (z1 + z2)%num (r1 + r2).
Proof.
  intros H1 H2 HB Hk1 Hk2. destruct (c_pos _ C _ _ _ _ _ H1) as (O & B0 & k0 & R1). destruct (c_pos _ C _ _ _ _ _ H2) as (_ & _ & _ & R2).
  apply (c_add _ C S B1 B2 k1 k2); auto; try lra. eapply Rle_trans; [apply Rabs_triang|]. lra.
Qed.

Lemma grad64 dim S (m : mat3 b64) (dt : b64) (v : vec3 b64) (vr : vec3 R) a : (1 <= dim <= 3)%nat -> okS S -> is_finite dt = true ->
  (forall i j, is_finite (mget m i j) = true /\ Rabs (B2R (mget m i j) * B2R dt) <= 1) ->
  (forall b, if used dim b then ap64 eps S 512 (2 * errk dim) (vget v b) (vget vr b) else vget v b = nofZ 0 /\ vget vr b = 0) ->
  ap64 eps S 4096 (16 * errk dim) (vget (mdot (msub midentity (mscale m dt)) v) a)
    (vget (mdot (msub midentity (mscale (mreals m) (B2R dt))) vr) a).
Proof.
  intros Hd OS Fdt Hm Hv. rewrite !mdot_get, !mid_get. cbn [nadd nsub nmul nofZ NumR].
  assert (MG : forall i j, mget (mreals m) i j = B2R (mget m i j)) by (intros [| |] [| |]; reflexivity). rewrite !MG.
  assert (EN : forall i, ap64 eps 1 2 (29 / 8) (nofZ (if axis_eqb i a then 1 else 0) - mget m i a * dt)%num (IZR (if axis_eqb i a then 1 else 0) - B2R (mget m i a) * B2R dt)).
  { intros i. destruct (Hm i a) as (F & B). apply entry64; auto. destruct axis_eqb; auto. }
  set (Bv := fun b => if used dim b then 512 else 0). set (kv := fun b => if used dim b then 2 * errk dim else 0).
  assert (Hv' : forall b, ap64 eps S (Bv b) (kv b) (vget v b) (vget vr b)).
  { intros b. specialize (Hv b). unfold Bv, kv. destruct (used dim b); [exact Hv|]. destruct Hv as (-> & ->). apply (c_zero _ C); auto. }
  assert (LB : forall b, Bv b <= 512 /\ kv b <= 131072).
  { intros b. unfold Bv, kv, errk. destruct (used dim b), dim as [|[|[|]]]; lra. }
  pose proof (fun b => term64 S _ _ _ _ _ _ (EN b) (Hv' b) (proj1 (LB b)) (proj2 (LB b))) as TM.
  pose proof (TM AX) as TX. pose proof (TM AY) as TY. pose proof (TM AZ) as TZ. clear TM. cbn [vget] in TX, TY, TZ.
  assert (Z0 : ap64 eps S 0 0 (nofZ 0) 0) by (apply (c_zero _ C); auto).
  set (cx := (IZR (if axis_eqb AX a then 1 else 0) - B2R (mget m AX a) * B2R dt) * vx vr) in *.
  set (cy := (IZR (if axis_eqb AY a then 1 else 0) - B2R (mget m AY a) * B2R dt) * vy vr) in *.
  set (cz := (IZR (if axis_eqb AZ a then 1 else 0) - B2R (mget m AZ a) * B2R dt) * vz vr) in *.
  clearbody cx cy cz.
  set (tx := ((nofZ (if axis_eqb AX a then 1 else 0) - mget m AX a * dt) * vx v)%num) in *.
  set (ty := ((nofZ (if axis_eqb AY a then 1 else 0) - mget m AY a * dt) * vy v)%num) in *.
  set (tz := ((nofZ (if axis_eqb AZ a then 1 else 0) - mget m AZ a * dt) * vz v)%num) in *.
  clearbody tx ty tz.
  assert (FIN : forall B k z r, ap64 eps S B k z r -> B <= 4096 -> k <= 16 * errk dim -> ap64 eps S 4096 (16 * errk dim) z r).
  { intros B k z r H HB Hk. destruct (c_pos _ C _ _ _ _ _ H) as (O & B0 & k0 & R0). apply (c_weak _ C S B k); auto. eapply Rle_trans; [exact R0|].
    apply Rmult_le_compat_r; [apply okS_pos in O; lra|lra]. }
  assert (D : dim = 1%nat \/ dim = 2%nat \/ dim = 3%nat) by lia.
  unfold Bv, kv, errk in *. destruct D as [D|[D|D]]; rewrite D in *; cbn [used Nat.leb] in TX, TY, TZ.
  all: pose proof (sum64 _ _ _ _ _ _ _ _ _ Z0 TX ltac:(unfold lim20; lra) ltac:(unfold lim20; lra) ltac:(unfold lim20; lra)) as S1.
  all: pose proof (sum64 _ _ _ _ _ _ _ _ _ S1 TY ltac:(unfold lim20; lra) ltac:(unfold lim20; lra) ltac:(unfold lim20; lra)) as S2.
  all: pose proof (sum64 _ _ _ _ _ _ _ _ _ S2 TZ ltac:(unfold lim20; lra) ltac:(unfold lim20; lra) ltac:(unfold lim20; lra)) as S3.
  all: eapply FIN; [exact S3|lra|lra].
Qed.
End Grad.

Lemma bound_ok dim rho : (1 <= dim <= 3)%nat -> 0 <= rho -> 2 * errk dim * epsr rho <= round_bound dim rho.
Proof.
  intros Hd Hr. unfold round_bound, epsr, errk.
  assert (E : u = bpow radix2 (-53)) by reflexivity. rewrite E.
  assert (K : forall c e, c = bpow radix2 e -> (e - 43 <= 4 * Z.of_nat dim - 38)%Z -> 2 * c * (512 * bpow radix2 (-53) * rho) <= bpow radix2 (4 * Z.of_nat dim - 38) * rho).
  { intros c e -> He. replace (2 * bpow radix2 e * (512 * bpow radix2 (-53) * rho)) with (bpow radix2 (e - 43) * rho).
    - apply Rmult_le_compat_r; auto. apply bpow_le. exact He.
    - replace (e - 43)%Z with (1 + e + 9 + -53)%Z by lia. rewrite !bpow_plus. change (bpow radix2 1) with 2. change (bpow radix2 9) with 512. ring. }
  assert (D : dim = 1%nat \/ dim = 2%nat \/ dim = 3%nat) by lia. destruct D as [D|[D|D]]; rewrite D in *.
  - apply (K _ 9%Z); [reflexivity|cbn; lia].
  - apply (K _ 13%Z); [reflexivity|cbn; lia].
  - apply (K _ 16%Z); [reflexivity|cbn; lia].
Qed.

(** ** the step, with data in some cells only *)
Section StepAt.
Variables (ov : ovmode) (dim : nat) (n : vec3 Z) (bmin bmax : vec3 b64) (g : grid b64) (l : levelset b64)
  (gR : grid R) (lR : levelset R) (S : cell -> cell_values) (M rho : R) (good : cell -> Prop).
Hypothesis Hb : built ov dim n 1 bmin bmax g.
Hypothesis HbR : built ov dim n 1 (reals bmin) (reals bmax) gR.
Hypothesis Hl : levelset_on g l.
Hypothesis HlR : levelset_on gR lR.
Hypothesis Hdef : interp_defined ov dim.
Hypothesis Hf : fine_box dim rho n bmin bmax.
Hypothesis HS : forall i j k, padded_cell dim n 1 (i, j, k) -> good (i, j, k) -> stores64_at ov dim g l S i j k.
Hypothesis HSR : stores ov dim n 1 gR lR S.
Hypothesis HM : moderate M.
Let h : vec3 R := hs n (reals bmin) (reals bmax).
Hypothesis Hz : forall c, padded_cell dim n 1 c -> good c -> sized_at dim h M (S c).
Let eps := epsr rho.

Lemma rho_pos : 0 <= rho.
Proof.
  pose proof (eps_rng ov dim n bmin bmax g rho Hb Hf) as E. pose proof u_pos. unfold epsr in E.
  destruct (Rle_or_lt 0 rho); auto. assert (512 * u * rho < 512 * u * 0) by (apply Rmult_lt_compat_l; lra). lra.
Qed.

Variables (lv : ls_velocity b64) (lvR : ls_velocity R) (dt : b64) (hm : R).
Hypothesis Hv : velocity_on g lv.
Hypothesis HvR : velocity_on gR lvR.
Hypothesis HV : same_velocity ov dim n bmin bmax dt g lv gR lvR.
Hypothesis Hhm : moderate hm.
Hypothesis Hmin : forall a, used dim a = true -> hm <= vget h a.

(** a cell whose neighbours are good *)
Definition inside (c : cell) : Prop :=
  forall c', padded_cell dim n 1 c' -> (forall a, used dim a = true -> (Z.abs (ccoord c' a - ccoord c a) <= 1)%Z) -> good c'.

Lemma step_bound_at : exists l' lR', sl_compute ov g dt lv l = Ok l' /\ sl_compute ov gR (real dt) lvR lR = Ok lR' /\
  only_interior ov dim n 1 g l l' /\
  forall i j k, interior_cell n (i, j, k) -> inside (i, j, k) ->
    (exists p pR, aget ov g (ls_phi l') i j k = Ok p /\ aget ov gR (ls_phi lR') i j k = Ok pR /\
       is_finite p = true /\ Rabs (real p - pR) <= round_bound dim rho * M) /\
    (exists s sR, aget ov g (ls_psi l') i j k = Ok s /\ aget ov gR (ls_psi lR') i j k = Ok sR /\
       forall a, used dim a = true -> is_finite (vget s a) = true /\
         Rabs (real (vget s a) - vget sR a) <= 8 * round_bound dim rho * (M / hm)).
Proof.
  pose proof (proj1 (proj1 Hb)) as Hd. pose proof (eps_rng ov dim n bmin bmax g rho Hb Hf) as Er.
  (* the two interpolations of a cell *)
  assert (K : forall i j k x v y w, interior_cell n (i, j, k) -> node ov g i j k = Ok x -> aget ov g (lv_vel lv) i j k = Ok v ->
     node ov gR i j k = Ok y -> aget ov gR (lv_vel lvR) i j k = Ok w ->
     exists f fR, interpolate ov g (vsub x (vscale v dt)) l false = Ok f /\ interpolate ov gR (vsub y (vscale w (real dt))) lR false = Ok fR /\
    (inside (i, j, k) -> ap64 (epsr rho) M 512 (2 * errk dim) (f_phi f) (f_phi fR) /\
    forall a, if used dim a then ap64 (epsr rho) (M * / vget h a) 512 (2 * errk dim) (vget (f_psi f) a) (vget (f_psi fR) a)
      else vget (f_psi f) a = nofZ 0 /\ vget (f_psi fR) a = 0)).
  { intros i j k x v y w Hc Ex Ev Ey Ew.
    destruct (round_interp_at ov dim n bmin bmax g l gR lR S M rho good Hb HbR Hl HlR Hdef Hf HS HSR HM Hz (vsub x (vscale v dt)) (vsub y (vscale w (real dt)))) as (f & fR & If & IfR & KK).
    3: { exists f, fR. split; [exact If|]. split; [exact IfR|]. intros HI. apply KK. clear KK.
      assert (Hp : padded_cell dim n 1 (i, j, k)) by (eapply interior_padded; [apply Hb|exact Hc]).
      destruct (node_position _ _ _ _ _ _ _ _ _ _ HbR Hp) as (y' & Ey' & Vy). assert (y' = y) by congruence. subst y'.
      destruct (HV i j k Hc) as ((v' & w' & Ev' & Ew' & Sl & Vw) & _). assert (v' = v) by congruence. assert (w' = w) by congruence. subst v' w'.
      intros c Hcp HA. apply HI; [exact Hcp|]. intros a Hu. specialize (HA a Hu). destruct (Sl a Hu) as (S1 & S2 & S3).
      destruct (fine_sane dim n bmin bmax rho Hf a Hu) as (_ & _ & LU & _ & _). destruct (proj2 Hf a Hu) as (_ & _ & _ & [D1 _] & _).
      assert (EY : vget (vsub y (vscale w (real dt))) a = vget y a - vget w a * real dt) by (destruct a; reflexivity).
      rewrite EY, Vy, Hu, Vw in HA by auto. unfold lc, lattice_coord in HA. destruct (box_get bmin bmax a) as (E1 & E2). rewrite E1, E2 in HA.
      unfold spacing64, spacing in *. unfold real in *. set (d := (B2R (vget bmax a) - B2R (vget bmin a)) / IZR (vget n a)) in *.
      assert (dp : 0 < d) by (pose proof (bpow_gt_0 radix2 (-200)); lra). set (m := B2R (vget v a) * B2R dt) in *.
      set (ci := ccoord (i, j, k) a) in *. set (cc := ccoord c a) in *. clearbody ci cc.
      set (t := IZR cc - _) in HA. assert (ET : t = IZR cc - IZR ci + m / d) by (unfold t; field; lra). clearbody t. subst t.
      assert (MD : - (3 / 4) <= m / d <= 3 / 4).
      { apply Rabs_le_inv in S3. split; apply (Rmult_le_reg_r d); auto; unfold Rdiv; rewrite Rmult_assoc, Rinv_l by lra; lra. }
      apply Rabs_le_inv in HA. assert (L1 : IZR (cc - ci) < 2) by (rewrite minus_IZR; lra). assert (L2 : -2 < IZR (cc - ci)) by (rewrite minus_IZR; lra).
      apply lt_IZR in L1. apply lt_IZR in L2. lia. }
    all: assert (Hp : padded_cell dim n 1 (i, j, k)) by (eapply interior_padded; [apply Hb|exact Hc]).
    all: rewrite (gen_node _ _ _ _ _ _ _ Hb _ _ _ Hp) in Ex; assert (Ex' : x = pos_at dim n 1 bmin bmax (i, j, k)) by congruence; rewrite Ex'; clear Ex Ex' x.
    all: destruct (HV i j k Hc) as ((v' & w' & Ev' & Ew' & Sl & Vw) & _); assert (v' = v) by congruence; assert (w' = w) by congruence; subst v' w'.
    all: intros a Hu; destruct (fine_sane dim n bmin bmax rho Hf a Hu) as (F1' & F2' & LU & HA & HD); destruct (Sl a Hu) as (S1 & S2 & S3); specialize (Hc a).
    all: destruct (reach_ok (vget bmin a) (vget bmax a)) as (RA1 & RA2).
    all: assert (HAD : 1024 * u * reach (vget bmin a) (vget bmax a) <= spacing64 (vget bmin a) (vget bmax a) (vget n a)).
    1, 3: apply resolved_u; destruct (proj2 Hf a Hu) as (_ & _ & _ & [D1 _] & HR); eapply Rle_trans; [exact HR|]; apply Rmult_le_compat_r;
        [pose proof (bpow_gt_0 radix2 (-200)); lra|]; eapply Rle_trans; [apply Hf|]; apply bpow_le; lia.
    all: assert (E : vget (vsub (pos_at dim n 1 bmin bmax (i, j, k)) (vscale v dt)) a =
      (node64 (vget bmin a) (vget bmax a) (vget n a) (ccoord (i, j, k) a) - vget v a * dt)%num)
      by (rewrite <- (pos64 dim n bmin bmax (i, j, k) a) by auto; destruct a; reflexivity).
    all: rewrite E.
    - intros hh. apply (foot64_ok (vget bmin a) (vget bmax a) (vget n a) (reach (vget bmin a) (vget bmax a))); auto.
      + apply (n64 _ _ _ _ _ _ _ Hb a Hu).
      + lia.
    - replace (bpow radix2 (-46)) with (128 * u) by (unfold u; change 128 with (bpow radix2 7); rewrite <- bpow_plus; reflexivity).
      destruct (node_position _ _ _ _ _ _ _ _ _ _ HbR Hp) as (y' & Ey' & Vy). assert (y' = y) by congruence. subst y'.
      assert (EY : vget (vsub y (vscale w (real dt))) a = vget y a - vget w a * real dt) by (destruct a; reflexivity).
      rewrite EY, Vy, Hu, Vw by auto. destruct (box_get bmin bmax a) as (-> & ->).
      replace (IZR (ccoord (i, j, k) a) + 1 - / 2) with (IZR (ccoord (i, j, k) a) + / 2) by field.
      apply (foot64_near (vget bmin a) (vget bmax a) (vget n a) (reach (vget bmin a) (vget bmax a))); auto.
      + apply (n64 _ _ _ _ _ _ _ Hb a Hu).
      + lia. }
  set (val := fun c : cell => match c with (i, j, k) =>
    match node ov g i j k with Ok x => match aget ov g (lv_vel lv) i j k with Ok v =>
      match interpolate ov g (vsub x (vscale v dt)) l false with Ok f => f | _ => mkFields (nofZ 0) vzero end | _ => mkFields (nofZ 0) vzero end | _ => mkFields (nofZ 0) vzero end end).
  set (valR := fun c : cell => match c with (i, j, k) =>
    match node ov gR i j k with Ok x => match aget ov gR (lv_vel lvR) i j k with Ok v =>
      match interpolate ov gR (vsub x (vscale v (real dt))) lR false with Ok f => f | _ => mkFields (nofZ 0) vzero end | _ => mkFields (nofZ 0) vzero end | _ => mkFields (nofZ 0) vzero end end).
  assert (G : forall i j k, interior_cell n (i, j, k) -> exists x y v w, node ov g i j k = Ok x /\ node ov gR i j k = Ok y /\
     aget ov g (lv_vel lv) i j k = Ok v /\ aget ov gR (lv_vel lvR) i j k = Ok w).
  { intros i j k Hc. destruct (HV i j k Hc) as ((v' & w' & Ev' & Ew' & _) & _).
    assert (Hp : padded_cell dim n 1 (i, j, k)) by (eapply interior_padded; [apply Hb|exact Hc]).
    destruct (node_position _ _ _ _ _ _ _ _ _ _ HbR Hp) as (y & Ey & _).
    exists (pos_at dim n 1 bmin bmax (i, j, k)), y, v', w'. rewrite (gen_node _ _ _ _ _ _ _ Hb _ _ _ Hp). auto. }
  destruct (sl_done_api ov dim n 1 bmin bmax g dt lv l val Hb Hl Hv) as (l' & El & OI & Vl).
  { intros i j k x v Hc Ex Ev. destruct (G i j k Hc) as (x' & y & v' & w & _ & Ey & _ & Ew). unfold val. rewrite Ex, Ev.
    destruct (K i j k x v y w Hc Ex Ev Ey Ew) as (f & fR & -> & _). reflexivity. }
  destruct (sl_done_api ov dim n 1 (reals bmin) (reals bmax) gR (real dt) lvR lR valR HbR HlR HvR) as (lR' & ElR & _ & VlR).
  { intros i j k y w Hc Ey Ew. destruct (G i j k Hc) as (x & y' & v & w' & Ex & _ & Ev & _). unfold valR. rewrite Ey, Ew.
    destruct (K i j k x v y w Hc Ex Ev Ey Ew) as (f & fR & _ & -> & _). reflexivity. }
  exists l', lR'. split; [exact El|]. split; [exact ElR|]. split; [exact OI|]. intros i j k Hc HI.
  destruct (Vl i j k Hc) as (m & Em & P1 & P2). destruct (VlR i j k Hc) as (mR & EmR & P1R & P2R).
  destruct (G i j k Hc) as (x & y & v & w & Ex & Ey & Ev & Ew). destruct (K i j k x v y w Hc Ex Ev Ey Ew) as (f & fR & If & IfR & AB). destruct (AB HI) as (A & B).
  assert (Vf : val (i, j, k) = f) by (unfold val; rewrite Ex, Ev, If; reflexivity). assert (VfR : valR (i, j, k) = fR) by (unfold valR; rewrite Ey, Ew, IfR; reflexivity).
  rewrite Vf in *. rewrite VfR in *. destruct (HV i j k Hc) as ((v' & w' & Ev' & _ & Sl & _) & (m' & Em' & EmR' & Hm)).
  assert (m' = m) by congruence. subst m'. assert (mR = mreals m) by congruence. subst mR.
  assert (Fdt : is_finite dt = true) by (apply (Sl AX eq_refl)).
  pose proof (bound_ok dim rho Hd rho_pos) as BD. split.
  - exists (f_phi f), (f_phi fR). split; [exact P1|]. split; [exact P1R|]. destruct A as (O & _ & _ & F & _ & A). split; [exact F|].
    eapply Rle_trans; [exact A|]. apply Rmult_le_compat_r; [apply okS_pos in O; lra|exact BD].
  - eexists _, _. split; [exact P2|]. split; [exact P2R|]. intros a Hu.
    pose proof HM as HM'. change (moderate M) with (rng 200 M) in HM'. pose proof Hhm as Hhm'. change (moderate hm) with (rng 200 hm) in Hhm'.
    assert (OS : okS (M * / hm)) by scales.
    assert (hp : 0 < hm) by (destruct Hhm as [Hh' _]; pose proof (bpow_gt_0 radix2 (-200)); lra).
    assert (Mp : 0 < M) by (destruct HM as [Hh' _]; pose proof (bpow_gt_0 radix2 (-200)); lra).
    destruct (grad64 (epsr rho) Er dim (M * / hm) m dt (f_psi f) (f_psi fR) a Hd OS Fdt Hm) as (_ & _ & _ & F & _ & Q).
    { intros b. specialize (B b). destruct (used dim b) eqn:Hub; [|exact B]. eapply up_scale; [exact Er|exact B|exact OS|].
      apply Rmult_le_compat_l; [lra|]. apply Rinv_le; [exact hp|]. apply Hmin. exact Hub. }
    split; [exact F|]. eapply Rle_trans; [exact Q|]. apply Rmult_le_compat_r; [apply okS_pos in OS; lra|]. lra.
Qed.
End StepAt.

(** ** the step *)
Section Step.
Variables (ov : ovmode) (dim : nat) (n : vec3 Z) (bmin bmax : vec3 b64) (g : grid b64) (l : levelset b64)
  (gR : grid R) (lR : levelset R) (S : cell -> cell_values) (M rho : R).
Hypothesis Hb : built ov dim n 1 bmin bmax g.
Hypothesis HbR : built ov dim n 1 (reals bmin) (reals bmax) gR.
Hypothesis Hl : levelset_on g l.
Hypothesis HlR : levelset_on gR lR.
Hypothesis Hdef : interp_defined ov dim.
Hypothesis Hf : fine_box dim rho n bmin bmax.
Hypothesis HS : stores64 ov dim n 1 g l S.
Hypothesis HSR : stores ov dim n 1 gR lR S.
Hypothesis HM : moderate M.
Let h : vec3 R := hs n (reals bmin) (reals bmax).
Hypothesis Hz : sized dim n 1 h M S.

Lemma interp_bound x xR : near_box dim n bmin bmax x -> near_point dim bmin bmax x xR ->
  exists f fR, interpolate ov g x l false = Ok f /\ interpolate ov gR xR lR false = Ok fR /\
    is_finite (f_phi f) = true /\ Rabs (real (f_phi f) - f_phi fR) <= round_bound dim rho * M /\
    forall a, used dim a = true -> is_finite (vget (f_psi f) a) = true /\
      Rabs (real (vget (f_psi f) a) - vget (f_psi fR) a) <= round_bound dim rho * (M / vget h a).
Proof.
  intros Hx Hy. destruct (round_interp ov dim n bmin bmax g l gR lR S M rho Hb HbR Hl HlR Hdef Hf HS HSR HM Hz x xR Hx Hy) as (f & fR & E & ER & P & Q).
  exists f, fR. split; [exact E|]. split; [exact ER|].
  pose proof (bound_ok dim rho (proj1 (proj1 Hb)) (rho_pos ov dim n bmin bmax g rho Hb Hf)) as BD.
  assert (K : forall Sc z r, ap64 (epsr rho) Sc 512 (2 * errk dim) z r -> is_finite z = true /\ Rabs (real z - r) <= round_bound dim rho * Sc).
  { intros Sc z r (O & _ & _ & F & _ & B). split; [exact F|]. eapply Rle_trans; [exact B|]. apply Rmult_le_compat_r; [apply okS_pos in O; lra|exact BD]. }
  destruct (K _ _ _ P) as (K1 & K2). split; [exact K1|]. split; [exact K2|]. intros a Hu. specialize (Q a). rewrite Hu in Q. apply K. exact Q.
Qed.

Variables (lv : ls_velocity b64) (lvR : ls_velocity R) (dt : b64) (hm : R).
Hypothesis Hv : velocity_on g lv.
Hypothesis HvR : velocity_on gR lvR.
Hypothesis HV : same_velocity ov dim n bmin bmax dt g lv gR lvR.
Hypothesis Hhm : moderate hm.
Hypothesis Hmin : forall a, used dim a = true -> hm <= vget h a.

Lemma step_bound : exists l' lR', sl_compute ov g dt lv l = Ok l' /\ sl_compute ov gR (real dt) lvR lR = Ok lR' /\
  forall i j k, interior_cell n (i, j, k) ->
    (exists p pR, aget ov g (ls_phi l') i j k = Ok p /\ aget ov gR (ls_phi lR') i j k = Ok pR /\
       is_finite p = true /\ Rabs (real p - pR) <= round_bound dim rho * M) /\
    (exists s sR, aget ov g (ls_psi l') i j k = Ok s /\ aget ov gR (ls_psi lR') i j k = Ok sR /\
       forall a, used dim a = true -> is_finite (vget s a) = true /\
         Rabs (real (vget s a) - vget sR a) <= 8 * round_bound dim rho * (M / hm)).
Proof.
  destruct (step_bound_at ov dim n bmin bmax g l gR lR S M rho (fun _ => True) Hb HbR Hl HlR Hdef Hf (fun i j k Hp _ => HS i j k Hp) HSR HM (fun c Hp _ => Hz c Hp) lv lvR dt hm Hv HvR HV Hhm Hmin)
    as (l' & lR' & E & ER & _ & K). exists l', lR'. split; [exact E|]. split; [exact ER|]. intros i j k Hi. apply (K i j k Hi). intros c _ _. exact I.
Qed.
End Step.
