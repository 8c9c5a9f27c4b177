(** Grid positions and base nodes in binary64 arithmetic: one axis. *)
From Coq Require Import ZArith List Reals Lra Lia Bool.
From Flocq Require Import Core BinarySingleNaN Plus_error Relative.
From Verif Require Import Base Num NumB64 ModelVec ModelGrid SpecGrid ProofsGridProps ProofsB64 ProofsB64Ops.
Open Scope R_scope.

#[local] Instance fe_valid : Valid_exp fe := fexp_correct 53 1024 prec53.

(** one rounding on top of an error *)
Lemma step_abs z r t b : close z r -> Rabs (r - t) <= b -> Rabs (B2R z - t) <= b + u * (Rabs t + b).
Proof.
  intros (_ & e & He & ->) H. assert (Rr : Rabs r <= Rabs t + b).
  { replace r with (t + (r - t)) by ring. eapply Rle_trans; [apply Rabs_triang|]. lra. }
  replace (r * (1 + e) - t) with ((r - t) + e * r) by ring. eapply Rle_trans; [apply Rabs_triang|]. rewrite Rabs_mult.
  assert (Rabs e * Rabs r <= u * (Rabs t + b)) by (apply Rmult_le_compat; auto using Rabs_pos). lra.
Qed.
Lemma abs_range x a b : a <= x <= b -> Rabs x <= Rmax (Rabs a) (Rabs b).
Proof. intros H. unfold Rmax. destruct (Rle_dec _ _); unfold Rabs in *; repeat destruct Rcase_abs; lra. Qed.

(** multiplication without a lower bound on the result *)
Lemma mul64_abs (x y : b64) : is_finite x = true -> is_finite y = true -> Rabs (B2R x * B2R y) <= bpow radix2 1022 ->
  is_finite (Bmult mode_NE x y) = true /\ Rabs (B2R (Bmult mode_NE x y) - B2R x * B2R y) <= u * Rabs (B2R x * B2R y) + bpow radix2 (-1000).
Proof.
  intros Fx Fy H. set (r := B2R x * B2R y) in *.
  destruct (error_N_FLT radix2 (-1074) 53 eq_refl (fun n => negb (Z.even n)) r) as (e & eta & He & Heta & _ & E).
  change (FLT_exp (-1074) 53) with fe in E.
  assert (He' : Rabs e <= u) by (replace u with (/ 2 * bpow radix2 (-53 + 1)); [exact He|rewrite u_val; change (bpow radix2 (-53 + 1)) with (/ 4503599627370496); lra]).
  assert (Heta' : Rabs eta <= bpow radix2 (-1000)).
  { eapply Rle_trans; [exact Heta|]. apply Rle_trans with (1 * bpow radix2 (-1074)); [apply Rmult_le_compat_r; [apply bpow_ge_0|lra]|].
    rewrite Rmult_1_l. apply bpow_le. lia. }
  assert (D : Rabs (RN r - r) <= u * Rabs r + bpow radix2 (-1000)).
  { rewrite E. replace (r * (1 + e) + eta - r) with (e * r + eta) by ring. eapply Rle_trans; [apply Rabs_triang|]. rewrite Rabs_mult.
    assert (Rabs e * Rabs r <= u * Rabs r) by (apply Rmult_le_compat_r; [apply Rabs_pos|exact He']). lra. }
  assert (B : Rabs (RN r) < bpow radix2 1024).
  { replace (RN r) with (r + (RN r - r)) by ring. eapply Rle_lt_trans; [apply Rabs_triang|].
    assert (P : 0 < bpow radix2 1022) by apply bpow_gt_0. assert (Q : bpow radix2 (-1000) <= bpow radix2 1022) by (apply bpow_le; lia).
    assert (u * Rabs r <= 1 * Rabs r) by (apply Rmult_le_compat_r; [apply Rabs_pos|rewrite u_val; lra]).
    replace (bpow radix2 1024) with (4 * bpow radix2 1022) by (change 4 with (bpow radix2 2); rewrite <- bpow_plus; reflexivity). lra. }
  pose proof (Bmult_correct 53 1024 prec53 emax1024 mode_NE x y) as C. cbn [round_mode] in C. fold r in C.
  rewrite Rlt_bool_true in C by exact B. destruct C as (C1 & C2 & _). rewrite Fx, Fy in C2. split; [exact C2|]. rewrite C1. exact D.
Qed.

Section Axis.
Variables (lo hi : b64) (n : Z) (A : R).
Hypothesis Flo : is_finite lo = true.
Hypothesis Fhi : is_finite hi = true.
Hypothesis Hn : (1 <= n < 2 ^ 31)%Z.
Let L := B2R lo.
Let U := B2R hi.
Let D := (U - L) / IZR n.
Hypothesis LU : L < U.
Hypothesis HA : Rabs L <= A /\ Rabs U <= A /\ A <= bpow radix2 1000.
Hypothesis HD : bpow radix2 (-900) <= D.

Definition dx64 : b64 := ((hi - lo) / nofZ n)%num.
Definition odx64 : b64 := (nofZ 1 / dx64)%num.
Definition lat64 (x : b64) : b64 := ((x - lo) * odx64 - half)%num.

Lemma n_real : 1 <= IZR n /\ IZR n < 2147483648.
Proof. split; [apply IZR_le; lia|apply IZR_lt; lia]. Qed.
Lemma D_pos : 0 < D.
Proof. eapply Rlt_le_trans; [apply bpow_gt_0|exact HD]. Qed.
Lemma H_D : U - L = IZR n * D.
Proof. unfold D. pose proof n_real. field. lra. Qed.
Lemma L_U_A : - A <= L /\ U <= A /\ 0 < A.
Proof. destruct HA as (H1 & H2 & H3). unfold Rabs in *. repeat destruct Rcase_abs; lra. Qed.
Lemma D_A : D <= 2 * A /\ IZR n * D <= 2 * A.
Proof.
  pose proof L_U_A. pose proof n_real. pose proof D_pos. rewrite <- H_D. split; [|lra].
  assert (D <= IZR n * D) by (rewrite <- (Rmult_1_l D) at 1; apply Rmult_le_compat_r; lra). rewrite <- H_D in *. lra.
Qed.
Lemma big : bpow radix2 1000 * 8 <= bpow radix2 1022.
Proof. change 8 with (bpow radix2 3). rewrite <- bpow_plus. apply bpow_le. lia. Qed.
Lemma Fn : is_finite (nofZ n : b64) = true /\ B2R (nofZ n : b64) = IZR n.
Proof. apply int64. lia. Qed.
Lemma F1 : is_finite (nofZ 1 : b64) = true /\ B2R (nofZ 1 : b64) = 1.
Proof. apply int64. lia. Qed.
Lemma Fhalf : is_finite (half : b64) = true /\ B2R (half : b64) = / 2.
Proof. split; [reflexivity|]. unfold half. vm_compute. lra. Qed.

Lemma dx64_ok : is_finite dx64 = true /\ Rabs (B2R dx64 - D) <= 3 * u * D.
Proof.
  destruct Fn as (Fn1 & Fn2). pose proof D_pos as HDp. pose proof L_U_A. pose proof D_A. pose proof big. pose proof n_real as Nr. destruct HA as (_ & _ & HA3).
  assert (S : close (hi - lo)%num (U - L)).
  { apply sub64; auto. fold L U. rewrite Rabs_pos_eq by lra. rewrite H_D. lra. }
  destruct S as (FS & e & He & ES).
  assert (NE : B2R (nofZ n : b64) <> 0) by (rewrite Fn2; lra).
  assert (EQ : B2R (hi - lo)%num / B2R (nofZ n : b64) = D * (1 + e)) by (rewrite ES, Fn2; unfold D; field; lra).
  assert (Ue : - u <= e <= u) by (unfold Rabs in He; destruct Rcase_abs; lra). pose proof u_val as Uv. pose proof u_pos.
  assert (B1 : D * (1 - u) <= D * (1 + e)) by (apply Rmult_le_compat_l; lra).
  assert (B2 : D * (1 + e) <= D * (1 + u)) by (apply Rmult_le_compat_l; lra).
  assert (DU : D * u <= D * / 4) by (apply Rmult_le_compat_l; [lra|rewrite Uv; lra]).
  assert (BIG : bpow radix2 (-1022) <= D / 2).
  { apply Rle_trans with (bpow radix2 (-900) / 2); [|lra]. replace (bpow radix2 (-900) / 2) with (bpow radix2 (-901)); [apply bpow_le; lia|].
    replace (bpow radix2 (-900)) with (bpow radix2 (-901) * 2) by (change 2 with (bpow radix2 1); rewrite <- bpow_plus; reflexivity). field. }
  assert (C : close dx64 (D * (1 + e))).
  { unfold dx64. cbn [ndiv NumB64]. rewrite <- EQ. apply div64; auto.
    - rewrite EQ. rewrite Rabs_pos_eq by lra. lra.
    - right. rewrite EQ, Rabs_pos_eq by lra. lra. }
  split; [apply C|].
  assert (E : Rabs (D * (1 + e) - D) <= u * D).
  { replace (D * (1 + e) - D) with (D * e) by ring. rewrite Rabs_mult, (Rabs_pos_eq D), Rmult_comm by lra. apply Rmult_le_compat_r; lra. }
  eapply Rle_trans; [apply (step_abs _ _ _ _ C E)|]. rewrite (Rabs_pos_eq D) by lra.
  assert (u * (u * D) <= u * D) by (apply Rmult_le_compat_l; [lra|]; rewrite <- (Rmult_1_l D) at 2; apply Rmult_le_compat_r; lra). lra.
Qed.

Lemma dx_range : D * (1 - 3 * u) <= B2R dx64 <= D * (1 + 3 * u) /\ D / 2 <= B2R dx64 <= 2 * D.
Proof.
  destruct dx64_ok as (_ & H). pose proof D_pos. pose proof u_val as Uv. pose proof u_pos.
  assert (u * D <= / 16 * D) by (apply Rmult_le_compat_r; lra).
  unfold Rabs in H. destruct Rcase_abs; lra.
Qed.

Lemma odx64_ok : is_finite odx64 = true /\ Rabs (B2R odx64 - / D) <= 6 * u * / D.
Proof.
  destruct dx64_ok as (Fd & Hd). destruct F1 as (F1a & F1b). destruct dx_range as (R1 & R2). pose proof D_pos as Dp. pose proof D_A. pose proof big. destruct HA as (_ & _ & HA3).
  pose proof u_val as Uv. pose proof u_pos as Up.
  assert (iD : 0 < / D) by (apply Rinv_0_lt_compat; exact Dp).
  set (d := B2R dx64) in *. assert (dp : 0 < d) by lra.
  assert (EQ : B2R (nofZ 1 : b64) / B2R dx64 = / d) by (rewrite F1b; unfold Rdiv; rewrite Rmult_1_l; reflexivity).
  assert (K : Rabs (/ d - / D) <= 4 * u * / D).
  { replace (/ d - / D) with ((D - d) * / D * / d) by (field; lra). rewrite !Rabs_mult, (Rabs_pos_eq (/ D)), (Rabs_pos_eq (/ d)) by (left; try apply Rinv_0_lt_compat; assumption).
    rewrite Rabs_minus_sym in Hd.
    replace (4 * u * / D) with (4 * u * d * / D * / d) by (field; lra).
    apply Rmult_le_compat_r; [left; apply Rinv_0_lt_compat; assumption|]. apply Rmult_le_compat_r; [lra|].
    eapply Rle_trans; [exact Hd|].
    assert (u * (D * (3 * u)) <= u * (D * / 8)) by (apply Rmult_le_compat_l; [lra|]; apply Rmult_le_compat_l; lra).
    assert (u * (D * (1 - 3 * u)) <= u * d) by (apply Rmult_le_compat_l; lra). lra. }
  assert (iU : / D <= bpow radix2 900).
  { rewrite <- (Rinv_inv (bpow radix2 900)). apply Rinv_le; [apply Rinv_0_lt_compat, bpow_gt_0|]. rewrite <- bpow_opp. exact HD. }
  assert (iL : bpow radix2 (-1010) <= / D).
  { replace (bpow radix2 (-1010)) with (/ bpow radix2 1010) by (rewrite <- bpow_opp; reflexivity). apply Rinv_le; [exact Dp|].
    apply Rle_trans with (2 * bpow radix2 1000); [lra|]. change 2 with (bpow radix2 1). rewrite <- bpow_plus. apply bpow_le. lia. }
  assert (uD : 4 * u * / D <= / 2 * / D) by (apply Rmult_le_compat_r; lra).
  assert (ids : / 2 * / D <= / d <= 2 * / D) by (unfold Rabs in K; destruct Rcase_abs; lra).
  assert (C : close odx64 (/ d)).
  { unfold odx64. cbn [ndiv NumB64]. rewrite <- EQ. apply div64; auto.
    - apply Rgt_not_eq. exact dp.
    - rewrite EQ. rewrite Rabs_pos_eq by lra. apply Rle_trans with (2 * bpow radix2 900); [lra|]. change 2 with (bpow radix2 1). rewrite <- bpow_plus. apply bpow_le. lia.
    - right. rewrite EQ, Rabs_pos_eq by lra. apply Rle_trans with (/ 2 * bpow radix2 (-1010)); [|lra].
      change (/ 2) with (bpow radix2 (-1)). rewrite <- bpow_plus. apply bpow_le. lia. }
  split; [apply C|]. eapply Rle_trans; [apply (step_abs _ _ _ _ C K)|]. rewrite (Rabs_pos_eq (/ D)) by lra.
  assert (u * (4 * u * / D) <= u * / D) by (apply Rmult_le_compat_l; [lra|]; rewrite <- (Rmult_1_l (/ D)) at 2; apply Rmult_le_compat_r; lra). lra.
Qed.

(** the computed lattice coordinate *)
Lemma lat64_ok (x : b64) : is_finite x = true -> Rabs (B2R x) <= 4 * A ->
  let t := (B2R x - L) / D in Rabs t <= bpow radix2 40 -> is_finite (lat64 x) = true /\ Rabs (B2R (lat64 x) - (t - / 2)) <= 16 * u * (Rabs t + 1).
Proof.
  intros Fx Hx t Ht. destruct odx64_ok as (Fo & Ho). pose proof D_pos as Dp. pose proof L_U_A. pose proof big. destruct HA as (HA1 & _ & HA3).
  destruct Fhalf as (Fh & Eh). pose proof u_val as Uv. pose proof u_pos as Up.
  assert (iD : 0 < / D) by (apply Rinv_0_lt_compat; exact Dp).
  set (S := B2R x - L) in *.
  assert (HS : Rabs S <= 5 * A).
  { unfold S. eapply Rle_trans; [apply Rabs_triang|]. rewrite Rabs_Ropp. lra. }
  assert (C1 : close (x - lo)%num S) by (apply sub64; auto; fold L; fold S; lra).
  destruct C1 as (F1' & e & He & E1).
  set (o := B2R odx64) in *.
  assert (Et : t = S * / D) by reflexivity.
  assert (At : Rabs t = Rabs S * / D) by (rewrite Et, Rabs_mult, (Rabs_pos_eq (/ D)) by lra; reflexivity).
  pose proof (Rabs_pos t) as Pt. pose proof (Rabs_pos S) as PS.
  (* S(1+e) o against t *)
  assert (P1 : Rabs (S * (1 + e) * o - t) <= 9 * u * Rabs t).
  { replace (S * (1 + e) * o - t) with (S * (1 + e) * (o - / D) + S * e * / D) by (rewrite Et; ring).
    eapply Rle_trans; [apply Rabs_triang|]. rewrite !Rabs_mult, (Rabs_pos_eq (/ D)) by lra.
    assert (B1 : Rabs (1 + e) <= 1 + u) by (eapply Rle_trans; [apply Rabs_triang|]; rewrite Rabs_R1; lra).
    assert (Q1 : Rabs S * Rabs (1 + e) * Rabs (o - / D) <= Rabs S * (1 + u) * (6 * u * / D)).
    { apply Rmult_le_compat; auto using Rabs_pos; [apply Rmult_le_pos; apply Rabs_pos|]. apply Rmult_le_compat_l; auto. }
    assert (Q2 : Rabs S * Rabs e * / D <= Rabs S * u * / D) by (apply Rmult_le_compat_r; [lra|]; apply Rmult_le_compat_l; auto).
    replace (Rabs S * (1 + u) * (6 * u * / D)) with ((1 + u) * (6 * u * Rabs t)) in Q1 by (rewrite At; ring).
    replace (Rabs S * u * / D) with (u * Rabs t) in Q2 by (rewrite At; ring).
    assert (0 <= u * Rabs t) by (apply Rmult_le_pos; lra).
    assert (u * (6 * u * Rabs t) <= / 6 * (6 * u * Rabs t)) by (apply Rmult_le_compat_r; lra). lra. }
  assert (U9 : 9 * u * Rabs t <= 1 * Rabs t) by (apply Rmult_le_compat_r; lra).
  assert (P2 : Rabs (S * (1 + e) * o) <= 2 * Rabs t).
  { replace (S * (1 + e) * o) with (t + (S * (1 + e) * o - t)) by ring. eapply Rle_trans; [apply Rabs_triang|]. lra. }
  assert (B40 : 4 * bpow radix2 40 <= bpow radix2 1022) by (change 4 with (bpow radix2 2); rewrite <- bpow_plus; apply bpow_le; lia).
  destruct (mul64_abs (x - lo)%num odx64 F1' Fo) as (F2 & E2).
  { rewrite E1. fold o. lra. }
  rewrite E1 in E2. fold o in E2.
  assert (Q : bpow radix2 (-1000) <= u) by (apply bpow_le; lia).
  assert (P3 : Rabs (B2R ((x - lo) * odx64)%num - t) <= 11 * u * Rabs t + u).
  { cbn [nmul NumB64] in *. set (z := B2R (Bmult mode_NE _ _)) in *.
    replace (z - t) with ((z - S * (1 + e) * o) + (S * (1 + e) * o - t)) by ring. eapply Rle_trans; [apply Rabs_triang|].
    assert (u * Rabs (S * (1 + e) * o) <= u * (2 * Rabs t)) by (apply Rmult_le_compat_l; lra). lra. }
  assert (P4 : Rabs (B2R ((x - lo) * odx64)%num) <= 3 * Rabs t + 1).
  { set (z := B2R ((x - lo) * odx64)%num) in *. replace z with (t + (z - t)) by ring. eapply Rle_trans; [apply Rabs_triang|].
    assert (11 * u * Rabs t <= 2 * Rabs t) by (apply Rmult_le_compat_r; lra). lra. }
  assert (C : close (lat64 x) (B2R ((x - lo) * odx64)%num - / 2)).
  { unfold lat64. rewrite <- Eh. apply sub64; auto. rewrite Eh. eapply Rle_trans; [apply Rabs_triang|]. rewrite Rabs_Ropp, (Rabs_pos_eq (/ 2)) by lra.
    assert (2 <= bpow radix2 40) by (apply (bpow_le radix2 1 40); lia). lra. }
  split; [apply C|].
  assert (P5 : Rabs (B2R ((x - lo) * odx64)%num - / 2 - (t - / 2)) <= 11 * u * Rabs t + u).
  { replace (B2R ((x - lo) * odx64)%num - / 2 - (t - / 2)) with (B2R ((x - lo) * odx64)%num - t) by ring. exact P3. }
  eapply Rle_trans; [apply (step_abs _ _ _ _ C P5)|].
  assert (P6 : Rabs (t - / 2) <= Rabs t + / 2) by (eapply Rle_trans; [apply Rabs_triang|]; rewrite Rabs_Ropp, (Rabs_pos_eq (/ 2)) by lra; lra).
  assert (P7 : u * (Rabs (t - / 2) + (11 * u * Rabs t + u)) <= u * (3 * Rabs t + 1)).
  { apply Rmult_le_compat_l; [lra|]. assert (11 * u * Rabs t <= 2 * Rabs t) by (apply Rmult_le_compat_r; lra). lra. }
  assert (0 <= u * Rabs t) by (apply Rmult_le_pos; lra). lra.
Qed.

(** any position of the box, extended by three eighths of a cell, has its base node in -1 .. n-1 *)
Lemma base64_box (x : b64) : is_finite x = true -> L - 3 / 8 * D <= B2R x <= U + 3 / 8 * D -> (-1 <= b64_floor (lat64 x) <= n - 1)%Z.
Proof.
  intros Fx Hx. pose proof D_pos as Dp. pose proof L_U_A. pose proof D_A. pose proof n_real as Nr. pose proof u_val as Uv.
  set (t := (B2R x - L) / D).
  assert (Tb : - (3 / 8) <= t <= IZR n + 3 / 8).
  { unfold t. split.
    - apply (Rmult_le_reg_r D); [exact Dp|]. unfold Rdiv. rewrite Rmult_assoc, Rinv_l by lra. lra.
    - apply (Rmult_le_reg_r D); [exact Dp|]. unfold Rdiv. rewrite Rmult_assoc, Rinv_l by lra. pose proof H_D. lra. }
  assert (At : Rabs t <= IZR n + 3 / 8) by (apply Rabs_le; lra).
  assert (N40 : 2147483650 <= bpow radix2 40) by (change (bpow radix2 40) with (IZR (2 ^ 40)); apply IZR_le; lia).
  destruct (lat64_ok x Fx) as (Fq & Eq).
  { apply Rabs_le. lra. }
  { fold t. lra. }
  fold t in Eq.
  assert (SM : 16 * u * (Rabs t + 1) <= / 16).
  { apply Rle_trans with (16 * u * (IZR n + 2)); [apply Rmult_le_compat_l; lra|].
    apply Rle_trans with (16 * u * 2147483650); [apply Rmult_le_compat_l; lra|]. rewrite Uv. lra. }
  set (q := B2R (lat64 x)) in *.
  assert (Eq' : Rabs (q - (t - / 2)) <= / 16) by lra.
  assert (Bq : -1 < q < IZR n) by (unfold Rabs in Eq'; destruct Rcase_abs; lra).
  assert (A53 : Rabs q < bpow radix2 53).
  { apply Rle_lt_trans with (bpow radix2 40); [apply Rabs_le; lra|apply bpow_lt; lia]. }
  rewrite floor64 by (auto; exact A53). fold q. pose proof (Rfloor_spec q) as S.
  split.
  - assert (-2 < Rfloor q)%Z by (apply lt_IZR; cbn; lra). lia.
  - assert (Rfloor q < n)%Z by (apply lt_IZR; lra). lia.
Qed.

(** the position generated for the cell i (padding 1) *)
Definition node64 (i : Z) : b64 := (lo + dx64 * half - dx64 * nofZ 1 + nofZ (i + 1) * dx64)%num.
Lemma node64_ok i : (-1 <= i <= n)%Z -> is_finite (node64 i) = true /\ Rabs (B2R (node64 i) - (L + (IZR i + / 2) * D)) <= 64 * u * A.
Proof.
  intros Hi. destruct dx64_ok as (Fd & Hd). destruct dx_range as (R1 & R2). pose proof D_pos as Dp. pose proof L_U_A as LA. pose proof D_A as DA. pose proof big as BG. destruct HA as (HA1 & HA2 & HA3).
  destruct Fhalf as (Fh & Eh). destruct F1 as (F1a & F1b). pose proof n_real as Nr. pose proof u_val as Uv. pose proof u_pos as Up. pose proof H_D as HDe.
  destruct (int64 (i + 1)) as (Fi & Ei); [lia|]. change (b64_make (i + 1) 0) with (nofZ (i + 1) : b64) in Fi, Ei.
  set (d := B2R dx64) in *. set (v := IZR (i + 1)) in *.
  assert (V : 0 <= v <= IZR n + 1) by (unfold v; rewrite plus_IZR; split; [apply (IZR_le (-1) i) in Hi || (assert (-1 <= IZR i) by (apply IZR_le; lia); lra)|assert (IZR i <= IZR n) by (apply IZR_le; lia); lra]).
  assert (BIG : bpow radix2 (-1022) <= D / 4).
  { apply Rle_trans with (bpow radix2 (-900) / 4); [|lra]. replace (bpow radix2 (-900)) with (bpow radix2 (-902) * 4) by (change 4 with (bpow radix2 2); rewrite <- bpow_plus; reflexivity).
    replace (bpow radix2 (-902) * 4 / 4) with (bpow radix2 (-902)) by field. apply bpow_le. lia. }
  assert (uD : u * D <= / 100 * D) by (apply Rmult_le_compat_r; lra). assert (uD0 : 0 <= u * D) by (apply Rmult_le_pos; lra).
  assert (uA0 : 0 <= u * A) by (apply Rmult_le_pos; lra). assert (uA : u * A <= / 1000 * A) by (apply Rmult_le_compat_r; lra).
  assert (uDA : u * D <= u * (2 * A)) by (apply Rmult_le_compat_l; lra).
  assert (uu : forall r, 0 <= r -> u * (u * r) <= / 100 * (u * r)) by (intros r Hr; apply Rmult_le_compat_r; [apply Rmult_le_pos; lra|lra]).
  (* dx * half *)
  assert (C1 : close (dx64 * half)%num (d * / 2)).
  { rewrite <- Eh. apply mul64; auto; rewrite Eh; fold d.
    - rewrite Rabs_pos_eq by lra. lra.
    - right. rewrite Rabs_pos_eq by lra. lra. }
  assert (E1 : Rabs (B2R (dx64 * half)%num - D / 2) <= 3 * u * D).
  { eapply Rle_trans; [apply (step_abs _ _ (D / 2) (3 / 2 * u * D) C1)|].
    - replace (d * / 2 - D / 2) with ((d - D) * / 2) by field. rewrite Rabs_mult, (Rabs_pos_eq (/ 2)) by lra. lra.
    - rewrite Rabs_pos_eq by lra. pose proof (uu D ltac:(lra)). lra. }
  set (m1 := B2R (dx64 * half)%num) in *.
  assert (M1 : 0 <= m1 <= D) by (unfold Rabs in E1; destruct Rcase_abs; lra).
  (* lo + .. *)
  assert (C2 : close (lo + dx64 * half)%num (L + m1)).
  { apply add64; auto; [apply C1|]. fold L m1. apply Rle_trans with (4 * A); [apply Rabs_le; lra|lra]. }
  assert (E2 : Rabs (B2R (lo + dx64 * half)%num - (L + D / 2)) <= u * A + 5 * u * D).
  { eapply Rle_trans; [apply (step_abs _ _ (L + D / 2) (3 * u * D) C2)|].
    - replace (L + m1 - (L + D / 2)) with (m1 - D / 2) by ring. exact E1.
    - assert (Rabs (L + D / 2) <= A + D / 2) by (apply Rabs_le; lra).
      assert (u * (Rabs (L + D / 2) + 3 * u * D) <= u * (A + D / 2 + 3 * u * D)) by (apply Rmult_le_compat_l; lra). pose proof (uu D ltac:(lra)). lra. }
  set (a1 := B2R (lo + dx64 * half)%num) in *.
  (* dx * 1 *)
  assert (C3 : close (dx64 * nofZ 1)%num (d * 1)).
  { rewrite <- F1b. apply mul64; auto; rewrite F1b; fold d.
    - rewrite Rabs_pos_eq by lra. lra.
    - right. rewrite Rabs_pos_eq by lra. lra. }
  assert (E3 : Rabs (B2R (dx64 * nofZ 1)%num - D) <= 5 * u * D).
  { eapply Rle_trans; [apply (step_abs _ _ D (3 * u * D) C3)|].
    - rewrite Rmult_1_r. exact Hd.
    - rewrite Rabs_pos_eq by lra. pose proof (uu D ltac:(lra)). lra. }
  set (m2 := B2R (dx64 * nofZ 1)%num) in *.
  (* minimum *)
  assert (C4 : close (lo + dx64 * half - dx64 * nofZ 1)%num (a1 - m2)).
  { apply sub64; [apply C2|apply C3|]. fold a1 m2.
    apply Rle_trans with (8 * A); [|lra]. unfold Rabs in E2, E3. apply Rabs_le. repeat destruct Rcase_abs; lra. }
  assert (E4 : Rabs (B2R (lo + dx64 * half - dx64 * nofZ 1)%num - (L - D / 2)) <= 3 * u * A + 12 * u * D).
  { eapply Rle_trans; [apply (step_abs _ _ (L - D / 2) (u * A + 10 * u * D) C4)|].
    - replace (a1 - m2 - (L - D / 2)) with ((a1 - (L + D / 2)) - (m2 - D)) by field. eapply Rle_trans; [apply Rabs_triang|]. rewrite Rabs_Ropp. lra.
    - assert (Rabs (L - D / 2) <= A + D / 2) by (apply Rabs_le; lra).
      assert (u * (Rabs (L - D / 2) + (u * A + 10 * u * D)) <= u * (A + D / 2 + (u * A + 10 * u * D))) by (apply Rmult_le_compat_l; lra).
      pose proof (uu D ltac:(lra)). pose proof (uu A ltac:(lra)). lra. }
  set (mn := B2R (lo + dx64 * half - dx64 * nofZ 1)%num) in *.
  (* (i + 1) * dx *)
  assert (VD : 0 <= v * D <= IZR n * D + D) by (split; [apply Rmult_le_pos; lra|assert (v * D <= (IZR n + 1) * D) by (apply Rmult_le_compat_r; lra); lra]).
  assert (Vd : Rabs (v * d - v * D) <= 3 * u * (v * D)).
  { replace (v * d - v * D) with (v * (d - D)) by ring. rewrite Rabs_mult, (Rabs_pos_eq v) by lra.
    replace (3 * u * (v * D)) with (v * (3 * u * D)) by ring. apply Rmult_le_compat_l; lra. }
  assert (uV : u * (v * D) <= / 100 * (v * D)) by (apply Rmult_le_compat_r; lra).
  assert (C5 : close (nofZ (i + 1) * dx64)%num (v * d)).
  { rewrite <- Ei. apply mul64; auto; rewrite Ei; fold d.
    - apply Rle_trans with (8 * A); [|lra]. unfold Rabs in Vd. apply Rabs_le. destruct Rcase_abs; lra.
    - destruct (Z.eq_dec (i + 1) 0) as [Z0|Z0].
      + left. unfold v. rewrite Z0. ring.
      + right. assert (1 <= v) by (unfold v; apply IZR_le; lia). assert (1 * d <= v * d) by (apply Rmult_le_compat_r; lra). rewrite Rabs_pos_eq by lra. lra. }
  assert (E5 : Rabs (B2R (nofZ (i + 1) * dx64)%num - v * D) <= 5 * u * (v * D)).
  { eapply Rle_trans; [apply (step_abs _ _ (v * D) (3 * u * (v * D)) C5 Vd)|]. rewrite Rabs_pos_eq by lra. assert (0 <= u * (v * D)) by (apply Rmult_le_pos; lra). pose proof (uu (v * D) ltac:(lra)). lra. }
  set (m3 := B2R (nofZ (i + 1) * dx64)%num) in *.
  assert (uVA : u * (v * D) <= u * (4 * A)) by (apply Rmult_le_compat_l; lra).
  assert (C6 : close (node64 i) (mn + m3)).
  { unfold node64. apply add64; [apply C4|apply C5|]. fold mn m3.
    apply Rle_trans with (8 * A); [|lra]. unfold Rabs in E4, E5. apply Rabs_le. repeat destruct Rcase_abs; lra. }
  split; [apply C6|].
  assert (EC : L + (IZR i + / 2) * D = (L - D / 2) + v * D) by (unfold v; rewrite plus_IZR; field). rewrite EC.
  assert (E6 : Rabs (mn + m3 - ((L - D / 2) + v * D)) <= 3 * u * A + 12 * u * D + 5 * u * (v * D)).
  { replace (mn + m3 - ((L - D / 2) + v * D)) with ((mn - (L - D / 2)) + (m3 - v * D)) by ring. eapply Rle_trans; [apply Rabs_triang|]. lra. }
  eapply Rle_trans; [apply (step_abs _ _ _ _ C6 E6)|].
  assert (G : Rabs (L - D / 2 + v * D) <= 5 * A) by (apply Rabs_le; lra).
  assert (u * (Rabs (L - D / 2 + v * D) + (3 * u * A + 12 * u * D + 5 * u * (v * D))) <= u * (6 * A)) by (apply Rmult_le_compat_l; lra).
  lra.
Qed.

(** the base node of a generated position is its own cell or the one below *)
Lemma base64_node i : (0 <= i <= n - 1)%Z -> 512 * u * A <= D -> b64_floor (lat64 (node64 i)) = i \/ b64_floor (lat64 (node64 i)) = (i - 1)%Z.
Proof.
  intros Hi HAD. destruct (node64_ok i) as (Fx & Ex); [lia|]. set (x := node64 i) in *. clearbody x.
  pose proof D_pos as Dp. pose proof L_U_A as LA. pose proof D_A as DA. pose proof n_real as Nr. pose proof u_val as Uv. pose proof u_pos as Up. pose proof H_D as HDe.
  assert (I : 0 <= IZR i <= IZR n - 1) by (split; [apply IZR_le; lia|rewrite <- minus_IZR; apply IZR_le; lia]).
  assert (ID : 0 <= IZR i * D <= IZR n * D - D) by (split; [apply Rmult_le_pos; lra|assert (IZR i * D <= (IZR n - 1) * D) by (apply Rmult_le_compat_r; lra); lra]).
  set (t := (B2R x - L) / D).
  assert (ET : Rabs (t - (IZR i + / 2)) <= / 8).
  { unfold t. replace ((B2R x - L) / D - (IZR i + / 2)) with ((B2R x - (L + (IZR i + / 2) * D)) / D) by (field; lra).
    unfold Rdiv. rewrite Rabs_mult, (Rabs_pos_eq (/ D)) by (left; apply Rinv_0_lt_compat; exact Dp).
    apply (Rmult_le_reg_r D); [exact Dp|]. rewrite Rmult_assoc, Rinv_l by lra. lra. }
  assert (T : - / 8 <= t - (IZR i + / 2) <= / 8) by (unfold Rabs in ET; destruct Rcase_abs; lra).
  assert (At : Rabs t <= IZR n) by (apply Rabs_le; lra).
  assert (N40 : 2147483650 <= bpow radix2 40) by (change (bpow radix2 40) with (IZR (2 ^ 40)); apply IZR_le; lia).
  destruct (lat64_ok x Fx) as (Fq & Eq).
  { unfold Rabs in Ex. apply Rabs_le. destruct Rcase_abs; lra. }
  { fold t. lra. }
  fold t in Eq.
  assert (SM : 16 * u * (Rabs t + 1) <= / 8).
  { apply Rle_trans with (16 * u * (IZR n + 2)); [apply Rmult_le_compat_l; lra|].
    apply Rle_trans with (16 * u * 2147483650); [apply Rmult_le_compat_l; lra|]. rewrite Uv. lra. }
  set (q := B2R (lat64 x)) in *.
  assert (Eq' : Rabs (q - (t - / 2)) <= / 8) by lra.
  assert (Bq : IZR i - / 4 <= q <= IZR i + / 4) by (unfold Rabs in Eq'; destruct Rcase_abs; lra).
  assert (A53 : Rabs q < bpow radix2 53).
  { apply Rle_lt_trans with (bpow radix2 40); [apply Rabs_le; lra|apply bpow_lt; lia]. }
  rewrite floor64 by (auto; exact A53). fold q.
  destruct (Rle_dec (IZR i) q).
  - left. apply Rfloor_unique. lra.
  - right. apply Rfloor_unique. rewrite minus_IZR. lra.
Qed.

(** a position reached from the cell i by at most three quarters of a cell *)
Lemma foot64_ok i (v dt : b64) : (0 <= i <= n - 1)%Z -> 1024 * u * A <= D -> is_finite v = true -> is_finite dt = true ->
  Rabs (B2R v * B2R dt) <= 3 / 4 * D ->
  is_finite (node64 i - v * dt)%num = true /\ L - 3 / 8 * D <= B2R (node64 i - v * dt)%num <= U + 3 / 8 * D.
Proof.
  intros Hi HAD Fv Fdt Hv. destruct (node64_ok i) as (Fx & Ex); [lia|]. set (x := node64 i) in *. clearbody x.
  pose proof D_pos as Dp. pose proof L_U_A as LA. pose proof D_A as DA. pose proof n_real as Nr. pose proof u_val as Uv. pose proof u_pos as Up. pose proof H_D as HDe.
  pose proof big as BG. destruct HA as (_ & _ & HA3).
  assert (I : 0 <= IZR i <= IZR n - 1) by (split; [apply IZR_le; lia|rewrite <- minus_IZR; apply IZR_le; lia]).
  assert (ID : 0 <= IZR i * D <= IZR n * D - D) by (split; [apply Rmult_le_pos; lra|assert (IZR i * D <= (IZR n - 1) * D) by (apply Rmult_le_compat_r; lra); lra]).
  assert (uD : u * D <= / 100 * D) by (apply Rmult_le_compat_r; lra). assert (uD0 : 0 <= u * D) by (apply Rmult_le_pos; lra).
  assert (uA0 : 0 <= u * A) by (apply Rmult_le_pos; lra).
  assert (uA1 : u * A <= / 100 * A) by (apply Rmult_le_compat_r; lra).
  assert (EPS : bpow radix2 (-1000) <= u * D).
  { apply Rle_trans with (u * bpow radix2 (-900)); [|apply Rmult_le_compat_l; lra]. unfold u. rewrite <- bpow_plus. apply bpow_le. lia. }
  destruct (mul64_abs v dt Fv Fdt) as (Fm & Em).
  { lra. }
  change (Bmult mode_NE v dt) with (v * dt)%num in Fm, Em. set (m := B2R (v * dt)%num) in *. set (w := B2R v * B2R dt) in *.
  assert (uw : u * Rabs w <= u * (3 / 4 * D)) by (apply Rmult_le_compat_l; lra).
  assert (Em' : Rabs (m - w) <= 2 * u * D) by lra.
  set (c := L + (IZR i + / 2) * D) in *.
  assert (Ec : c = L + IZR i * D + D / 2) by (unfold c; field). clearbody c.
  set (xr := B2R x) in *.
  assert (W : - (3 / 4 * D) <= w <= 3 / 4 * D) by (unfold Rabs in Hv; destruct Rcase_abs; lra).
  assert (M : - (2 * u * D) <= m - w <= 2 * u * D) by (unfold Rabs in Em'; destruct Rcase_abs; lra).
  assert (X : - (64 * u * A) <= xr - c <= 64 * u * A) by (unfold Rabs in Ex; destruct Rcase_abs; lra).
  assert (C : close (x - v * dt)%num (xr - m)).
  { apply sub64; auto. fold xr m. apply Rle_trans with (8 * A); [apply Rabs_le; lra|lra]. }
  split; [apply C|].
  assert (E : Rabs (B2R (x - v * dt)%num - (c - w)) <= 64 * u * A + 2 * u * D + u * (Rabs (c - w) + (64 * u * A + 2 * u * D))).
  { apply (step_abs _ _ _ _ C). replace (xr - m - (c - w)) with ((xr - c) - (m - w)) by ring. apply Rabs_le. lra. }
  assert (G : u * (Rabs (c - w) + (64 * u * A + 2 * u * D)) <= u * (5 * A)).
  { apply Rmult_le_compat_l; [lra|]. assert (Rabs (c - w) <= 5 / 2 * A) by (apply Rabs_le; lra). lra. }
  assert (E' : Rabs (B2R (x - v * dt)%num - (c - w)) <= / 8 * D) by lra.
  unfold Rabs in E'. destruct Rcase_abs; lra.
Qed.
End Axis.
