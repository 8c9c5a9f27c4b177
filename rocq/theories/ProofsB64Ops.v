(** Rounding errors of single binary64 operations. *)
From Coq Require Import ZArith List Reals Lra Lia Bool.
From Flocq Require Import Core BinarySingleNaN Plus_error Relative.
From Verif Require Import Base Num NumB64 ModelVec ModelGrid ProofsGridProps ProofsB64.
Open Scope R_scope.

(** the unit roundoff 2^-53 *)
Definition u : R := bpow radix2 (-53).
Lemma u_val : u = / 9007199254740992.
Proof. reflexivity. Qed.
Lemma u_pos : 0 < u.
Proof. apply bpow_gt_0. Qed.
#[local] Instance fe_valid : Valid_exp fe := fexp_correct 53 1024 prec53.

(** z is the value r with a relative rounding error *)
Definition close (z : b64) (r : R) : Prop := is_finite z = true /\ exists e, Rabs e <= u /\ B2R z = r * (1 + e).

Lemma small_round r e : Rabs e <= u -> Rabs r <= bpow radix2 1022 -> Rabs (r * (1 + e)) < bpow radix2 1024.
Proof.
  intros He Hr. rewrite Rabs_mult. assert (Rabs (1 + e) <= 2).
  { eapply Rle_trans; [apply Rabs_triang|]. rewrite Rabs_R1. rewrite u_val in He. lra. }
  assert (0 < bpow radix2 1022) by apply bpow_gt_0. replace (bpow radix2 1024) with (4 * bpow radix2 1022).
  - eapply Rle_lt_trans; [apply Rmult_le_compat; [apply Rabs_pos|apply Rabs_pos|exact Hr|exact H]|]. lra.
  - change 4 with (bpow radix2 2). rewrite <- bpow_plus. reflexivity.
Qed.
Lemma lt_bool_true x y : x < y -> Rlt_bool x y = true.
Proof. apply Rlt_bool_true. Qed.

Lemma plus_eps (x y : R) : generic_format radix2 fe x -> generic_format radix2 fe y -> exists e, Rabs e <= u /\ RN (x + y) = (x + y) * (1 + e).
Proof.
  intros Fx Fy. destruct (FLT_plus_error_N_ex radix2 (-1074) 53 (fun n => negb (Z.even n)) x y Fx Fy) as (e & He & E).
  exists e. split; [|exact E]. eapply Rle_trans; [exact He|].
  assert (U : u_ro radix2 53 = u) by (unfold u_ro; rewrite u_val; change (bpow radix2 (- (53) + 1)) with (/ 4503599627370496); lra).
  rewrite U. pose proof u_pos. apply (Rmult_le_reg_r (1 + u)); [lra|]. unfold Rdiv. rewrite Rmult_assoc, Rinv_l by lra.
  assert (0 <= u * u) by (apply Rmult_le_pos; lra). lra.
Qed.
Lemma add64 (x y : b64) : is_finite x = true -> is_finite y = true -> Rabs (B2R x + B2R y) <= bpow radix2 1022 -> close (Bplus mode_NE x y) (B2R x + B2R y).
Proof.
  intros Fx Fy H. destruct (plus_eps (B2R x) (B2R y) (fmt_B2R x) (fmt_B2R y)) as (e & He & E).
  pose proof (Bplus_correct 53 1024 prec53 emax1024 mode_NE x y Fx Fy) as C. cbn [round_mode] in C. rewrite E in C.
  rewrite lt_bool_true in C by (apply small_round; assumption). destruct C as (C1 & C2 & _). split; [exact C2|]. exists e. auto.
Qed.
Lemma sub64 (x y : b64) : is_finite x = true -> is_finite y = true -> Rabs (B2R x - B2R y) <= bpow radix2 1022 -> close (Bminus mode_NE x y) (B2R x - B2R y).
Proof.
  intros Fx Fy H. destruct (plus_eps (B2R x) (- B2R y) (fmt_B2R x) (generic_format_opp _ _ _ (fmt_B2R y))) as (e & He & E).
  pose proof (Bminus_correct 53 1024 prec53 emax1024 mode_NE x y Fx Fy) as C. cbn [round_mode] in C. unfold Rminus at 1 in C. rewrite E in C.
  rewrite lt_bool_true in C by (apply small_round; assumption). destruct C as (C1 & C2 & _). split; [exact C2|]. exists e. split; [exact He|].
  rewrite C1. unfold Rminus. exact E.
Qed.
Lemma mult_eps r : r = 0 \/ bpow radix2 (-1022) <= Rabs r -> exists e, Rabs e <= u /\ RN r = r * (1 + e).
Proof.
  intros [->|H].
  - exists 0. rewrite Rabs_R0, RN_0. pose proof u_pos. split; [lra|ring].
  - destruct (relative_error_N_FLT_ex radix2 (-1074) 53 eq_refl (fun n => negb (Z.even n)) r H) as (e & He & E).
    exists e. split; [|exact E]. replace u with (/ 2 * bpow radix2 (-53 + 1)); [exact He|].
    rewrite u_val. change (bpow radix2 (-53 + 1)) with (/ 4503599627370496). lra.
Qed.
Lemma mul64 (x y : b64) : is_finite x = true -> is_finite y = true -> Rabs (B2R x * B2R y) <= bpow radix2 1022 ->
  (B2R x * B2R y = 0 \/ bpow radix2 (-1022) <= Rabs (B2R x * B2R y)) -> close (Bmult mode_NE x y) (B2R x * B2R y).
Proof.
  intros Fx Fy H L. destruct (mult_eps _ L) as (e & He & E).
  pose proof (Bmult_correct 53 1024 prec53 emax1024 mode_NE x y) as C. cbn [round_mode] in C. rewrite E in C.
  rewrite lt_bool_true in C by (apply small_round; assumption). destruct C as (C1 & C2 & _). rewrite Fx, Fy in C2. split; [exact C2|]. exists e. auto.
Qed.
Lemma div64 (x y : b64) : is_finite x = true -> B2R y <> 0 -> Rabs (B2R x / B2R y) <= bpow radix2 1022 ->
  (B2R x / B2R y = 0 \/ bpow radix2 (-1022) <= Rabs (B2R x / B2R y)) -> close (Bdiv mode_NE x y) (B2R x / B2R y).
Proof.
  intros Fx Ny H L. destruct (mult_eps _ L) as (e & He & E).
  pose proof (Bdiv_correct 53 1024 prec53 emax1024 mode_NE x y Ny) as C. cbn [round_mode] in C. rewrite E in C.
  rewrite lt_bool_true in C by (apply small_round; assumption). destruct C as (C1 & C2 & _). rewrite Fx in C2. split; [exact C2|]. exists e. auto.
Qed.

(** integers are exact up to 2^53 *)
Lemma int64 z : (Z.abs z <= 2 ^ 53)%Z -> is_finite (b64_make z 0) = true /\ B2R (b64_make z 0) = IZR z.
Proof.
  intros Hz. pose proof (binary_normalize_correct 53 1024 prec53 emax1024 mode_NE z 0 false) as C. cbv zeta in C. cbn [round_mode] in C.
  assert (EF : F2R (Float radix2 z 0) = IZR z) by (unfold F2R; cbn; ring). rewrite EF in C.
  assert (G : generic_format radix2 fe (IZR z)).
  { rewrite <- EF. apply (generic_format_FLT radix2 (-1074) 53). destruct (Z.eq_dec (Z.abs z) (2 ^ 53)) as [Q|Q].
    - destruct (Zabs_spec z) as [[S1 S2]|[S1 S2]].
      + exists (Float radix2 1 53); [|reflexivity|cbn; lia]. replace z with (2 ^ 53)%Z by lia. unfold F2R. cbn. lra.
      + exists (Float radix2 (-1) 53); [|reflexivity|cbn; lia]. replace z with (- 2 ^ 53)%Z by lia. unfold F2R. cbn. lra.
    - exists (Float radix2 z 0); [reflexivity|cbn [Fnum]; change (Zaux.radix_val radix2) with 2%Z; lia|cbn; lia]. }
  rewrite (RN_id _ G) in C. rewrite Rlt_bool_true in C.
  - destruct C as (C1 & C2 & _). auto.
  - apply Rle_lt_trans with (bpow radix2 53); [|apply bpow_lt; lia]. rewrite <- abs_IZR. change (bpow radix2 53) with (IZR (2 ^ 53)). apply IZR_le. exact Hz.
Qed.

Lemma floor64 (x : b64) : is_finite x = true -> Rabs (B2R x) < bpow radix2 53 -> b64_floor x = Rfloor (B2R x).
Proof.
  intros Fx Hx.
  assert (T : Btrunc x = Ztrunc (B2R x)).
  { apply eq_IZR. rewrite Btrunc_correct by exact emax1024. unfold round, F2R, scaled_mantissa, cexp, FIX_exp. cbn. rewrite Rmult_1_r. rewrite Rmult_1_r. reflexivity. }
  assert (B : (Z.abs (Ztrunc (B2R x)) <= 2 ^ 53)%Z).
  { apply le_IZR. rewrite abs_IZR. change (IZR (2 ^ 53)) with (bpow radix2 53). left. eapply Rle_lt_trans; [|exact Hx].
    unfold Ztrunc. destruct (Rlt_bool_spec (B2R x) 0).
    - rewrite (Rabs_left1 (B2R x)) by lra. rewrite Rabs_left1.
      + pose proof (Zceil_ub (B2R x)). lra.
      + apply (IZR_le _ 0). rewrite <- (Zceil_IZR 0). apply Zceil_le. lra.
    - rewrite (Rabs_pos_eq (B2R x)) by lra. rewrite Rabs_pos_eq.
      + apply Zfloor_lb.
      + apply (IZR_le 0). rewrite <- (Zfloor_IZR 0). apply Zfloor_le. lra. }
  destruct (int64 _ B) as (F1 & E1).
  assert (G : b64_floor x = if Bltb x (b64_make (Btrunc x) 0) then (Btrunc x - 1)%Z else Btrunc x) by (destruct x; try discriminate; reflexivity).
  rewrite G, T, Bltb_correct by assumption. rewrite E1. symmetry. unfold Ztrunc in *. destruct (Rlt_bool_spec (B2R x) 0).
  - destruct (Rlt_bool_spec (B2R x) (IZR (Zceil (B2R x)))).
    + apply Rfloor_unique. rewrite minus_IZR. pose proof (Zceil_ub (B2R x)).
      assert (IZR (Zceil (B2R x)) < B2R x + 1) by (unfold Zceil; rewrite opp_IZR; pose proof (Zfloor_ub (- B2R x)); lra). lra.
    + apply Rfloor_unique. pose proof (Zceil_ub (B2R x)). lra.
  - destruct (Rlt_bool_spec (B2R x) (IZR (Zfloor (B2R x)))).
    + pose proof (Zfloor_lb (B2R x)). lra.
    + apply Rfloor_unique. pose proof (Zfloor_lb (B2R x)). pose proof (Zfloor_ub (B2R x)). lra.
Qed.
