(** Operations on multiples of a power of two are exact. *)
From Coq Require Import ZArith List Bool String Lia Reals Lra.
From Flocq Require Import Core BinarySingleNaN.
From Verif Require Import Base Num NumB64 ModelVec ModelGrid ModelRefMath ModelRefMem ModelRef SpecGrid SpecB64 SpecRound SpecRef SpecRefRun SpecRefStep SpecRefStepRound SpecRefDyadic
  ProofsBase ProofsRefUpd ProofsB64 ProofsB64Ops.
Open Scope R_scope.

#[local] Instance fe_valid : Valid_exp fe := fexp_correct 53 1024 prec53.
Definition is_ (x : b64) (e z : Z) : Prop := is_finite x = true /\ real x = IZR z * bpow radix2 e.
Lemma fmt_mult e z : (-500 <= e)%Z -> (Z.abs z < 9007199254740992)%Z -> generic_format radix2 fe (IZR z * bpow radix2 e).
Proof.
  intros H1 H2. change (IZR z * bpow radix2 e) with (F2R (Float radix2 z e)). apply (generic_format_FLT radix2 (-1074) 53).
  exists (Float radix2 z e); [reflexivity|cbn [Fnum]; change (Zaux.radix_val radix2 ^ 53)%Z with 9007199254740992%Z; lia|cbn; lia].
Qed.
Lemma below e z : (e <= 500)%Z -> (Z.abs z < 9007199254740992)%Z -> Rabs (IZR z * bpow radix2 e) < bpow radix2 1024.
Proof.
  intros H1 H2. rewrite Rabs_mult, (Rabs_pos_eq (bpow _ _)) by apply bpow_ge_0. rewrite <- abs_IZR. apply Rlt_le_trans with (bpow radix2 53 * bpow radix2 e).
  - apply Rmult_lt_compat_r; [apply bpow_gt_0|]. change (bpow radix2 53) with (IZR 9007199254740992). apply IZR_lt. exact H2.
  - rewrite <- bpow_plus. apply bpow_le. lia.
Qed.
Definition small_e (e : Z) : Prop := (-500 <= e <= 500)%Z.
Lemma add_is x y e a b : small_e e -> is_ x e a -> is_ y e b -> (Z.abs (a + b) < 9007199254740992)%Z -> is_ (x + y)%num e (a + b).
Proof.
  intros He (Fx & Ex) (Fy & Ey) Hz. unfold small_e in He. unfold real in Ex, Ey. pose proof (Bplus_correct 53 1024 prec53 emax1024 mode_NE x y Fx Fy) as C. cbn [round_mode] in C.
  rewrite Ex, Ey, <- Rmult_plus_distr_r, <- plus_IZR in C. rewrite (RN_id _ (fmt_mult _ _ (proj1 He) Hz)) in C. rewrite lt_bool_true in C by (apply below; lia).
  destruct C as (C1 & C2 & _). split; [exact C2|exact C1].
Qed.
Lemma sub_is x y e a b : small_e e -> is_ x e a -> is_ y e b -> (Z.abs (a - b) < 9007199254740992)%Z -> is_ (x - y)%num e (a - b).
Proof.
  intros He (Fx & Ex) (Fy & Ey) Hz. unfold small_e in He. unfold real in Ex, Ey. pose proof (Bminus_correct 53 1024 prec53 emax1024 mode_NE x y Fx Fy) as C. cbn [round_mode] in C.
  rewrite Ex, Ey, <- Rmult_minus_distr_r, <- minus_IZR in C. rewrite (RN_id _ (fmt_mult _ _ (proj1 He) Hz)) in C. rewrite lt_bool_true in C by (apply below; lia).
  destruct C as (C1 & C2 & _). split; [exact C2|exact C1].
Qed.
Lemma mul_is x y e a b : small_e e -> is_ x e a -> is_ y 0 b -> (Z.abs (a * b) < 9007199254740992)%Z -> is_ (x * y)%num e (a * b).
Proof.
  intros He (Fx & Ex) (Fy & Ey) Hz. unfold small_e in He. unfold real in Ex, Ey. pose proof (Bmult_correct 53 1024 prec53 emax1024 mode_NE x y) as C. cbn [round_mode] in C.
  rewrite Ex, Ey in C. replace (IZR a * bpow radix2 e * (IZR b * bpow radix2 0)) with (IZR (a * b) * bpow radix2 e) in C by (rewrite mult_IZR; change (bpow radix2 0) with 1; ring).
  rewrite (RN_id _ (fmt_mult _ _ (proj1 He) Hz)) in C. rewrite lt_bool_true in C by (apply below; lia).
  destruct C as (C1 & C2 & _). rewrite Fx, Fy in C2. split; [exact C2|exact C1].
Qed.
Lemma div_is x y e k a : small_e (e - k) -> is_ x e a -> real y = bpow radix2 k -> (Z.abs a < 9007199254740992)%Z -> is_ (x / y)%num (e - k) a.
Proof.
  intros He (Fx & Ex) Ey Hz. unfold small_e in He. unfold real in Ex, Ey. assert (Ny : B2R y <> 0) by (rewrite Ey; pose proof (bpow_gt_0 radix2 k); lra).
  pose proof (Bdiv_correct 53 1024 prec53 emax1024 mode_NE x y Ny) as C. cbn [round_mode] in C.
  rewrite Ex, Ey in C. replace (IZR a * bpow radix2 e / bpow radix2 k) with (IZR a * bpow radix2 (e - k)) in C.
  2: { unfold Z.sub. rewrite bpow_plus, bpow_opp. unfold Rdiv. ring. }
  rewrite (RN_id _ (fmt_mult _ _ (proj1 He) Hz)) in C. rewrite lt_bool_true in C by (apply below; lia).
  destruct C as (C1 & C2 & _). rewrite Fx in C2. split; [exact C2|exact C1].
Qed.
Lemma int_is z : (Z.abs z <= 9007199254740992)%Z -> is_ (nofZ z : b64) 0 z.
Proof. intros H. destruct (int64 z) as (F & E). { change (2 ^ 53)%Z with 9007199254740992%Z. exact H. } split; [exact F|]. change (bpow radix2 0) with 1. rewrite Rmult_1_r. exact E. Qed.
Lemma rescale x e k z : (0 <= k)%Z -> is_ x e z -> is_ x (e - k) (z * 2 ^ k).
Proof.
  intros Hk (F & E). split; [exact F|]. rewrite E, mult_IZR. change 2%Z with (Zaux.radix_val radix2) at 1. rewrite IZR_Zpower by exact Hk. rewrite Rmult_assoc, <- bpow_plus. do 2 f_equal. lia.
Qed.
Lemma axis_exact n (lo hi : b64) : dyadic_axis n lo hi -> let d := ((hi - lo) / nofZ (u32 (n - 1)))%num in let h := (real hi - real lo) / IZR (u32 (n - 1)) in
  (3 <= n < 4294967296)%Z /\ real lo < real hi /\ exact_axis n lo hi (even_nodes lo d 2 - even_nodes lo d 1)%num (even_nodes lo d) (even_nodes (real lo) h) h.
Proof.
  intros (p & k & a & b & Hp & Hk & -> & Ha & Hb & Flo & Fhi & Elo & Ehi). cbv zeta.
  assert (K1 : (2 <= 2 ^ k <= 33554432)%Z) by (split; [apply (Z.pow_le_mono_r 2 1 k); lia|apply (Z.pow_le_mono_r 2 k 25); lia]).
  set (N := (2 ^ k)%Z) in *. replace (N + 1 - 1)%Z with N in * by lia. assert (U : u32 N = N) by (apply u32_small; lia). rewrite U. clear U.
  set (d := ((hi - lo) / nofZ N)%num). set (h := (real hi - real lo) / IZR N).
  assert (EN : IZR N = bpow radix2 k) by (unfold N; change 2%Z with (Zaux.radix_val radix2); apply IZR_Zpower; lia).
  assert (Se : small_e (p - k)) by (unfold small_e; lia).
  assert (Rd : is_ (hi - lo)%num p (b - a)) by (apply sub_is; [unfold small_e; lia|split; assumption|split; assumption|lia]).
  assert (Dd : is_ d (p - k) (b - a)).
  { apply div_is; [exact Se|exact Rd| |lia]. rewrite <- EN. destruct (int_is N) as (_ & E); [lia|]. rewrite E. change (bpow radix2 0) with 1. ring. }
  assert (Lo : is_ lo (p - k) (a * N)) by (apply rescale; [lia|split; assumption]).
  assert (Node : forall j, (0 <= j <= N)%Z -> is_ (even_nodes lo d j) (p - k) (a * N + (b - a) * j)).
  { intros j Hj. assert (Q : (0 <= (b - a) * j <= 67108864 * 33554432)%Z) by (split; [apply Z.mul_nonneg_nonneg; lia|apply Z.mul_le_mono_nonneg; lia]).
    assert (Q2 : (Z.abs (a * N) <= 33554432 * 33554432)%Z) by (rewrite Z.abs_mul; apply Z.mul_le_mono_nonneg; lia).
    unfold even_nodes. apply add_is; [exact Se|exact Lo| |lia]. apply mul_is; [exact Se|exact Dd|apply int_is; lia|lia]. }
  assert (Eh : h = IZR (b - a) * bpow radix2 (p - k)).
  { unfold h. rewrite Elo, Ehi, EN, <- Rmult_minus_distr_r, <- minus_IZR. unfold Z.sub at 3. rewrite bpow_plus, bpow_opp. unfold Rdiv. ring. }
  assert (Pos : real lo < real hi). { rewrite Elo, Ehi. apply Rmult_lt_compat_r; [apply bpow_gt_0|]. apply IZR_lt. lia. }
  split; [lia|]. split; [exact Pos|]. split; [exact Flo|]. split; [exact Fhi|]. split.
  { intros j Hj. destruct (Node j ltac:(lia)) as (F & E). split; [exact F|]. rewrite E. unfold even_nodes. cbn [nadd nmul nofZ NumR]. rewrite Eh.
    destruct Lo as (_ & El). rewrite El, plus_IZR, mult_IZR with (n := (b - a)%Z). ring. }
  assert (G : is_ (even_nodes lo d 2 - even_nodes lo d 1)%num (p - k) (a * N + (b - a) * 2 - (a * N + (b - a) * 1))).
  { apply sub_is; [exact Se|apply Node; lia|apply Node; lia|lia]. }
  destruct G as (G1 & G2). split; [exact G1|]. split; [rewrite G2, Eh; do 2 f_equal; lia|]. rewrite Eh. split.
  - apply Rle_trans with (1 * bpow radix2 (p - k)); [rewrite Rmult_1_l; apply bpow_le; lia|]. apply Rmult_le_compat_r; [apply bpow_ge_0|]. apply (IZR_le 1). lia.
  - apply Rle_trans with (bpow radix2 26 * bpow radix2 (p - k)); [|rewrite <- bpow_plus; apply bpow_le; lia]. apply Rmult_le_compat_r; [apply bpow_ge_0|].
    change (bpow radix2 26) with (IZR 67108864). apply IZR_le. lia.
Qed.
Theorem dyadic_exact : forall s : settings b64, dyadic_grid s -> proper (real_settings s) /\ exact_grid s.
Proof.
  intros s (HX & HY). destruct (axis_exact _ _ _ HX) as (X1 & X2 & X3). destruct (axis_exact _ _ _ HY) as (Y1 & Y2 & Y3).
  split; [repeat split; cbn [real_settings s_nx s_ny s_xlim1 s_xlim2 s_ylim1 s_ylim2]; try lia; lra|]. split; [exact X3|exact Y3].
Qed.
(** [-1, 3] by [0, 1/2], 129 by 65 nodes *)
Definition wide : settings b64 := mkSet (b64_make (-1) 0) (b64_make 3 0) 129 (b64_make 0 0) (b64_make 1 (-1)) 65
  (b64_make 1 (-7)) (b64_make 1 0) (b64_make 1 0) 1 1 "SuperConsistent" "RK3".
Lemma wide_dyadic : dyadic_grid wide.
Proof.
  split; [exists 0%Z, 7%Z, (-1)%Z, 3%Z|exists (-1)%Z, 6%Z, 0%Z, 1%Z]; (split; [lia|]; split; [lia|]; split; [reflexivity|]; split; [lia|]; split; [lia|]; split; [reflexivity|]; split; [reflexivity|]);
  split; unfold real; cbn; unfold F2R; cbn; lra.
Qed.
