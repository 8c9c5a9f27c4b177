(** Rounding errors of the gradient schemes. *)
From Coq Require Import ZArith List Bool Lia Reals Lra.
From Flocq Require Import Core BinarySingleNaN.
From Verif Require Import Base Num NumB64 ModelVec ModelGrid ModelArray ModelGradient SpecGrid SpecInterp SpecB64 SpecRound SpecGradient SpecRoundGrad
  ProofsBase ProofsGrid ProofsArray ProofsGridProps ProofsGradient ProofsB64 ProofsB64Ops ProofsB64Grid ProofsB64Interp ProofsRound ProofsTaylor.
Import ListNotations.
Open Scope R_scope.

Lemma u_eps : u <= u <= / 4096.
Proof. pose proof u_pos. rewrite u_val in *. lra. Qed.
Notation ap := (ap64 u).
Notation C := (calc64 u u_eps).

Lemma ap_exact S B z r : okS S -> 0 <= B -> is_real z r -> Rabs r <= B * S -> ap S B 0 z r.
Proof.
  intros HS HB (F & E) H. split; [exact HS|]. split; [exact HB|]. split; [lra|]. split; [exact F|]. split; [exact H|].
  unfold real in E. rewrite E, Rminus_diag_eq by reflexivity. rewrite Rabs_R0. lra.
Qed.
Lemma ap_int z : (Z.abs z <= 1000)%Z -> ap 1 (IZR (Z.abs z)) 0 (nofZ z) (IZR z).
Proof.
  intros Hz. destruct (int64 z) as (F & E). { change (2 ^ 53)%Z with 9007199254740992%Z. lia. }
  apply ap_exact; [apply okS_1|apply IZR_le; lia|split; [exact F|exact E]|]. rewrite abs_IZR. lra.
Qed.

Section Axis.
Variables (lo hi : b64) (n : Z) (rho : R).
Hypothesis Hn : (1 <= n < 2 ^ 31)%Z.
Hypothesis Hf : fine_axis rho lo hi n.
Hypothesis Hrho : rho <= bpow radix2 30.
Variable M : R.
Hypothesis HM : moderate M.
Let h := spacing64 lo hi n.

Lemma h_mod : moderate h.
Proof. apply Hf. Qed.
Lemma pow_pos e : 0 < bpow radix2 e.
Proof. apply bpow_gt_0. Qed.
Lemma mod_inv r : moderate r -> bpow radix2 (-200) <= / r <= bpow radix2 200.
Proof.
  intros [H1 H2]. pose proof (pow_pos (-200)) as P. split.
  - change (-200)%Z with (- (200))%Z. rewrite bpow_opp. apply Rinv_le; [lra|exact H2].
  - replace (bpow radix2 200) with (/ bpow radix2 (-200)) by (rewrite <- bpow_opp; reflexivity). apply Rinv_le; [exact P|exact H1].
Qed.
Lemma ok_mod r : bpow radix2 (-200) <= r <= bpow radix2 200 -> okS r.
Proof. intros [H1 H2]. split; [eapply Rle_trans; [|exact H1]|eapply Rle_trans; [exact H2|]]; apply bpow_le; lia. Qed.
Lemma ok_quot : okS (M * / h).
Proof.
  pose proof (mod_inv h h_mod) as [H1 H2]. destruct HM as [M1 M2]. pose proof (pow_pos (-200)). split.
  - apply Rle_trans with (bpow radix2 (-200) * bpow radix2 (-200)); [rewrite <- bpow_plus; apply bpow_le; lia|]. apply Rmult_le_compat; lra.
  - apply Rle_trans with (bpow radix2 200 * bpow radix2 200); [|rewrite <- bpow_plus; apply bpow_le; lia]. apply Rmult_le_compat; lra.
Qed.
Lemma h_pos' : 0 < h.
Proof. pose proof h_mod as [H _]. pose proof (pow_pos (-200)). lra. Qed.
Lemma axis_dx : is_finite (dx64 lo hi n) = true /\ Rabs (B2R (dx64 lo hi n) - h) <= 3 * u * h.
Proof.
  destruct Hf as (F1 & F2 & LU & [D1 D2] & HR). destruct (reach_ok lo hi) as (A1 & A2). fold h in D1, D2, HR.
  apply (dx64_ok lo hi n (reach lo hi)); auto.
  - split; [exact A1|]. split; [exact A2|]. eapply Rle_trans; [exact HR|]. pose proof h_pos'.
    apply Rle_trans with (bpow radix2 30 * bpow radix2 200); [|rewrite <- bpow_plus; apply bpow_le; lia].
    apply Rle_trans with (bpow radix2 30 * h); [apply Rmult_le_compat_r; lra|apply Rmult_le_compat_l; [apply bpow_ge_0|exact D2]].
  - eapply Rle_trans; [|exact D1]. apply bpow_le. lia.
Qed.
Lemma dx_ap0 : ap h 1 3 (dx64 lo hi n) h.
Proof.
  destruct axis_dx as (F & E). pose proof h_pos'. split; [apply ok_mod, h_mod|]. split; [lra|]. split; [lra|]. split; [exact F|]. split; [rewrite Rabs_pos_eq; lra|exact E].
Qed.
(** 1 / d for a double d near a moderate r *)
Lemma inv_ap r B k (d : b64) : bpow radix2 (-300) <= r <= bpow radix2 300 -> ap r B k d r -> k <= 100 -> ap (/ r) 1 (k + 2) (nofZ 1 / d)%num (/ r).
Proof.
  intros [Hr1 Hr2] (_ & _ & K0 & Fd & _ & E) Hk. pose proof (pow_pos (-300)) as P3. assert (Rp : 0 < r) by lra. pose proof u_pos as Up. pose proof u_val as Uv.
  destruct (int64 1) as (F1 & E1); [cbn; lia|]. set (x := B2R d) in *.
  assert (Ku : 0 <= k * u <= / 1024) by (split; [apply Rmult_le_pos; lra|]; apply Rle_trans with (100 * u); [apply Rmult_le_compat_r; lra|rewrite Uv; lra]).
  assert (Kr : 0 <= k * u * r <= / 1024 * r) by (split; [apply Rmult_le_pos; lra|apply Rmult_le_compat_r; lra]).
  assert (X : r * (1023 / 1024) <= x <= r * (1025 / 1024)) by (unfold Rabs in E; destruct Rcase_abs; lra).
  assert (Xp : 0 < x) by lra.
  assert (I : / r * (1024 / 1025) <= / x <= / r * (1024 / 1023)).
  { split.
    - replace (/ r * (1024 / 1025)) with (/ (r * (1025 / 1024))) by (field; lra). apply Rinv_le; lra.
    - replace (/ r * (1024 / 1023)) with (/ (r * (1023 / 1024))) by (field; lra). apply Rinv_le; lra. }
  assert (Ri : bpow radix2 (-300) <= / r <= bpow radix2 300).
  { split.
    - change (-300)%Z with (- (300))%Z. rewrite bpow_opp. apply Rinv_le; lra.
    - replace (bpow radix2 300) with (/ bpow radix2 (-300)) by (rewrite <- bpow_opp; reflexivity). apply Rinv_le; lra. }
  assert (okr : okS (/ r)) by (split; [eapply Rle_trans; [|exact (proj1 Ri)]|eapply Rle_trans; [exact (proj2 Ri)|]]; apply bpow_le; lia).
  assert (EQ : B2R (b64_make 1 0) / B2R d = / x) by (rewrite E1; fold x; unfold Rdiv; rewrite Rmult_1_l; reflexivity).
  destruct (div64 (b64_make 1 0) d F1) as (F & e & He & V).
  { fold x. lra. }
  { rewrite EQ, Rabs_pos_eq by lra. apply Rle_trans with (2 * bpow radix2 300); [lra|]. change 2 with (bpow radix2 1). rewrite <- bpow_plus. apply bpow_le. lia. }
  { right. rewrite EQ, Rabs_pos_eq by lra. apply Rle_trans with (bpow radix2 (-1) * bpow radix2 (-300)); [rewrite <- bpow_plus; apply bpow_le; lia|]. change (bpow radix2 (-1)) with (/ 2). lra. }
  rewrite EQ in V.
  assert (D : Rabs (/ x - / r) <= (k + / 2) * u * / r).
  { replace (/ x - / r) with ((r - x) * / r * / x) by (field; lra). rewrite !Rabs_mult, (Rabs_pos_eq (/ r)), (Rabs_pos_eq (/ x)) by lra.
    rewrite Rabs_minus_sym in E. apply Rle_trans with (k * u * r * / r * (/ r * (1024 / 1023))).
    - apply Rmult_le_compat; [|lra| |lra]. { apply Rmult_le_pos; [apply Rabs_pos|lra]. } apply Rmult_le_compat_r; lra.
    - replace (k * u * r * / r * (/ r * (1024 / 1023))) with (k * (1024 / 1023) * u * / r) by (field; lra).
      apply Rmult_le_compat_r; [lra|]. apply Rmult_le_compat_r; [lra|]. lra. }
  split; [exact okr|]. split; [lra|]. split; [lra|]. split; [exact F|]. split; [rewrite Rabs_pos_eq; lra|].
  change (nofZ 1 / d)%num with (Bdiv mode_NE (b64_make 1 0) d). rewrite V.
  replace (/ x * (1 + e) - / r) with ((/ x - / r) + e * / x) by ring. eapply Rle_trans; [apply Rabs_triang|]. rewrite Rabs_mult, (Rabs_pos_eq (/ x)) by lra.
  assert (Rabs e * / x <= u * (/ r * (1024 / 1023))) by (apply Rmult_le_compat; [apply Rabs_pos|lra|exact He|lra]).
  assert (0 < u * / r) by (apply Rmult_lt_0_compat; lra). lra.
Qed.
Lemma odx_ap0 : ap (/ h) 1 5 (nofZ 1 / dx64 lo hi n)%num (/ h).
Proof.
  replace 5 with (3 + 2) by ring. apply (inv_ap h 1); [|apply dx_ap0|lra].
  pose proof h_mod as [H1 H2]. split; [eapply Rle_trans; [|exact H1]|eapply Rle_trans; [exact H2|]]; apply bpow_le; lia.
Qed.

Lemma abs2 x y : Rabs x <= M -> Rabs y <= M -> Rabs (x - y) <= 2 * M.
Proof. intros H1 H2. unfold Rabs in *. repeat destruct Rcase_abs; lra. Qed.
Lemma M_pos : 0 < M.
Proof. destruct HM as [H _]. pose proof (pow_pos (-200)). lra. Qed.

Lemma soc_round p m rp rm : is_real p rp -> is_real m rm -> Rabs rp <= M -> Rabs rm <= M ->
  is_finite (soc_formula p m (dx64 lo hi n)) = true /\
  Rabs (real (soc_formula p m (dx64 lo hi n)) - (rp - rm) / (2 * h)) <= bpow radix2 (-49) * (M / h).
Proof.
  intros Ap Am Bp Bm. pose proof M_pos as Mp. pose proof h_pos' as hp. assert (okM : okS M) by (apply ok_mod; exact HM). pose proof ok_quot as okQ.
  assert (ih : 0 < / h) by (apply Rinv_0_lt_compat; exact hp).
  pose proof (ap_exact M 1 p rp okM Rle_0_1 Ap ltac:(lra)) as P. pose proof (ap_exact M 1 m rm okM Rle_0_1 Am ltac:(lra)) as Q.
  pose proof (abs2 rp rm Bp Bm) as B2.
  assert (D : ap M 2 (2 + / 512) (p - m)%num (rp - rm)) by (apply (c_sub _ C M 1 1 0 0 2 (2 + / 512) _ _ _ _ P Q B2); unfold lim20; lra).
  assert (E : ap (M * / h) 2 (15) ((p - m) * (nofZ 1 / dx64 lo hi n))%num ((rp - rm) * / h)).
  { apply (c_mul _ C M (/ h) 2 1 (2 + / 512) 5 2 15 _ _ _ _ D odx_ap0 okQ); try (unfold lim20; lra).
    rewrite Rabs_mult, (Rabs_pos_eq (/ h)) by lra. rewrite <- Rmult_assoc. apply Rmult_le_compat_r; lra. }
  assert (H : ap 1 (/ 2) 0 half (/ 2)).
  { destruct Fhalf as (F & V). apply ap_exact; [apply okS_1|lra|split; [exact F|exact V]|rewrite Rabs_pos_eq; lra]. }
  assert (G : ap (M * / h * 1) 1 9 ((p - m) * (nofZ 1 / dx64 lo hi n) * half)%num ((rp - rm) * / h * / 2)).
  { apply (c_mul _ C (M * / h) 1 2 (/ 2) 15 0 1 9 _ _ _ _ E H); try (unfold lim20; lra); [rewrite Rmult_1_r; exact okQ|].
    rewrite !Rabs_mult, (Rabs_pos_eq (/ h)), (Rabs_pos_eq (/ 2)) by lra. replace (1 * (M * / h * 1)) with (2 * M * / h * / 2) by lra.
    apply Rmult_le_compat_r; [lra|]. apply Rmult_le_compat_r; lra. }
  destruct G as (_ & _ & _ & F & _ & V). split; [exact F|]. unfold soc_formula, real.
  replace ((rp - rm) / (2 * h)) with ((rp - rm) * / h * / 2) by (field; lra). eapply Rle_trans; [exact V|].
  rewrite Rmult_1_r. unfold Rdiv. apply Rmult_le_compat_r; [apply Rmult_le_pos; lra|]. change (bpow radix2 (-49)) with (/ 562949953421312). rewrite u_val. lra.
Qed.

Lemma times_int z x r : (1 <= z <= 6)%Z -> is_real x r -> Rabs r <= M -> ap M (IZR z) (IZR z + / 256) (nofZ z * x)%num (IZR z * r) /\ Rabs (IZR z * r) <= IZR z * M.
Proof.
  intros Hz Hx Hr. assert (okM : okS M) by (apply ok_mod; exact HM). pose proof M_pos.
  assert (Z1 : 1 <= IZR z <= 6) by (split; apply IZR_le; lia).
  assert (B : Rabs (IZR z * r) <= IZR z * M) by (rewrite Rabs_mult, (Rabs_pos_eq (IZR z)) by lra; apply Rmult_le_compat_l; lra). split; [|exact B].
  pose proof (ap_exact M 1 x r okM Rle_0_1 Hx ltac:(lra)) as P. pose proof (ap_int z) as Q. specialize (Q ltac:(lia)). rewrite Z.abs_eq in Q by lia.
  replace M with (1 * M) at 1 by ring.
  apply (c_mul _ C 1 M (IZR z) 1 0 0 (IZR z) (IZR z + / 256) _ _ _ _ Q P); try (unfold lim20; lra); rewrite Rmult_1_l; auto.
Qed.

Lemma third_round p c m mm rp rc rm rmm : is_real p rp -> is_real c rc -> is_real m rm -> is_real mm rmm ->
  Rabs rp <= M -> Rabs rc <= M -> Rabs rm <= M -> Rabs rmm <= M ->
  is_finite (third_formula p c m mm (dx64 lo hi n)) = true /\
  Rabs (real (third_formula p c m mm (dx64 lo hi n)) - (2 * rp + 3 * rc - 6 * rm + rmm) / (6 * h)) <= bpow radix2 (-48) * (M / h).
Proof.
  intros Ap Ac Am Amm Bp Bc Bm Bmm. pose proof M_pos as Mp. pose proof h_pos' as hp. assert (okM : okS M) by (apply ok_mod; exact HM). pose proof ok_quot as okQ.
  assert (ih : 0 < / h) by (apply Rinv_0_lt_compat; exact hp).
  destruct (times_int 2 p rp ltac:(lia) Ap Bp) as (T1 & N1). destruct (times_int 3 c rc ltac:(lia) Ac Bc) as (T2 & N2).
  destruct (times_int 6 m rm ltac:(lia) Am Bm) as (T3 & N3). destruct (times_int 1 mm rmm ltac:(lia) Amm Bmm) as (T4 & N4).
  assert (S1 : Rabs (2 * rp + 3 * rc) <= 5 * M) by (eapply Rle_trans; [apply Rabs_triang|]; lra).
  assert (S2 : Rabs (2 * rp + 3 * rc - 6 * rm) <= 11 * M) by (eapply Rle_trans; [apply Rabs_triang|]; rewrite Rabs_Ropp; lra).
  assert (S3 : Rabs (2 * rp + 3 * rc - 6 * rm + 1 * rmm) <= 12 * M) by (eapply Rle_trans; [apply Rabs_triang|]; lra).
  assert (X1 : ap M 5 (10 + / 64) (nofZ 2 * p + nofZ 3 * c)%num (2 * rp + 3 * rc)) by (apply (c_add _ C _ _ _ _ _ 5 (10 + / 64) _ _ _ _ T1 T2 S1); unfold lim20; lra).
  assert (X2 : ap M 11 (27 + / 32) (nofZ 2 * p + nofZ 3 * c - nofZ 6 * m)%num (2 * rp + 3 * rc - 6 * rm)) by (apply (c_sub _ C _ _ _ _ _ 11 (27 + / 32) _ _ _ _ X1 T3 S2); unfold lim20; lra).
  assert (X3 : ap M 12 (40 + / 16) (nofZ 2 * p + nofZ 3 * c - nofZ 6 * m + nofZ 1 * mm)%num (2 * rp + 3 * rc - 6 * rm + 1 * rmm)) by (apply (c_add _ C _ _ _ _ _ 12 (40 + / 16) _ _ _ _ X2 T4 S3); unfold lim20; lra).
  assert (D0 : ap (1 * h) 6 25 (nofZ 6 * dx64 lo hi n)%num (6 * h)).
  { pose proof (ap_int 6 ltac:(lia)) as Q. cbn [Z.abs] in Q.
    apply (c_mul _ C 1 h 6 1 0 3 6 25 _ _ _ _ Q dx_ap0); try (unfold lim20; lra).
    - rewrite Rmult_1_l. apply ok_mod, h_mod.
    - rewrite Rabs_pos_eq; lra. }
  assert (D1 : ap (6 * h) 1 5 (nofZ 6 * dx64 lo hi n)%num (6 * h)).
  { destruct D0 as (K1 & K2 & K3 & K4 & K5 & K6). split.
    - pose proof h_mod as [H1 H2]. split.
      + apply Rle_trans with (1 * bpow radix2 (-200)); [rewrite Rmult_1_l; apply bpow_le; lia|]. pose proof (pow_pos (-200)). lra.
      + apply Rle_trans with (bpow radix2 3 * bpow radix2 200); [change (bpow radix2 3) with 8; lra|]. rewrite <- bpow_plus. apply bpow_le. lia.
    - split; [lra|]. split; [lra|]. split; [exact K4|]. split; [rewrite Rabs_pos_eq; lra|]. rewrite Rmult_1_l in K6. pose proof u_pos.
      assert (0 < u * h) by (apply Rmult_lt_0_compat; lra). lra. }
  assert (R6 : bpow radix2 (-300) <= 6 * h <= bpow radix2 300).
  { pose proof h_mod as [H1 H2]. pose proof (pow_pos (-200)). split.
    - apply Rle_trans with (1 * bpow radix2 (-200)); [rewrite Rmult_1_l; apply bpow_le; lia|]. lra.
    - apply Rle_trans with (bpow radix2 3 * bpow radix2 200); [change (bpow radix2 3) with 8; lra|]. rewrite <- bpow_plus. apply bpow_le. lia. }
  pose proof (inv_ap (6 * h) 1 5 _ R6 D1 ltac:(lra)) as I. 
  assert (J : ap (/ h) (/ 6) (7 / 6) (nofZ 1 / (nofZ 6 * dx64 lo hi n))%num (/ (6 * h))).
  { destruct I as (K1 & K2 & K3 & K4 & K5 & K6). rewrite Rinv_mult in *. split.
    - apply ok_mod. apply mod_inv. apply h_mod.
    - split; [lra|]. split; [lra|]. split; [exact K4|]. split; [rewrite Rabs_pos_eq by lra; lra|]. lra. }
  assert (G : ap (M * / h) 2 24 (third_formula p c m mm (dx64 lo hi n)) ((2 * rp + 3 * rc - 6 * rm + 1 * rmm) * / (6 * h))).
  { unfold third_formula. apply (c_mul _ C M (/ h) 12 (/ 6) (40 + / 16) (7 / 6) 2 24 _ _ _ _ X3 J okQ); try (unfold lim20; lra).
    rewrite Rabs_mult, Rinv_mult, (Rabs_pos_eq (/ 6 * / h)) by lra. replace (2 * (M * / h)) with (12 * M * (/ 6 * / h)) by lra. apply Rmult_le_compat_r; lra. }
  destruct G as (_ & _ & _ & F & _ & V). split; [exact F|]. unfold real.
  replace ((2 * rp + 3 * rc - 6 * rm + rmm) / (6 * h)) with ((2 * rp + 3 * rc - 6 * rm + 1 * rmm) * / (6 * h)) by (unfold Rdiv; ring). eapply Rle_trans; [exact V|].
  unfold Rdiv. apply Rmult_le_compat_r; [apply Rmult_le_pos; lra|]. change (bpow radix2 (-48)) with (/ 281474976710656). rewrite u_val. lra.
Qed.
End Axis.
