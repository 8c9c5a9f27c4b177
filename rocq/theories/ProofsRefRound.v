(** Rounding errors of the Hermite interpolation of the reference programs. *)
From Coq Require Import ZArith List Bool Lia Reals Lra.
From Flocq Require Import Core BinarySingleNaN Plus_error Relative.
From Verif Require Import Base Num NumB64 ModelVec ModelGrid ModelArray ModelInterp ModelRefMath SpecGrid SpecB64 SpecRound SpecRefRound
  ProofsBase ProofsGrid ProofsArray ProofsGridProps ProofsInterp ProofsB64 ProofsB64Ops ProofsB64Grid ProofsRound ProofsRoundHermite.
Import ListNotations.
Open Scope R_scope.

(** division without a lower bound on the result *)
Lemma div64_abs (x y : b64) : is_finite x = true -> B2R y <> 0 -> Rabs (B2R x / B2R y) <= bpow radix2 1022 ->
  is_finite (Bdiv mode_NE x y) = true /\ Rabs (B2R (Bdiv mode_NE x y) - B2R x / B2R y) <= u * Rabs (B2R x / B2R y) + bpow radix2 (-1000).
Proof.
  intros Fx Ny H. set (r := B2R x / B2R y) in *.
  destruct (error_N_FLT radix2 (-1074) 53 eq_refl (fun n => negb (Z.even n)) r) as (e & eta & He & Heta & _ & E).
  change (FLT_exp (-1074) 53) with fe in E.
  assert (He' : Rabs e <= u) by (replace u with (/ 2 * bpow radix2 (-53 + 1)); [exact He|rewrite u_val; change (bpow radix2 (-53 + 1)) with (/ 4503599627370496); lra]).
  assert (Heta' : Rabs eta <= bpow radix2 (-1000)).
  { eapply Rle_trans; [exact Heta|]. apply Rle_trans with (1 * bpow radix2 (-1074)); [apply Rmult_le_compat_r; [apply bpow_ge_0|lra]|].
    rewrite Rmult_1_l. apply bpow_le. lia. }
  assert (D : Rabs (RN r - r) <= u * Rabs r + bpow radix2 (-1000)).
  { rewrite E. replace (r * (1 + e) + eta - r) with (e * r + eta) by ring. eapply Rle_trans; [apply Rabs_triang|]. rewrite Rabs_mult.
    assert (Rabs e * Rabs r <= u * Rabs r) by (apply Rmult_le_compat_r; [apply Rabs_pos|exact He']). lra. }
  assert (B : Rabs (RN r) < bpow radix2 1024).
  { replace (RN r) with (r + (RN r - r)) by ring. eapply Rle_lt_trans; [apply Rabs_triang|].
    assert (P : 0 < bpow radix2 1022) by apply bpow_gt_0. assert (Q : bpow radix2 (-1000) <= bpow radix2 1022) by (apply bpow_le; lia).
    assert (u * Rabs r <= 1 * Rabs r) by (apply Rmult_le_compat_r; [apply Rabs_pos|rewrite u_val; lra]).
    replace (bpow radix2 1024) with (4 * bpow radix2 1022) by (change 4 with (bpow radix2 2); rewrite <- bpow_plus; reflexivity). lra. }
  pose proof (Bdiv_correct 53 1024 prec53 emax1024 mode_NE x y Ny) as C. cbn [round_mode] in C. fold r in C.
  rewrite Rlt_bool_true in C by exact B. destruct C as (C1 & C2 & _). split; [rewrite C2; exact Fx|]. rewrite C1. exact D.
Qed.

Lemma ur : u <= u <= / 4096.
Proof. rewrite u_val. lra. Qed.
Notation ap := (ap64 u).
Notation C := (calc64 u ur).
Ltac num := unfold lim20; lra.

Lemma int_ z : (Z.abs z <= 6)%Z -> ap 1 (IZR (Z.abs z)) 0 (nofZ z) (IZR z).
Proof.
  intros Hz. destruct (int64 z) as (F & E). { change (2 ^ 53)%Z with 9007199254740992%Z. lia. }
  split; [apply okS_1|]. split; [apply IZR_le; lia|]. split; [lra|]. split; [exact F|]. split.
  - rewrite abs_IZR. lra.
  - change (nofZ z : b64) with (b64_make z 0). rewrite E. rewrite Rminus_diag_eq by reflexivity. rewrite Rabs_R0. lra.
Qed.
Lemma okS_mod r : moderate r -> okS r.
Proof. intros (A & B). split; [eapply Rle_trans; [|exact A]|eapply Rle_trans; [exact B|]]; apply bpow_le; lia. Qed.
Lemma okS_prod a b c d x y : bpow radix2 a <= x <= bpow radix2 b -> bpow radix2 c <= y <= bpow radix2 d -> bpow radix2 (a + c) <= x * y <= bpow radix2 (b + d).
Proof.
  intros (A1 & A2) (B1 & B2). rewrite !bpow_plus. pose proof (bpow_gt_0 radix2 a). pose proof (bpow_gt_0 radix2 c).
  split; apply Rmult_le_compat; lra.
Qed.
Lemma okS_inv a b x : bpow radix2 a <= x <= bpow radix2 b -> bpow radix2 (- b) <= / x <= bpow radix2 (- a).
Proof.
  intros (A1 & A2). pose proof (bpow_gt_0 radix2 a). rewrite !bpow_opp. split; apply Rinv_le_contravar; lra.
Qed.

(** the position in the cell *)
Lemma eta_ok v o d : within_reach v o d -> ap 1 2 5 ((v - o) / d)%num ((real v - real o) / real d).
Proof.
  intros (Fv & Fo & Fd & Hd & Hr). pose proof (okS_pos _ (okS_mod _ Hd)) as Dp. destruct Hd as (D1 & D2).
  set (t := (real v - real o) / real d).
  assert (Ht : Rabs t <= 2).
  { unfold t, Rdiv. rewrite Rabs_mult, (Rabs_pos_eq (/ real d)) by (apply Rlt_le, Rinv_0_lt_compat; exact Dp).
    apply Rmult_le_reg_r with (real d); [exact Dp|]. rewrite Rmult_assoc, Rinv_l, Rmult_1_r by lra. exact Hr. }
  assert (HS : Rabs (B2R v - B2R o) <= bpow radix2 1022).
  { eapply Rle_trans; [exact Hr|]. apply Rle_trans with (bpow radix2 1 * bpow radix2 200); [change (bpow radix2 1) with 2; apply Rmult_le_compat_l; [lra|exact D2]|].
    rewrite <- bpow_plus. apply bpow_le. lia. }
  destruct (sub64 v o Fv Fo HS) as (F1 & e & He & E1).
  assert (ET : B2R (Bminus mode_NE v o) / B2R d = t * (1 + e)).
  { rewrite E1. unfold t, real, Rdiv. ring. }
  assert (B1 : Rabs (1 + e) <= 1 + u) by (eapply Rle_trans; [apply Rabs_triang|]; rewrite Rabs_R1; lra).
  assert (BT : Rabs (t * (1 + e)) <= 2 * (1 + u)) by (rewrite Rabs_mult; apply Rmult_le_compat; auto using Rabs_pos).
  pose proof u_pos as Up. pose proof u_val as Uv.
  destruct (div64_abs (Bminus mode_NE v o) d F1) as (F2 & E2).
  { unfold real in Dp. lra. }
  { rewrite ET. eapply Rle_trans; [exact BT|]. apply Rle_trans with (bpow radix2 2); [change (bpow radix2 2) with 4; lra|apply bpow_le; lia]. }
  rewrite ET in E2. split; [apply okS_1|]. split; [lra|]. split; [lra|]. split; [exact F2|]. split; [lra|].
  change ((v - o) / d)%num with (Bdiv mode_NE (Bminus mode_NE v o) d). set (z := B2R (Bdiv mode_NE _ d)) in *.
  assert (Q : bpow radix2 (-1000) <= / 8 * u) by (unfold u; change (/ 8) with (bpow radix2 (-3)); rewrite <- bpow_plus; apply bpow_le; lia).
  replace (z - t) with ((z - t * (1 + e)) + t * e) by ring. eapply Rle_trans; [apply Rabs_triang|]. rewrite (Rabs_mult t e).
  assert (Q1 : Rabs t * Rabs e <= 2 * u) by (apply Rmult_le_compat; auto using Rabs_pos).
  assert (Q2 : u * Rabs (t * (1 + e)) <= u * (2 * (1 + u))) by (apply Rmult_le_compat_l; lra).
  assert (Q3 : u * (2 * u) <= / 8 * u) by (rewrite Uv; lra). lra.
Qed.
(** one over the cell size *)
Lemma inv_ok d : is_finite d = true -> moderate (real d) -> ap (/ real d) 1 2 (#1 / d)%num (/ real d).
Proof.
  intros Fd Hd. pose proof (okS_pos _ (okS_mod _ Hd)) as Dp. pose proof (okS_inv _ _ _ Hd) as Hi. cbn [Z.opp] in Hi.
  destruct (int64 1) as (F1 & E1); [cbn; lia|]. pose proof (Rinv_0_lt_compat _ Dp) as Ip. unfold real in *.
  assert (EQ : B2R (b64_make 1 0) / B2R d = / B2R d) by (rewrite E1; unfold Rdiv; ring).
  destruct (div64 (b64_make 1 0) d F1) as (F & e & He & E).
  { lra. } { rewrite EQ, Rabs_pos_eq by lra. eapply Rle_trans; [apply Hi|apply bpow_le; lia]. }
  { right. rewrite EQ, Rabs_pos_eq by lra. eapply Rle_trans; [|apply Hi]. apply bpow_le; lia. }
  split. { split; [eapply Rle_trans; [|apply Hi]; apply bpow_le; lia|eapply Rle_trans; [apply Hi|]; apply bpow_le; lia]. }
  split; [lra|]. split; [lra|]. split; [exact F|]. split; [rewrite Rabs_pos_eq; lra|].
  change (#1 / d)%num with (Bdiv mode_NE (b64_make 1 0) d). rewrite E, EQ. replace (/ B2R d * (1 + e) - / B2R d) with (e * / B2R d) by ring.
  rewrite Rabs_mult, (Rabs_pos_eq (/ B2R d)) by lra. apply Rmult_le_compat_r; [lra|]. pose proof u_pos. lra.
Qed.

(** *** the basis *)
Section Weight.
Variables (e : b64) (t : R).
Hypothesis He : ap 1 2 5 e t.
Lemma m1 B1 B2 k1 k2 B k z1 z2 r1 r2 : ap 1 B1 k1 z1 r1 -> ap 1 B2 k2 z2 r2 -> B1 * B2 <= B ->
    B1 <= lim20 -> B2 <= lim20 -> k1 <= lim20 -> k2 <= lim20 -> k1 * B2 + B1 * k2 + k1 * k2 / 4096 + B + / 512 <= k -> ap 1 B k (z1 * z2)%num (r1 * r2).
Proof. intros. eapply (mul' _ C); eauto; [ring|apply okS_1]. Qed.
Lemma a1 B1 B2 k1 k2 B k z1 z2 r1 r2 : ap 1 B1 k1 z1 r1 -> ap 1 B2 k2 z2 r2 -> B1 + B2 <= B ->
    B <= lim20 -> k1 <= lim20 -> k2 <= lim20 -> k1 + k2 + B + / 1024 <= k -> ap 1 B k (z1 + z2)%num (r1 + r2).
Proof. intros. eapply (add' _ C); eauto. Qed.
Lemma s1 B1 B2 k1 k2 B k z1 z2 r1 r2 : ap 1 B1 k1 z1 r1 -> ap 1 B2 k2 z2 r2 -> B1 + B2 <= B ->
    B <= lim20 -> k1 <= lim20 -> k2 <= lim20 -> k1 + k2 + B + / 1024 <= k -> ap 1 B k (z1 - z2)%num (r1 - r2).
Proof. intros. eapply (sub' _ C); eauto. Qed.
Lemma i1 z B : (Z.abs z <= 6)%Z -> IZR (Z.abs z) = B -> ap 1 B 0 (nofZ z) (IZR z).
Proof. intros H <-. apply int_. exact H. Qed.
Ltac go := first [eassumption|num].

Lemma w_s : ap 1 4 25 (sqr e) (sqr t).
Proof. unfold sqr. apply (m1 _ _ _ _ _ _ _ _ _ _ He He); num. Qed.
Lemma w_c : ap 1 8 79 (cube e) (cube t).
Proof. unfold cube. apply (m1 _ _ _ _ _ _ _ _ _ _ w_s He); num. Qed.
Lemma w_zs z B : (Z.abs z <= 6)%Z -> IZR (Z.abs z) = B -> ap 1 (4 * B) (29 * B + 1) (nofZ z * sqr e)%num (IZR z * sqr t).
Proof.
  intros Hz <-. assert (IZR (Z.abs z) <= 6) by (apply IZR_le; exact Hz). assert (0 <= IZR (Z.abs z)) by (apply IZR_le; lia).
  apply (m1 _ _ _ _ _ _ _ _ _ _ (int_ z Hz) w_s); num.
Qed.
Lemma w_ze z B : (Z.abs z <= 6)%Z -> IZR (Z.abs z) = B -> ap 1 (2 * B) (7 * B + 1) (nofZ z * e)%num (IZR z * t).
Proof.
  intros Hz <-. assert (IZR (Z.abs z) <= 6) by (apply IZR_le; exact Hz). assert (0 <= IZR (Z.abs z)) by (apply IZR_le; lia).
  apply (m1 _ _ _ _ _ _ _ _ _ _ (int_ z Hz) He); num.
Qed.
Lemma w_zc z B : (Z.abs z <= 6)%Z -> IZR (Z.abs z) = B -> ap 1 (8 * B) (87 * B + 1) (nofZ z * cube e)%num (IZR z * cube t).
Proof.
  intros Hz <-. assert (IZR (Z.abs z) <= 6) by (apply IZR_le; exact Hz). assert (0 <= IZR (Z.abs z)) by (apply IZR_le; lia).
  apply (m1 _ _ _ _ _ _ _ _ _ _ (int_ z Hz) w_c); num.
Qed.
Lemma w_bp al v : ap 1 32 320 (bp1 al v e) (bp1 al v t).
Proof.
  pose proof (w_zs 3 3 ltac:(lia) eq_refl) as S3. pose proof (w_zs 2 2 ltac:(lia) eq_refl) as S2. pose proof (w_zc 2 2 ltac:(lia) eq_refl) as C2. pose proof (w_zc (-2) 2 ltac:(lia) eq_refl) as C2'.
  pose proof (i1 1 1 ltac:(lia) eq_refl) as I1.
  destruct al, v; cbn [bp1].
  - eapply (up _ C) with (B := 12) (k := 117); [|lra|lra]. exact (s1 _ _ _ _ 12 117 _ _ _ _ w_c w_s ltac:(num) ltac:(num) ltac:(num) ltac:(num) ltac:(num)).
  - eapply (up _ C) with (B := 18) (k := 181); [|lra|lra].
    pose proof (s1 _ _ _ _ 16 156 _ _ _ _ w_c S2 ltac:(num) ltac:(num) ltac:(num) ltac:(num) ltac:(num)) as Q.
    exact (a1 _ _ _ _ 18 181 _ _ _ _ Q He ltac:(num) ltac:(num) ltac:(num) ltac:(num) ltac:(num)).
  - eapply (up _ C) with (B := 28) (k := 300); [|lra|lra]. exact (a1 _ _ _ _ 28 300 _ _ _ _ C2' S3 ltac:(num) ltac:(num) ltac:(num) ltac:(num) ltac:(num)).
  - eapply (up _ C) with (B := 29) (k := 310); [|lra|lra].
    pose proof (s1 _ _ _ _ 13 102 _ _ _ _ I1 S3 ltac:(num) ltac:(num) ltac:(num) ltac:(num) ltac:(num)) as Q.
    exact (a1 _ _ _ _ 29 310 _ _ _ _ Q C2 ltac:(num) ltac:(num) ltac:(num) ltac:(num) ltac:(num)).
Qed.
Lemma w_gbp al v : ap 1 40 320 (gradbp1 al v e) (gradbp1 al v t).
Proof.
  pose proof (w_zs 3 3 ltac:(lia) eq_refl) as S3. pose proof (w_zs 6 6 ltac:(lia) eq_refl) as S6. pose proof (w_zs (-6) 6 ltac:(lia) eq_refl) as S6'.
  pose proof (w_ze 6 6 ltac:(lia) eq_refl) as E6. pose proof (w_ze (-6) 6 ltac:(lia) eq_refl) as E6'. pose proof (w_ze 4 4 ltac:(lia) eq_refl) as E4. pose proof (w_ze 2 2 ltac:(lia) eq_refl) as E2.
  pose proof (i1 1 1 ltac:(lia) eq_refl) as I1.
  destruct al, v; cbn [gradbp1].
  - eapply (up _ C) with (B := 16) (k := 130); [|lra|lra]. exact (s1 _ _ _ _ 16 130 _ _ _ _ S3 E2 ltac:(num) ltac:(num) ltac:(num) ltac:(num) ltac:(num)).
  - eapply (up _ C) with (B := 21) (k := 180); [|lra|lra].
    pose proof (s1 _ _ _ _ 20 140 _ _ _ _ S3 E4 ltac:(num) ltac:(num) ltac:(num) ltac:(num) ltac:(num)) as Q.
    exact (a1 _ _ _ _ 21 180 _ _ _ _ Q I1 ltac:(num) ltac:(num) ltac:(num) ltac:(num) ltac:(num)).
  - eapply (up _ C) with (B := 36) (k := 260); [|lra|lra]. exact (a1 _ _ _ _ 36 260 _ _ _ _ S6' E6 ltac:(num) ltac:(num) ltac:(num) ltac:(num) ltac:(num)).
  - eapply (up _ C) with (B := 36) (k := 260); [|lra|lra]. exact (a1 _ _ _ _ 36 260 _ _ _ _ E6' S6 ltac:(num) ltac:(num) ltac:(num) ltac:(num) ltac:(num)).
Qed.
End Weight.

(** *** the sum *)
Section Cell.
Variables (phi psix psiy psixy : quad b64) (x y xo yo dx dy : b64) (M : R).
Hypothesis HX : within_reach x xo dx.
Hypothesis HY : within_reach y yo dy.
Hypothesis HD : cell_size phi psix psiy psixy (real dx) (real dy) M.
Let X := real dx.
Let Y := real dy.
Let p01 (d : R) (a : bool) : R := if a then d else 1.

Lemma pow_ok d a : is_finite d = true -> moderate (real d) -> ap (p01 (real d) a) 1 0 (pow01 d a) (pow01 (real d) a).
Proof.
  intros F H. destruct a; cbn [pow01 p01].
  - pose proof (okS_pos _ (okS_mod _ H)). split; [apply okS_mod; exact H|]. split; [lra|]. split; [lra|]. split; [exact F|]. split; [rewrite Rabs_pos_eq; lra|].
    unfold real. rewrite Rminus_diag_eq by reflexivity. rewrite Rabs_R0. lra.
  - apply (int_ 1). lia.
Qed.
Lemma p01_mod d a : moderate d -> bpow radix2 (-200) <= p01 d a <= bpow radix2 200.
Proof. intros H. destruct a; cbn [p01]; [exact H|]. split; [apply (bpow_le radix2 (-200) 0); lia|apply (bpow_le radix2 0 200); lia]. Qed.

(** one term *)
Lemma term_ok ax ay b br d S : ap 1 1280 24400 b br -> is_finite d = true -> Rabs (real d) * (p01 X ax * p01 Y ay) <= M -> S = M ->
  ap S 1280 29700 (pow01 dx ax * pow01 dy ay * b * d)%num (pow01 X ax * pow01 Y ay * br * real d).
Proof.
  intros Hb Fd Hd ->. destruct HX as (_ & _ & FX & MX & _). destruct HY as (_ & _ & FY & MY & _). destruct HD as (HM & _).
  pose proof (p01_mod X ax MX) as PX. pose proof (p01_mod Y ay MY) as PY. pose proof (okS_prod _ _ _ _ _ _ PX PY) as PXY. cbn [Z.add Z.opp] in PXY.
  assert (O1 : okS (p01 X ax * p01 Y ay)) by (split; [eapply Rle_trans; [|apply PXY]|eapply Rle_trans; [apply PXY|]]; apply bpow_le; lia).
  pose proof (mul' _ C _ _ _ _ _ _ _ 1 2 _ _ _ _ (pow_ok dx ax FX MX) (pow_ok dy ay FY MY) eq_refl O1 ltac:(lra) ltac:(num) ltac:(num) ltac:(num) ltac:(num) ltac:(lra)) as A1.
  pose proof (mul' _ C (p01 X ax * p01 Y ay) _ _ _ _ _ _ 1280 28300 _ _ _ _ A1 Hb ltac:(unfold X, Y; ring) O1 ltac:(lra) ltac:(num) ltac:(num) ltac:(num) ltac:(num) ltac:(lra)) as A2.
  set (w := p01 X ax * p01 Y ay) in *. pose proof (okS_pos _ O1) as Wp.
  pose proof (okS_prod _ _ _ _ _ _ HM (okS_inv _ _ _ PXY)) as PM. cbn [Z.add Z.opp] in PM.
  assert (AD : ap (M * / w) 1 0 d (real d)).
  { split; [split; [eapply Rle_trans; [|apply PM]|eapply Rle_trans; [apply PM|]]; apply bpow_le; lia|]. split; [lra|]. split; [lra|]. split; [exact Fd|]. split.
    - rewrite Rmult_1_l. apply Rmult_le_reg_r with w; [exact Wp|]. rewrite (Rmult_assoc M), Rinv_l, Rmult_1_r by lra. exact Hd.
    - unfold real. rewrite Rminus_diag_eq by reflexivity. rewrite Rabs_R0. lra. }
  refine (mul' _ C M _ _ _ _ _ _ 1280 29700 _ _ _ _ A2 AD _ (okS_mod _ HM) _ _ _ _ _ _); try num. field. lra.
Qed.
Lemma fold_ok (Sx : R) B k (terms : list (b64 * R)) : okS Sx -> Forall (fun p => ap Sx B k (fst p) (snd p)) terms -> (length terms <= 16)%nat -> 0 <= B <= 1280 -> 0 <= k <= 34000 ->
  ap Sx (B * INR (length terms)) ((k + 17 * B + 1) * INR (length terms)) (fold_left (fun a p => (a + fst p)%num) terms #0%num) (fold_left (fun a p => a + snd p) terms 0).
Proof.
  intros HS HF HL HB Hk.
  assert (G : forall ts n acc accr, Forall (fun p => ap Sx B k (fst p) (snd p)) ts -> (n + length ts <= 16)%nat -> ap Sx (B * INR n) ((k + 17 * B + 1) * INR n) acc accr ->
    ap Sx (B * INR (n + length ts)) ((k + 17 * B + 1) * INR (n + length ts)) (fold_left (fun a p => (a + fst p)%num) ts acc) (fold_left (fun a p => a + snd p) ts accr)).
  { induction ts as [|p ts IH]; intros n acc accr HF' HL' HA; cbn [fold_left length] in *; [rewrite Nat.add_0_r; exact HA|].
    inversion HF' as [|? ? Hp HF'']; subst. replace (n + S (length ts))%nat with (S n + length ts)%nat in * by lia. apply IH; [exact HF''|exact HL'|].
    assert (N1 : 0 <= INR n) by apply pos_INR. assert (N2 : INR n <= 15) by (replace 15 with (INR 15) by (cbn; lra); apply le_INR; lia).
    assert (N3 : B * INR n <= 1280 * 15) by (apply Rmult_le_compat; lra). assert (N4 : 0 <= B * INR n) by (apply Rmult_le_pos; lra).
    assert (N5 : (k + 17 * B + 1) * INR n <= (34000 + 17 * 1280 + 1) * 15) by (apply Rmult_le_compat; lra).
    assert (N6 : B * INR n <= B * 15) by (apply Rmult_le_compat_l; lra).
    rewrite S_INR. eapply (add' _ C); [exact HA|exact Hp|..]; try num. }
  pose proof (G terms 0%nat _ _ HF ltac:(lia) ltac:(cbn [INR]; rewrite !Rmult_0_r; apply (c_zero _ C); exact HS)) as Q. exact Q.
Qed.

Lemma tens b b' (e e' : b64) t t' : ap 1 b 320 e t -> ap 1 b' 320 e' t' -> b <= 40 -> b' <= 40 -> b + b' <= 72 -> b * b' <= 1280 -> ap 1 1280 24400 (e * e')%num (t * t').
Proof. intros H1 H2 L1 L2 L3 L4. refine (m1 _ _ _ _ _ _ _ _ _ _ H1 H2 _ _ _ _ _ _); num. Qed.

Definition terms (f : bool -> bool -> bool -> bool -> b64 -> b64) (g : bool -> bool -> bool -> bool -> R -> R) : list (b64 * R) :=
  concat (map (fun r => match r with (ax, ay, q) => map (fun c => match c with (vx, vy, d) => (f ax ay vx vy d, g ax ay vx vy (real d)) end) (corners q) end) (rounds phi psix psiy psixy)).
Lemma hsum_terms f g : hsum f phi psix psiy psixy = fold_left (fun a p => (a + fst p)%num) (terms f g) #0%num
  /\ hsum g (qreals phi) (qreals psix) (qreals psiy) (qreals psixy) = fold_left (fun a p => a + snd p) (terms f g) 0.
Proof. split; unfold hsum, terms, qreals; cbn [rounds corners fold_left map concat app fst snd q0 q1 q2 q3]; reflexivity. Qed.
Lemma corner_in ax ay q vx vy d : In (ax, ay, q) (rounds phi psix psiy psixy) -> In (vx, vy, d) (corners q) ->
  is_finite d = true /\ Rabs (real d) * (p01 X ax * p01 Y ay) <= M.
Proof.
  intros H1 H2. destruct HD as (_ & D0 & D1 & D2 & D3).
  assert (Z : d = q0 q \/ d = q1 q \/ d = q2 q \/ d = q3 q) by (cbn [corners In] in H2; intuition congruence).
  assert (E : corner_size (p01 X ax * p01 Y ay) M q).
  { cbn [rounds In] in H1. destruct H1 as [H1|[H1|[H1|[H1|[]]]]]; injection H1 as <- <- <-; cbn [p01]; rewrite ?Rmult_1_l, ?Rmult_1_r; assumption. }
  exact (E d Z).
Qed.
Lemma sum_ok f g S k : okS S -> 0 <= k <= 34000 ->
  (forall ax ay vx vy d, is_finite d = true -> Rabs (real d) * (p01 X ax * p01 Y ay) <= M -> ap S 1280 k (f ax ay vx vy d) (g ax ay vx vy (real d))) ->
  ap S 20480 895000 (hsum f phi psix psiy psixy) (hsum g (qreals phi) (qreals psix) (qreals psiy) (qreals psixy)).
Proof.
  intros HS Hk H. destruct (hsum_terms f g) as (E1 & E2). refine (eq_ind_r (fun z : b64 => ap S 20480 895000 z _) _ E1). rewrite E2. clear E1 E2.
  assert (F : Forall (fun p => ap S 1280 k (fst p) (snd p)) (terms f g)).
  { apply Forall_forall. intros p Hp. unfold terms in Hp. apply in_concat in Hp. destruct Hp as (l & Hl & Hp). apply in_map_iff in Hl.
    destruct Hl as (((ax, ay), q) & <- & Hr). apply in_map_iff in Hp. destruct Hp as (((vx, vy), d) & <- & Hc). cbn [fst snd].
    destruct (corner_in _ _ _ _ _ _ Hr Hc). apply H; assumption. }
  pose proof (fold_ok S 1280 k (terms f g) HS F ltac:(apply le_n) ltac:(lra) Hk) as Q.
  assert (L : INR (length (terms f g)) = 16) by (change (length (terms f g)) with 16%nat; cbn [INR]; lra). rewrite L in Q.
  eapply (up _ C); [exact Q|lra|lra].
Qed.
Lemma final S z r : ap S 20480 895000 z r -> is_finite z = true /\ Rabs (real z - r) <= bpow radix2 (-33) * S.
Proof.
  intros (HS & _ & _ & F & _ & E). split; [exact F|]. apply okS_pos in HS. eapply Rle_trans; [exact E|]. rewrite <- Rmult_assoc || idtac.
  assert (u * 895000 <= bpow radix2 (-33)).
  { unfold u. apply Rle_trans with (bpow radix2 (-53) * bpow radix2 20); [apply Rmult_le_compat_l; [apply bpow_ge_0|change (bpow radix2 20) with 1048576; lra]|].
    rewrite <- bpow_plus. apply Rle_refl. }
  pose proof (Rmult_le_compat_r S _ _ ltac:(lra) H). lra.
Qed.
Theorem hp64 : is_finite (hp phi psix psiy psixy x y xo yo dx dy) = true
  /\ Rabs (real (hp phi psix psiy psixy x y xo yo dx dy) - hp (qreals phi) (qreals psix) (qreals psiy) (qreals psixy) (real x) (real y) (real xo) (real yo) X Y) <= bpow radix2 (-33) * M.
Proof.
  apply final. unfold hp. apply (sum_ok _ _ M 29700); [apply okS_mod; apply HD|lra|]. intros ax ay vx vy d Fd Hd.
  apply term_ok; auto. unfold basepolynomial. eapply tens; [apply w_bp, eta_ok, HX|apply w_bp, eta_ok, HY|..]; lra.
Qed.
Lemma times_inv d z r : is_finite d = true -> moderate (real d) -> ap M 1280 29700 z r -> ap (M * / real d) 1280 34000 (z * (#1 / d))%num (r * (1 / real d)).
Proof.
  intros F H A. replace (1 / real d) with (/ real d) by (unfold Rdiv; ring). destruct HD as (HM & _).
  pose proof (okS_prod _ _ _ _ _ _ HM (okS_inv _ _ _ H)) as P. cbn [Z.add Z.opp] in P.
  refine (mul' _ C _ _ _ _ _ _ _ 1280 34000 _ _ _ _ A (inv_ok d F H) eq_refl _ _ _ _ _ _ _); try num.
  split; [eapply Rle_trans; [|apply P]|eapply Rle_trans; [apply P|]]; apply bpow_le; lia.
Qed.
Lemma okS_M d : moderate d -> okS (M * / d).
Proof.
  intros H. destruct HD as (HM & _). pose proof (okS_prod _ _ _ _ _ _ HM (okS_inv _ _ _ H)) as P. cbn [Z.add Z.opp] in P.
  split; [eapply Rle_trans; [|apply P]|eapply Rle_trans; [apply P|]]; apply bpow_le; lia.
Qed.
Theorem hermx64 : is_finite (hermx phi psix psiy psixy x y xo yo dx dy) = true
  /\ Rabs (real (hermx phi psix psiy psixy x y xo yo dx dy) - hermx (qreals phi) (qreals psix) (qreals psiy) (qreals psixy) (real x) (real y) (real xo) (real yo) X Y) <= bpow radix2 (-33) * (M / X).
Proof.
  destruct HX as (_ & _ & FX & MX & _). apply final. unfold hermx. apply (sum_ok _ _ (M / X) 34000); [apply okS_M, MX|lra|]. intros ax ay vx vy d Fd Hd.
  apply times_inv; [exact FX|exact MX|]. apply term_ok; auto. unfold gradbpx. eapply tens; [apply w_gbp, eta_ok, HX|apply w_bp, eta_ok, HY|..]; lra.
Qed.
Theorem hermy64 : is_finite (hermy phi psix psiy psixy x y xo yo dx dy) = true
  /\ Rabs (real (hermy phi psix psiy psixy x y xo yo dx dy) - hermy (qreals phi) (qreals psix) (qreals psiy) (qreals psixy) (real x) (real y) (real xo) (real yo) X Y) <= bpow radix2 (-33) * (M / Y).
Proof.
  destruct HY as (_ & _ & FY & MY & _). apply final. unfold hermy. apply (sum_ok _ _ (M / Y) 34000); [apply okS_M, MY|lra|]. intros ax ay vx vy d Fd Hd.
  apply times_inv; [exact FY|exact MY|]. apply term_ok; auto. unfold gradbpy. eapply tens; [apply w_bp, eta_ok, HX|apply w_gbp, eta_ok, HY|..]; lra.
Qed.
End Cell.

(** *** a case *)
Lemma int_case z w : (Z.abs z <= 10)%Z -> (0 <= w <= 10)%Z -> is_finite (b64_make z 0) = true /\ Rabs (real (b64_make z 0)) * IZR w <= 100.
Proof.
  intros Hz Hw. destruct (int64 z) as (F & E). { change (2 ^ 53)%Z with 9007199254740992%Z. lia. }
  split; [exact F|]. unfold real. rewrite E. rewrite <- abs_IZR, <- mult_IZR. apply IZR_le. nia.
Qed.
Lemma moderate_int z : (1 <= z <= 1024)%Z -> moderate (IZR z).
Proof.
  intros H. split; [apply Rle_trans with (bpow radix2 0); [apply bpow_le; lia|]; change (bpow radix2 0) with 1; apply IZR_le; lia|].
  apply Rle_trans with (bpow radix2 10); [change (bpow radix2 10) with 1024; apply IZR_le; lia|apply bpow_le; lia].
Qed.
Lemma reach_case v o d : (Z.abs v <= 10)%Z -> (Z.abs o <= 10)%Z -> (1 <= d <= 10)%Z -> (Z.abs (v - o) <= 2 * d)%Z -> within_reach (b64_make v 0) (b64_make o 0) (b64_make d 0).
Proof.
  intros H1 H2 H3 H4. destruct (int64 v) as (F1 & E1). { change (2 ^ 53)%Z with 9007199254740992%Z. lia. }
  destruct (int64 o) as (F2 & E2). { change (2 ^ 53)%Z with 9007199254740992%Z. lia. } destruct (int64 d) as (F3 & E3). { change (2 ^ 53)%Z with 9007199254740992%Z. lia. }
  unfold within_reach, real. rewrite E1, E2, E3. split; [exact F1|]. split; [exact F2|]. split; [exact F3|]. split; [apply moderate_int; lia|].
  rewrite <- minus_IZR, <- abs_IZR, <- mult_IZR. apply IZR_le. exact H4.
Qed.
Definition quad_of (a b c d : Z) : quad b64 := mkQuad (b64_make a 0) (b64_make b 0) (b64_make c 0) (b64_make d 0).
Lemma corner_case a b c d w : (Z.abs a <= 10)%Z -> (Z.abs b <= 10)%Z -> (Z.abs c <= 10)%Z -> (Z.abs d <= 10)%Z -> (0 <= w <= 10)%Z -> corner_size (IZR w) 100 (quad_of a b c d).
Proof. intros Ha Hb Hc Hd Hw z Hz. cbn [quad_of q0 q1 q2 q3] in Hz. destruct Hz as [->|[->|[->| ->]]]; apply int_case; assumption. Qed.
Lemma cell_case : within_reach (b64_make 1 0) (b64_make 0 0) (b64_make 2 0) /\ within_reach (b64_make 5 0) (b64_make 1 0) (b64_make 3 0) /\
  cell_size (quad_of 1 2 3 (-4)) (quad_of 5 0 (-1) 2) (quad_of 1 1 (-6) 7) (quad_of 2 (-3) 4 0) (real (b64_make 2 0)) (real (b64_make 3 0)) 100.
Proof.
  split; [apply reach_case; lia|]. split; [apply reach_case; lia|].
  destruct (int64 2) as (_ & E2). { change (2 ^ 53)%Z with 9007199254740992%Z. lia. } destruct (int64 3) as (_ & E3). { change (2 ^ 53)%Z with 9007199254740992%Z. lia. }
  unfold real, cell_size. rewrite E2, E3. split; [apply moderate_int; lia|]. split; [apply (corner_case _ _ _ _ 1); lia|]. split; [apply (corner_case _ _ _ _ 2); lia|].
  split; [apply (corner_case _ _ _ _ 3); lia|]. rewrite <- mult_IZR. apply (corner_case _ _ _ _ (2 * 3)); lia.
Qed.
(** the three together *)
Lemma cell_hermite (phi psix psiy psixy : quad b64) (x y xo yo dx dy : b64) (M : R) : within_reach x xo dx -> within_reach y yo dy ->
  cell_size phi psix psiy psixy (real dx) (real dy) M ->
  let a := hp phi psix psiy psixy x y xo yo dx dy in let b := hermx phi psix psiy psixy x y xo yo dx dy in let c := hermy phi psix psiy psixy x y xo yo dx dy in
  let at_ f : R := f (qreals phi) (qreals psix) (qreals psiy) (qreals psixy) (real x) (real y) (real xo) (real yo) (real dx) (real dy) in
  (is_finite a = true /\ is_finite b = true /\ is_finite c = true) /\ Rabs (real a - at_ hp) <= bpow radix2 (-33) * M /\
  Rabs (real b - at_ hermx) <= bpow radix2 (-33) * (M / real dx) /\ Rabs (real c - at_ hermy) <= bpow radix2 (-33) * (M / real dy).
Proof.
  intros HX HY HD. destruct (hp64 _ _ _ _ _ _ _ _ _ _ _ HX HY HD) as (A & A'). destruct (hermx64 _ _ _ _ _ _ _ _ _ _ _ HX HY HD) as (B & B').
  destruct (hermy64 _ _ _ _ _ _ _ _ _ _ _ HX HY HD) as (D & D'). repeat split; assumption.
Qed.
