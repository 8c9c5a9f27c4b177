(** The double used for pi, and the angular speed of the circular field. *)
From Coq Require Import ZArith QArith Qreals List Bool Lia Reals Machin Ratan Lra.
From Flocq Require Import Core BinarySingleNaN.
From Verif Require Import Base Num NumB64 ModelVec ModelAnalytic SpecB64 SpecAnalytic ProofsB64 ProofsB64Ops ProofsB64Grid ProofsRoundCircle.
Open Scope R_scope.

(** ** Rational partial sums of Machin's series for pi / 4 *)
Fixpoint qpow (x : Q) (n : nat) : Q := match n with O => 1%Q | S m => Qred (x * qpow x m)%Q end.
Definition qterm (n : nat) : Q :=
  let k := (2 * n + 1)%nat in let d := (/ inject_Z (Z.of_nat k))%Q in
  Qred (qpow (Qmake (-1) 1) n * (2 * (qpow (Qmake (1) 3) k * d) + qpow (Qmake (1) 7) k * d))%Q.
Fixpoint qsum (n : nat) : Q := match n with O => qterm 0 | S m => Qred (qsum m + qterm n)%Q end.
Lemma Q2R_red q : Q2R (Qred q) = Q2R q.
Proof. apply Qeq_eqR, Qred_correct. Qed.
Lemma Q2R_pow x n : Q2R (qpow x n) = Q2R x ^ n.
Proof. induction n as [|n IH]; cbn [qpow pow]; [unfold Q2R; cbn; lra|]. rewrite Q2R_red, Q2R_mult, IH. reflexivity. Qed.
Lemma Q2R_term n : Q2R (qterm n) = tg_alt PI_2_3_7_tg n.
Proof.
  unfold qterm. cbv zeta. rewrite Q2R_red, Q2R_mult, Q2R_plus, !Q2R_mult, !Q2R_pow. unfold tg_alt, PI_2_3_7_tg, Ratan_seq.
  rewrite Q2R_inv.
  2:{ intros H. unfold Qeq in H. cbn in H. lia. }
  replace (Q2R (inject_Z (Z.of_nat (2 * n + 1)))) with (INR (2 * n + 1)) by (unfold Q2R, inject_Z; cbn [Qnum Qden]; rewrite Rinv_1, Rmult_1_r; apply INR_IZR_INZ).
  replace (Q2R (Qmake (-1) 1)) with (-1) by (unfold Q2R; cbn; lra). replace (Q2R (Qmake (1) 3)) with (/ 3) by (unfold Q2R; cbn; lra).
  replace (Q2R (Qmake (1) 7)) with (/ 7) by (unfold Q2R; cbn; lra). replace (Q2R 2) with 2 by (unfold Q2R; cbn; lra). unfold Rdiv. ring.
Qed.
Lemma Q2R_sum n : Q2R (qsum n) = sum_f_R0 (tg_alt PI_2_3_7_tg) n.
Proof. induction n as [|n IH]; cbn [qsum sum_f_R0]; [apply Q2R_term|]. rewrite Q2R_red, Q2R_plus, IH, Q2R_term. reflexivity. Qed.

Definition pi64 : R := 884279719003555 / 281474976710656.
Lemma pi64_near : Rabs (pi64 - PI) <= / 6755399441055744.
Proof.
  destruct (PI_2_3_7_ineq 10) as (L & U). rewrite <- !Q2R_sum in L, U.
  assert (E1 : (((Qmake (884279719003555) 281474976710656) - (Qmake (1) 6755399441055744)) / 4 <= qsum (S (2 * 10)))%Q) by (vm_compute; discriminate).
  assert (E2 : (qsum (2 * 10) <= ((Qmake (884279719003555) 281474976710656) + (Qmake (1) 6755399441055744)) / 4)%Q) by (vm_compute; discriminate).
  assert (H1 : Q2R (((Qmake (884279719003555) 281474976710656) - (Qmake (1) 6755399441055744)) / 4)%Q = (pi64 - / 6755399441055744) / 4) by (unfold Q2R, pi64; cbn; lra).
  assert (H2 : Q2R (((Qmake (884279719003555) 281474976710656) + (Qmake (1) 6755399441055744)) / 4)%Q = (pi64 + / 6755399441055744) / 4) by (unfold Q2R, pi64; cbn; lra).
  apply Qle_Rle in E1. apply Qle_Rle in E2. rewrite H1 in E1. rewrite H2 in E2.
  unfold Rabs. destruct Rcase_abs; lra.
Qed.

(** the double for pi is the one nearest to pi *)
Lemma npi_val : is_finite (npi : b64) = true /\ B2R (npi : b64) = pi64.
Proof. split; [vm_compute; reflexivity|]. unfold npi, TransB64, b64_make. unfold pi64. cbn. unfold F2R. cbn. lra. Qed.
Lemma npi_nearest : B2R (npi : b64) = nearest PI.
Proof.
  rewrite (proj2 npi_val). unfold nearest, round. pose proof pi64_near as H.
  assert (B : 3 < PI < 4) by (unfold pi64, Rabs in H; destruct Rcase_abs; lra).
  assert (M : mag radix2 PI = 2%Z :> Z). { apply mag_unique. rewrite Rabs_pos_eq by lra. change (bpow radix2 (2 - 1)) with 2. change (bpow radix2 2) with 4. lra. }
  assert (X : cexp radix2 (SpecFloat.fexp 53 1024) PI = (-51)%Z) by (unfold cexp; rewrite M; reflexivity).
  unfold scaled_mantissa. rewrite X. change (bpow radix2 (- (-51))) with 2251799813685248.
  rewrite (Znearest_imp _ _ 7074237752028440).
  - unfold F2R, pi64. cbn [Fnum Fexp]. change (bpow radix2 (-51)) with (/ 2251799813685248). lra.
  - unfold pi64, Rabs in H. apply Rabs_def1; destruct Rcase_abs in H; lra.
Qed.

(** ** The angular speed *)
Lemma coeff64 : is_finite (circ_coeff : b64) = true /\ Rabs (B2R (circ_coeff : b64) - omega) <= 4 * u * omega /\ 0 < omega <= 1.
Proof.
  pose proof u_val as Uv. pose proof u_pos as Up. pose proof pi64_near as H. destruct npi_val as (Fp & Vp).
  assert (B : 3 < PI < 315 / 100) by (unfold pi64, Rabs in H; destruct Rcase_abs; lra).
  destruct (int64 63) as (F63 & V63); [lia|]. destruct (int64 20) as (F20 & V20); [lia|].
  assert (big : forall x, Rabs x <= 1024 -> Rabs x <= bpow radix2 1022) by (intros x Hx; eapply Rle_trans; [exact Hx|change 1024 with (bpow radix2 10); apply bpow_le; lia]).
  assert (low : forall x, / 2 <= x -> bpow radix2 (-1022) <= Rabs x).
  { intros x Hx. rewrite Rabs_pos_eq by lra. eapply Rle_trans; [|exact Hx]. change (/ 2) with (bpow radix2 (-1)). apply bpow_le. lia. }
  assert (D : close (Bdiv mode_NE (b64_make 63 0) (b64_make 20 0)) (63 / 20)).
  { replace (63 / 20) with (B2R (b64_make 63 0) / B2R (b64_make 20 0)) by (rewrite V63, V20; reflexivity). apply div64; rewrite ?V63, ?V20; auto; try lra.
    - apply big. rewrite Rabs_pos_eq; lra. 
    - right. apply low. lra. }
  destruct D as (FD & e & He & E).
  assert (Ee : -u <= e <= u) by (unfold Rabs in He; destruct Rcase_abs; lra).
  set (q := Bdiv mode_NE (b64_make 63 0) (b64_make 20 0)) in *.
  assert (Q : 3 < B2R q < 4) by (rewrite E; rewrite Uv in Ee; lra).
  assert (P : 3 < pi64 < 315 / 100) by (unfold pi64; lra).
  assert (R0 : 3 / 4 < pi64 / B2R q < 315 / 300).
  { split; apply (Rmult_lt_reg_r (B2R q)); try lra; unfold Rdiv; rewrite (Rmult_assoc pi64), Rinv_l, Rmult_1_r by lra; lra. }
  destruct (div64 npi q Fp) as (FC & e' & He' & E'); rewrite ?Vp; try lra.
  { apply big. rewrite Rabs_pos_eq; lra. }
  { right. apply low. lra. }
  replace (circ_coeff : b64) with (Bdiv mode_NE (npi : b64) q) by reflexivity. split; [exact FC|]. rewrite Vp in E'.
  assert (Om : 0 < omega <= 1) by (unfold omega; split; [apply Rmult_lt_0_compat|]; lra). split; [|exact Om].
  rewrite E'. 
  assert (PE : Rabs (pi64 - PI) <= u / 2 * PI). { eapply Rle_trans; [exact H|]. rewrite Uv. lra. }
  assert (Ee' : -u <= e' <= u) by (unfold Rabs in He'; destruct Rcase_abs; lra).
  (* pi64 / (63/20 (1+e)) (1+e') *)
  assert (E1 : 0 < 1 + e) by (rewrite Uv in Ee; lra).
  set (w := (1 + e') / (1 + e)). assert (W : 1 - 3 * u <= w <= 1 + 3 * u).
  { unfold w. split; apply (Rmult_le_reg_r (1 + e)); try exact E1; unfold Rdiv; rewrite (Rmult_assoc (1 + e')), Rinv_l, Rmult_1_r by lra.
    - assert (-(3 * u) * e <= u / 8) by (destruct (Rle_dec 0 e); [apply Rle_trans with 0; [assert (0 <= 3 * u * e) by (apply Rmult_le_pos; lra); lra|lra]|
        replace (-(3 * u) * e) with (3 * u * (- e)) by ring; apply Rle_trans with (3 * u * u); [apply Rmult_le_compat_l; lra|]; rewrite Uv; lra]). lra.
    - assert (- (u / 8) <= 3 * u * e) by (destruct (Rle_dec 0 e); [assert (0 <= 3 * u * e) by (apply Rmult_le_pos; lra); lra|
        apply Ropp_le_cancel; rewrite Ropp_involutive; replace (- (3 * u * e)) with (3 * u * (- e)) by ring; apply Rle_trans with (3 * u * u); [apply Rmult_le_compat_l; lra|]; rewrite Uv; lra]). lra. }
  replace (pi64 / B2R q * (1 + e')) with (pi64 / (63 / 20) * w) by (unfold w; rewrite E; field; lra).
  replace (pi64 / (63 / 20) * w - omega) with ((pi64 - PI) * (20 / 63) * w + omega * (w - 1)) by (unfold omega; field).
  eapply Rle_trans; [apply Rabs_triang|]. rewrite !Rabs_mult.
  assert (W1 : Rabs (w - 1) <= 3 * u) by (unfold Rabs; destruct Rcase_abs; lra). assert (W2 : 0 <= Rabs w <= 2) by (rewrite Rabs_pos_eq; rewrite Uv in W; lra).
  rewrite (Rabs_pos_eq omega), (Rabs_pos_eq (20 / 63)) by lra.
  assert (T1 : Rabs (pi64 - PI) * (20 / 63) * Rabs w <= u * omega).
  { apply Rle_trans with (u / 2 * PI * (20 / 63) * 2); [|unfold omega; lra].
    pose proof (Rabs_pos (pi64 - PI)). apply Rmult_le_compat; lra. }
  assert (T2 : omega * Rabs (w - 1) <= omega * (3 * u)) by (apply Rmult_le_compat_l; lra). lra.
Qed.

(** one component of the circular velocity *)
Lemma spin64 (x y : b64) A : bpow radix2 (-250) <= A <= bpow radix2 250 -> is_finite x = true -> is_finite y = true -> Rabs (B2R x) <= A -> Rabs (B2R y) <= A ->
  let v := Bmult mode_NE circ_coeff (Bminus mode_NE x y) in is_finite v = true /\ Rabs (B2R v - omega * (B2R x - B2R y)) <= bpow radix2 (-49) * A.
Proof.
  intros HA Fx Fy Hx Hy v. pose proof u_val as Uv. pose proof u_pos as Up. destruct coeff64 as (Fc & Ec & Om). pose proof (A_pos A HA) as Ap.
  set (k := B2R (circ_coeff : b64)) in *. set (w := B2R x - B2R y) in *.
  assert (D2 : Rabs w <= 2 * A) by (unfold w, Rminus; eapply Rle_trans; [apply Rabs_triang|]; rewrite Rabs_Ropp; lra).
  destruct (A_big A HA 8 ltac:(lra)) as (G1 & _).
  destruct (sub64 x y Fx Fy) as (Fd & e & He & E). { fold w. lra. }
  fold w in E. set (d := Bminus mode_NE x y) in *.
  assert (uo : 0 <= u * omega <= u) by (split; [apply Rmult_le_pos; lra|rewrite <- (Rmult_1_r u) at 2; apply Rmult_le_compat_l; lra]).
  assert (K : Rabs k <= 2). { replace k with ((k - omega) + omega) by ring. eapply Rle_trans; [apply Rabs_triang|]. rewrite (Rabs_pos_eq omega) by lra. rewrite Uv in *. lra. }
  assert (W0 : 0 <= Rabs w) by apply Rabs_pos. assert (uw : 0 <= u * Rabs w) by (apply Rmult_le_pos; lra).
  assert (uuw : u * (u * Rabs w) <= / 1024 * (u * Rabs w)) by (apply Rmult_le_compat_r; rewrite ?Uv; lra).
  assert (uw1 : u * Rabs w <= / 1024 * Rabs w) by (apply Rmult_le_compat_r; rewrite ?Uv; lra).
  assert (Dw : Rabs (B2R d - w) <= u * Rabs w) by (rewrite E; replace (w * (1 + e) - w) with (e * w) by ring; rewrite Rabs_mult; apply Rmult_le_compat_r; lra).
  assert (Db : Rabs (B2R d) <= 2 * Rabs w) by (replace (B2R d) with ((B2R d - w) + w) by ring; eapply Rle_trans; [apply Rabs_triang|]; lra).
  assert (KD : Rabs (k * B2R d) <= 8 * A). { rewrite Rabs_mult. apply Rle_trans with (2 * (4 * A)); [|lra]. apply Rmult_le_compat; auto using Rabs_pos. lra. }
  destruct (mul64_abs circ_coeff d Fc Fd) as (Fv & Ev). { fold k. lra. }
  fold k in Ev. change (Bmult mode_NE circ_coeff d) with v in Fv, Ev. split; [exact Fv|].
  assert (M : Rabs (k * B2R d - omega * w) <= 6 * (u * Rabs w)).
  { replace (k * B2R d - omega * w) with (k * (B2R d - w) + (k - omega) * w) by ring. eapply Rle_trans; [apply Rabs_triang|]. rewrite !Rabs_mult.
    assert (Rabs k * Rabs (B2R d - w) <= 2 * (u * Rabs w)) by (apply Rmult_le_compat; auto using Rabs_pos).
    assert (Rabs (k - omega) * Rabs w <= 4 * u * Rabs w) by (apply Rmult_le_compat_r; [auto|]; lra). lra. }
  assert (Om1 : Rabs (omega * w) <= Rabs w) by (rewrite Rabs_mult, (Rabs_pos_eq omega) by lra; rewrite <- (Rmult_1_l (Rabs w)) at 2; apply Rmult_le_compat_r; lra).
  assert (KB : Rabs (k * B2R d) <= Rabs w + 6 * (u * Rabs w)) by (replace (k * B2R d) with ((k * B2R d - omega * w) + omega * w) by ring; eapply Rle_trans; [apply Rabs_triang|]; lra).
  assert (UK : u * Rabs (k * B2R d) <= u * (Rabs w + 6 * (u * Rabs w))) by (apply Rmult_le_compat_l; lra).
  assert (TA : tiny0 <= / 1024 * (u * A)).
  { destruct HA as [H1 _]. apply Rle_trans with (/ 1024 * (u * bpow radix2 (-250))); [|apply Rmult_le_compat_l; [lra|apply Rmult_le_compat_l; lra]]. change (/ 1024) with (bpow radix2 (-10)). unfold u, tiny0. rewrite <- !bpow_plus. apply bpow_le. lia. }
  assert (uA : u * Rabs w <= 2 * (u * A)) by (replace (2 * (u * A)) with (u * (2 * A)) by ring; apply Rmult_le_compat_l; lra).
  replace (B2R v - omega * w) with ((B2R v - k * B2R d) + (k * B2R d - omega * w)) by ring. eapply Rle_trans; [apply Rabs_triang|].
  apply Rle_trans with (16 * (u * A)).
  - unfold tiny0 in *. lra.
  - rewrite <- Rmult_assoc. apply Rmult_le_compat_r; [lra|]. change (bpow radix2 (-49)) with (/ 562949953421312). rewrite Uv. lra.
Qed.
