(** Rounding errors of the circle level set. *)
From Coq Require Import ZArith List Bool Lia Reals Lra.
From Flocq Require Import Core BinarySingleNaN Relative.
From Verif Require Import Base Num NumB64 ModelVec SpecB64 SpecRound SpecAnalytic ProofsB64 ProofsB64Ops ProofsB64Grid.
Open Scope R_scope.
#[local] Instance fe_valid2 : Valid_exp fe := fexp_correct 53 1024 prec53.

Definition tiny0 : R := bpow radix2 (-1000).
Lemma tiny0_pos : 0 < tiny0.
Proof. apply bpow_gt_0. Qed.
Lemma rn_abs r : Rabs (RN r - r) <= u * Rabs r + tiny0.
Proof.
  destruct (error_N_FLT radix2 (-1074) 53 eq_refl (fun n => negb (Z.even n)) r) as (e & eta & He & Heta & _ & E).
  change (FLT_exp (-1074) 53) with fe in E.
  assert (He' : Rabs e <= u) by (replace u with (/ 2 * bpow radix2 (-53 + 1)); [exact He|rewrite u_val; change (bpow radix2 (-53 + 1)) with (/ 4503599627370496); lra]).
  assert (Heta' : Rabs eta <= tiny0).
  { eapply Rle_trans; [exact Heta|]. apply Rle_trans with (1 * bpow radix2 (-1074)); [apply Rmult_le_compat_r; [apply bpow_ge_0|lra]|].
    rewrite Rmult_1_l. apply bpow_le. lia. }
  rewrite E. replace (r * (1 + e) + eta - r) with (e * r + eta) by ring. eapply Rle_trans; [apply Rabs_triang|]. rewrite Rabs_mult.
  assert (Rabs e * Rabs r <= u * Rabs r) by (apply Rmult_le_compat_r; [apply Rabs_pos|exact He']). lra.
Qed.
Lemma rn_pos r : 0 <= r -> 0 <= RN r.
Proof. intros H. apply round_ge_generic; auto with typeclass_instances. apply generic_format_0. Qed.

(** the square of a double *)
Lemma sq64 (x : b64) : is_finite x = true -> Rabs (B2R x * B2R x) <= bpow radix2 1022 ->
  is_finite (Bmult mode_NE x x) = true /\ 0 <= B2R (Bmult mode_NE x x) /\ Rabs (B2R (Bmult mode_NE x x) - B2R x * B2R x) <= u * (B2R x * B2R x) + tiny0.
Proof.
  intros Fx H. destruct (mul64_abs x x Fx Fx H) as (F & E). assert (P : 0 <= B2R x * B2R x) by (apply Rle_0_sqr).
  rewrite (Rabs_pos_eq (B2R x * B2R x)) in E by exact P. split; [exact F|]. split; [|exact E].
  pose proof (Bmult_correct 53 1024 prec53 emax1024 mode_NE x x) as C. cbn [round_mode] in C.
  destruct (Rlt_bool _ _) eqn:L in C.
  - destruct C as (C1 & _). rewrite C1. apply rn_pos. exact P.
  - exfalso. destruct (Bmult mode_NE x x); cbn in C, F; try discriminate; cbn in C; unfold binary_overflow, overflow_to_inf in C; cbn in C; discriminate.
Qed.
(** the square root of a double *)
Lemma sqrt64 (x : b64) : is_finite x = true -> 0 <= B2R x ->
  is_finite (Bsqrt mode_NE x) = true /\ 0 <= B2R (Bsqrt mode_NE x) /\ Rabs (B2R (Bsqrt mode_NE x) - sqrt (B2R x)) <= u * sqrt (B2R x) + tiny0.
Proof.
  intros Fx Px. destruct (Bsqrt_correct 53 1024 prec53 emax1024 mode_NE x) as (C1 & C2 & _). cbn [round_mode] in C1. split; [|split].
  - rewrite C2. destruct x as [s| | |s m e b]; try discriminate; auto. destruct s; auto. exfalso. cbn in Px.
    assert (F2R (Float radix2 (Z.neg m) e) < 0) by (apply F2R_lt_0; cbn; lia). cbn in *. lra.
  - rewrite C1. apply rn_pos. apply sqrt_pos.
  - rewrite C1. pose proof (rn_abs (sqrt (B2R x))) as H. rewrite (Rabs_pos_eq (sqrt (B2R x))) in H by apply sqrt_pos. exact H.
Qed.
(** relative error a plus absolute error b under a square root *)
Lemma sqrt_near s X a b : 0 <= s -> 0 <= X -> 0 <= a <= 1 -> 0 <= b -> Rabs (s - X) <= a * X + b -> Rabs (sqrt s - sqrt X) <= a * sqrt X + sqrt b.
Proof.
  intros Hs HX Ha Hb H.
  assert (S : s <= (1 + a) * X + b /\ (1 - a) * X <= s + b) by (unfold Rabs in H; destruct Rcase_abs; lra). destruct S as (S1 & S2).
  assert (sub : forall x y, 0 <= x -> 0 <= y -> sqrt (x + y) <= sqrt x + sqrt y).
  { intros x y Hx Hy. pose proof (sqrt_pos x). pose proof (sqrt_pos y). apply Rsqr_incr_0_var; [|lra]. rewrite Rsqr_sqrt by lra.
    unfold Rsqr. pose proof (sqrt_sqrt x Hx). pose proof (sqrt_sqrt y Hy). assert (0 <= sqrt x * sqrt y) by (apply Rmult_le_pos; lra). lra. }
  assert (aX : 0 <= a * X) by (apply Rmult_le_pos; lra).
  assert (up : sqrt ((1 + a) * X) <= (1 + a) * sqrt X).
  { rewrite sqrt_mult by lra. apply Rmult_le_compat_r; [apply sqrt_pos|]. rewrite <- (sqrt_Rsqr (1 + a)) at 2 by lra. apply sqrt_le_1_alt. unfold Rsqr. assert (0 <= a * a) by (apply Rmult_le_pos; lra). lra. }
  assert (dn : (1 - a) * sqrt X <= sqrt ((1 - a) * X)).
  { rewrite sqrt_mult by lra. apply Rmult_le_compat_r; [apply sqrt_pos|]. rewrite <- (sqrt_Rsqr (1 - a)) at 1 by lra. apply sqrt_le_1_alt. unfold Rsqr. assert (0 <= a * (1 - a)) by (apply Rmult_le_pos; lra). lra. }
  pose proof (sqrt_le_1_alt _ _ S1) as T1. pose proof (sqrt_le_1_alt _ _ S2) as T2.
  pose proof (sub ((1 + a) * X) b ltac:(lra) Hb). pose proof (sub s b Hs Hb). unfold Rabs. destruct Rcase_abs; lra.
Qed.

Lemma sqrt_tiny : sqrt (8 * tiny0) <= bpow radix2 (-498).
Proof.
  rewrite <- (sqrt_Rsqr (bpow radix2 (-498))) by apply bpow_ge_0. apply sqrt_le_1_alt. unfold Rsqr, tiny0. rewrite <- bpow_plus.
  change 8 with (bpow radix2 3). rewrite <- bpow_plus. apply bpow_le. lia.
Qed.

Section Circle.
Variables (p c : vec3 b64) (r : b64) (A : R).
Hypothesis HA : bpow radix2 (-250) <= A <= bpow radix2 250.
Hypothesis Hp : forall a, is_finite (vget p a) = true /\ Rabs (real (vget p a)) <= A.
Hypothesis Hc : forall a, is_finite (vget c a) = true /\ Rabs (real (vget c a)) <= A.
Hypothesis Hr : is_finite r = true /\ Rabs (real r) <= A.
Lemma A_pos : 0 < A.
Proof. destruct HA as [H _]. pose proof (bpow_gt_0 radix2 (-250)). lra. Qed.
Lemma A_big k : 0 <= k <= 1024 -> k * A <= bpow radix2 1022 /\ k * (A * A) <= bpow radix2 1022.
Proof.
  intros Hk. pose proof A_pos. destruct HA as [_ H2]. split.
  - apply Rle_trans with (bpow radix2 10 * bpow radix2 250); [|rewrite <- bpow_plus; apply bpow_le; lia]. apply Rmult_le_compat; try lra. change (bpow radix2 10) with 1024. lra.
  - apply Rle_trans with (bpow radix2 10 * (bpow radix2 250 * bpow radix2 250)); [|rewrite <- !bpow_plus; apply bpow_le; lia].
    apply Rmult_le_compat; try lra; [apply Rmult_le_pos; lra|change (bpow radix2 10) with 1024; lra|apply Rmult_le_compat; lra].
Qed.
Let D a : R := real (vget p a) - real (vget c a).
Lemma D_small a : Rabs (D a) <= 2 * A.
Proof. destruct (Hp a) as (_ & H1). destruct (Hc a) as (_ & H2). unfold D, Rminus. eapply Rle_trans; [apply Rabs_triang|]. rewrite Rabs_Ropp. lra. Qed.
Lemma D_sq a : 0 <= D a * D a <= 4 * (A * A).
Proof.
  split; [apply Rle_0_sqr|]. pose proof (D_small a) as H. pose proof (Rabs_pos (D a)). pose proof A_pos.
  replace (D a * D a) with (Rabs (D a) * Rabs (D a)) by (rewrite <- Rabs_mult; apply Rabs_pos_eq, Rle_0_sqr).
  replace (4 * (A * A)) with (2 * A * (2 * A)) by ring. apply Rmult_le_compat; lra.
Qed.
(** one squared difference *)
Lemma part64 a (d : b64) : d = Bminus mode_NE (vget p a) (vget c a) ->
  is_finite (Bmult mode_NE d d) = true /\ 0 <= B2R (Bmult mode_NE d d) /\ Rabs (B2R (Bmult mode_NE d d) - D a * D a) <= 4 * u * (D a * D a) + tiny0.
Proof.
  intros ->. pose proof A_pos as Ap. pose proof u_pos as Up. pose proof u_val as Uv. destruct (Hp a) as (F1 & _). destruct (Hc a) as (F2 & _).
  pose proof (D_small a) as Ds. pose proof (D_sq a) as (Q0 & Q1).
  destruct (A_big 2 ltac:(lra)) as (G1 & _). destruct (A_big 8 ltac:(lra)) as (_ & G2).
  destruct (sub64 _ _ F1 F2) as (F & e & He & E). { unfold D, real in Ds. lra. }
  set (d := Bminus mode_NE (vget p a) (vget c a)) in *. assert (E' : B2R d = D a * (1 + e)) by exact E. clear E.
  assert (e2 : Rabs ((1 + e) * (1 + e) - 1) <= 2 * u + u * u).
  { replace ((1 + e) * (1 + e) - 1) with (2 * e + e * e) by ring. eapply Rle_trans; [apply Rabs_triang|]. rewrite !Rabs_mult, (Rabs_pos_eq 2) by lra.
    assert (Rabs e * Rabs e <= u * u) by (apply Rmult_le_compat; auto using Rabs_pos). lra. }
  assert (uu : u * u <= u * / 1024) by (apply Rmult_le_compat_l; rewrite ?Uv; lra).
  assert (SQ : Rabs (B2R d * B2R d - D a * D a) <= (2 * u + u * u) * (D a * D a)).
  { rewrite E'. replace (D a * (1 + e) * (D a * (1 + e)) - D a * D a) with (((1 + e) * (1 + e) - 1) * (D a * D a)) by ring.
    rewrite Rabs_mult, (Rabs_pos_eq (D a * D a)) by exact Q0. apply Rmult_le_compat_r; lra. }
  set (q := D a * D a) in *. set (w := B2R d * B2R d) in *.
  assert (uq : 0 <= u * q) by (apply Rmult_le_pos; lra). assert (uuq : u * u * q <= u * / 1024 * q) by (apply Rmult_le_compat_r; lra).
  assert (W0 : 0 <= w) by apply Rle_0_sqr.
  assert (W1 : w <= q + 3 * (u * q)) by (unfold Rabs in SQ; destruct Rcase_abs; lra).
  assert (uq1 : u * q <= / 16 * q) by (apply Rmult_le_compat_r; rewrite ?Uv; lra).
  destruct (sq64 d F) as (F' & P' & V). { fold w. rewrite Rabs_pos_eq by exact W0. lra. }
  fold w in V. split; [exact F'|]. split; [exact P'|].
  replace (B2R (Bmult mode_NE d d) - q) with ((B2R (Bmult mode_NE d d) - w) + (w - q)) by ring. eapply Rle_trans; [apply Rabs_triang|].
  assert (u * w <= u * (q + 3 * (u * q))) by (apply Rmult_le_compat_l; lra). lra.
Qed.

Lemma circle64 : let phi := (nsub (nsqrt (vmag2 (vsub p c))) r) in is_finite phi = true /\
  Rabs (real phi - (distance (reals p) (reals c) - real r)) <= bpow radix2 (-47) * A.
Proof.
  cbv zeta. pose proof A_pos as Ap. pose proof u_pos as Up. pose proof u_val as Uv. pose proof tiny0_pos as Tp.
  destruct (part64 AX _ eq_refl) as (Fx & Px & Ex). destruct (part64 AY _ eq_refl) as (Fy & Py & Ey). destruct (part64 AZ _ eq_refl) as (Fz & Pz & Ez).
  pose proof (D_sq AX) as Qx. pose proof (D_sq AY) as Qy. pose proof (D_sq AZ) as Qz. destruct (A_big 64 ltac:(lra)) as (G1 & G2). 
  assert (AA : 0 < A * A) by (apply Rmult_lt_0_compat; lra).
  assert (TA : tiny0 <= A * A /\ tiny0 <= / 1024 * u * A).
  { destruct HA as [H1 _]. split.
    - apply Rle_trans with (bpow radix2 (-250) * bpow radix2 (-250)); [unfold tiny0; rewrite <- bpow_plus; apply bpow_le; lia|]. pose proof (bpow_gt_0 radix2 (-250)). apply Rmult_le_compat; lra.
    - apply Rle_trans with (/ 1024 * u * bpow radix2 (-250)); [|apply Rmult_le_compat_l; lra]. change (/ 1024) with (bpow radix2 (-10)). unfold u, tiny0. rewrite <- !bpow_plus. apply bpow_le. lia. }
  destruct TA as (TA1 & TA2).
  set (qx := D AX * D AX) in *. set (qy := D AY * D AY) in *. set (qz := D AZ * D AZ) in *.
  assert (small : forall q, 0 <= q -> 0 <= u * q /\ u * q <= / 1048576 * q /\ u * (u * q) <= / 1048576 * (u * q)).
  { intros q Hq. assert (0 <= u * q) by (apply Rmult_le_pos; lra). split; [assumption|]. split; apply Rmult_le_compat_r; rewrite ?Uv; lra. }
  destruct (small qx (proj1 Qx)) as (Ux & Ux' & Ux''). destruct (small qy (proj1 Qy)) as (Uy & Uy' & Uy''). destruct (small qz (proj1 Qz)) as (Uz & Uz' & Uz''). destruct (small tiny0 (Rlt_le _ _ Tp)) as (Ut & Ut' & Ut'').
  set (mx := Bmult mode_NE (Bminus mode_NE (vget p AX) (vget c AX)) (Bminus mode_NE (vget p AX) (vget c AX))) in *.
  set (my := Bmult mode_NE (Bminus mode_NE (vget p AY) (vget c AY)) (Bminus mode_NE (vget p AY) (vget c AY))) in *.
  set (mz := Bmult mode_NE (Bminus mode_NE (vget p AZ) (vget c AZ)) (Bminus mode_NE (vget p AZ) (vget c AZ))) in *.
  assert (Bx : B2R mx <= qx + 4 * (u * qx) + tiny0) by (unfold Rabs in Ex; destruct Rcase_abs; lra).
  assert (By : B2R my <= qy + 4 * (u * qy) + tiny0) by (unfold Rabs in Ey; destruct Rcase_abs; lra).
  assert (Bz : B2R mz <= qz + 4 * (u * qz) + tiny0) by (unfold Rabs in Ez; destruct Rcase_abs; lra).
  destruct (add64 mx my Fx Fy) as (F1 & e1 & He1 & E1). { rewrite Rabs_pos_eq by lra. lra. }
  set (s1 := Bplus mode_NE mx my) in *.
  assert (one : forall e, Rabs e <= u -> 0 <= 1 + e <= 2) by (intros e He; unfold Rabs in He; destruct Rcase_abs; rewrite ?Uv in *; lra).
  assert (S1p : 0 <= B2R s1) by (rewrite E1; apply Rmult_le_pos; [lra|apply one; exact He1]).
  assert (S1 : Rabs (B2R s1 - (qx + qy)) <= 6 * (u * (qx + qy)) + 3 * tiny0).
  { rewrite E1. replace ((B2R mx + B2R my) * (1 + e1) - (qx + qy)) with ((B2R mx - qx) + (B2R my - qy) + e1 * (B2R mx + B2R my)) by ring.
    eapply Rle_trans; [apply Rabs_triang|]. pose proof (Rabs_triang (B2R mx - qx) (B2R my - qy)).
    rewrite (Rabs_mult e1), (Rabs_pos_eq (B2R mx + B2R my)) by lra.
    assert (Rabs e1 * (B2R mx + B2R my) <= u * (qx + 4 * (u * qx) + tiny0 + (qy + 4 * (u * qy) + tiny0))) by (apply Rmult_le_compat; [apply Rabs_pos|lra|exact He1|lra]). lra. }
  assert (B1 : B2R s1 <= qx + qy + 6 * (u * (qx + qy)) + 3 * tiny0) by (unfold Rabs in S1; destruct Rcase_abs; lra).
  destruct (add64 s1 mz F1 Fz) as (F2 & e2 & He2 & E2). { rewrite Rabs_pos_eq by lra. lra. }
  set (s2 := Bplus mode_NE s1 mz) in *.
  assert (S2p : 0 <= B2R s2) by (rewrite E2; apply Rmult_le_pos; [lra|apply one; exact He2]).
  set (X := qx + qy + qz) in *.
  assert (S2 : Rabs (B2R s2 - X) <= 8 * u * X + 8 * tiny0).
  { rewrite E2. replace ((B2R s1 + B2R mz) * (1 + e2) - X) with ((B2R s1 - (qx + qy)) + (B2R mz - qz) + e2 * (B2R s1 + B2R mz)) by (unfold X; ring).
    eapply Rle_trans; [apply Rabs_triang|]. pose proof (Rabs_triang (B2R s1 - (qx + qy)) (B2R mz - qz)).
    rewrite (Rabs_mult e2), (Rabs_pos_eq (B2R s1 + B2R mz)) by lra.
    assert (Rabs e2 * (B2R s1 + B2R mz) <= u * (qx + qy + 6 * (u * (qx + qy)) + 3 * tiny0 + (qz + 4 * (u * qz) + tiny0))) by (apply Rmult_le_compat; [apply Rabs_pos|lra|exact He2|lra]).
    unfold X. lra. }
  assert (Xp : 0 <= X <= 12 * (A * A)) by (unfold X; lra).
  assert (dist : distance (reals p) (reals c) = sqrt X).
  { unfold distance. f_equal. unfold X, qx, qy, qz, D, reals. cbn [vget vx vy vz]. ring. }
  rewrite dist. set (d := sqrt X) in *.
  assert (d4 : 0 <= d <= 4 * A).
  { split; [apply sqrt_pos|]. unfold d. rewrite <- (sqrt_Rsqr (4 * A)) by lra. apply sqrt_le_1_alt. unfold Rsqr. lra. }
  assert (N : Rabs (sqrt (B2R s2) - d) <= 8 * u * d + bpow radix2 (-498)).
  { eapply Rle_trans; [apply (sqrt_near _ _ (8 * u) (8 * tiny0)); auto; try lra; rewrite ?Uv; lra|]. pose proof sqrt_tiny. fold d. lra. }
  assert (T498 : bpow radix2 (-498) <= / 1024 * u * A).
  { destruct HA as [H1 _]. apply Rle_trans with (/ 1024 * u * bpow radix2 (-250)); [|apply Rmult_le_compat_l; lra]. change (/ 1024) with (bpow radix2 (-10)). unfold u. rewrite <- !bpow_plus. apply bpow_le. lia. }
  destruct (sqrt64 s2 F2 S2p) as (F3 & P3 & E3). set (t := Bsqrt mode_NE s2) in *. set (y := sqrt (B2R s2)) in *.
  assert (uA : 0 < u * A) by (apply Rmult_lt_0_compat; lra). assert (uA' : u * A <= / 1048576 * A) by (apply Rmult_le_compat_r; rewrite ?Uv; lra).
  assert (ud : 0 <= u * d <= 4 * (u * A)). { split; [apply Rmult_le_pos; lra|]. replace (4 * (u * A)) with (u * (4 * A)) by ring. apply Rmult_le_compat_l; lra. }
  assert (Y : 0 <= y <= 5 * A). { split; [apply sqrt_pos|]. unfold Rabs in N. destruct Rcase_abs; lra. }
  assert (uy : u * y <= 5 * (u * A)) by (replace (5 * (u * A)) with (u * (5 * A)) by ring; apply Rmult_le_compat_l; lra).
  assert (T : Rabs (B2R t - d) <= 38 * (u * A)).
  { replace (B2R t - d) with ((B2R t - y) + (y - d)) by ring. eapply Rle_trans; [apply Rabs_triang|]. lra. }
  destruct Hr as (Fr & Br). unfold real in Br.
  assert (TR : Rabs (B2R t - B2R r) <= 6 * A).
  { assert (B2R t <= 5 * A) by (unfold Rabs in T; destruct Rcase_abs; lra). unfold Rminus. eapply Rle_trans; [apply Rabs_triang|]. rewrite Rabs_Ropp, (Rabs_pos_eq (B2R t)) by exact P3. lra. }
  destruct (sub64 t r F3 Fr) as (F4 & e4 & He4 & E4). { lra. }
  change (nsub (nsqrt (vmag2 (vsub p c))) r) with (Bminus mode_NE t r). split; [exact F4|]. unfold real. rewrite E4.
  replace ((B2R t - B2R r) * (1 + e4) - (d - B2R r)) with ((B2R t - d) + e4 * (B2R t - B2R r)) by ring. eapply Rle_trans; [apply Rabs_triang|]. rewrite (Rabs_mult e4).
  assert (Rabs e4 * Rabs (B2R t - B2R r) <= u * (6 * A)) by (apply Rmult_le_compat; auto using Rabs_pos).
  apply Rle_trans with (64 * (u * A)); [lra|]. rewrite <- Rmult_assoc. apply Rmult_le_compat_r; [lra|]. change (bpow radix2 (-47)) with (/ 140737488355328). rewrite Uv. lra.
Qed.
End Circle.
