(** Rounding errors of the base node and the local coordinate on one axis. *)
From Coq Require Import ZArith List Bool Lia Reals Lra.
From Flocq Require Import Core BinarySingleNaN.
From Verif Require Import Base Num NumB64 ModelVec ModelGrid SpecGrid SpecB64
  ProofsBase ProofsGridProps ProofsB64 ProofsB64Ops ProofsB64Grid ProofsRound.
Open Scope R_scope.

Section Axis.
Variables (lo hi : b64) (n : Z) (A rho : R).
Hypothesis Flo : is_finite lo = true.
Hypothesis Fhi : is_finite hi = true.
Hypothesis Hn : (1 <= n < 2 ^ 31)%Z.
Let L := B2R lo.
Let U := B2R hi.
Let D := (U - L) / IZR n.
Hypothesis LU : L < U.
Hypothesis HA : Rabs L <= A /\ Rabs U <= A /\ A <= bpow radix2 1000.
Hypothesis HD : bpow radix2 (-900) <= D.
Hypothesis Hrho : A <= rho * D.
Hypothesis Rrho : rho <= bpow radix2 30.
Definition epsr : R := 512 * u * rho.

Lemma rho_half : / 2 <= rho.
Proof.
  pose proof (D_A lo hi n A Hn LU HA HD) as (H1 & _). fold L U D in H1. pose proof (D_pos lo hi n HD) as Dp. fold L U D in Dp.
  apply (Rmult_le_reg_r D); [exact Dp|]. lra.
Qed.
Lemma epsr_range : u <= epsr <= / 4096.
Proof.
  pose proof rho_half. pose proof u_pos. unfold epsr. split.
  - assert (u * / 2 <= u * rho) by (apply Rmult_le_compat_l; lra). lra.
  - assert (u * rho <= u * bpow radix2 30) by (apply Rmult_le_compat_l; lra). change (bpow radix2 30) with 1073741824 in *. rewrite u_val in *. lra.
Qed.

Lemma dx_ap : okS D -> ap64 epsr D 1 1 (dx64 lo hi n) D.
Proof.
  intros HS. destruct (dx64_ok lo hi n A Flo Fhi Hn LU HA HD) as (F & E). fold L U D in E. pose proof epsr_range. pose proof rho_half. pose proof u_pos.
  pose proof (okS_pos _ HS) as Dp.
  split; [exact HS|]. split; [lra|]. split; [lra|]. split; [exact F|]. split; [rewrite Rabs_pos_eq; lra|].
  eapply Rle_trans; [exact E|]. apply Rmult_le_compat_r; [lra|]. unfold epsr. assert (u * / 2 <= u * rho) by (apply Rmult_le_compat_l; lra). lra.
Qed.
Lemma odx_ap : okS D -> okS (/ D) -> ap64 epsr (/ D) 1 1 (odx64 lo hi n) (/ D).
Proof.
  intros HS HS'. destruct (odx64_ok lo hi n A Flo Fhi Hn LU HA HD) as (F & E). fold L U D in E. pose proof epsr_range. pose proof rho_half. pose proof u_pos.
  pose proof (okS_pos _ HS') as Dp.
  split; [exact HS'|]. split; [lra|]. split; [lra|]. split; [exact F|]. split; [rewrite Rabs_pos_eq; lra|].
  eapply Rle_trans; [exact E|]. apply Rmult_le_compat_r; [lra|]. unfold epsr. assert (u * / 2 <= u * rho) by (apply Rmult_le_compat_l; lra). lra.
Qed.

(** b: the base coordinate computed for x; c: a lattice coordinate in the closed cells b and b' (that of xr) *)
Lemma axis64 (x : b64) (xr : R) : is_finite x = true -> L - 3 / 8 * D <= B2R x <= U + 3 / 8 * D -> Rabs (B2R x - xr) <= 128 * u * A ->
  let b := b64_floor (lat64 lo hi n x) in let t := (xr - L) / D - / 2 in
  exists c, IZR b <= c <= IZR b + 1 /\ IZR (Rfloor t) <= c <= IZR (Rfloor t) + 1 /\ Rabs (c - t) <= epsr /\
    -1 <= c < IZR n /\ -1 <= t < IZR n /\
    ap64 epsr 1 1 1 ((x - node64 lo hi n b) * odx64 lo hi n)%num (c - IZR b).
Proof.
  intros Fx Hx Hxr b t.
  pose proof (D_pos lo hi n HD) as Dp. fold L U D in Dp. pose proof (L_U_A lo hi A LU HA) as LA. fold L U in LA.
  pose proof (D_A lo hi n A Hn LU HA HD) as DA. fold L U D in DA. pose proof (n_real n Hn) as Nr. pose proof u_val as Uv. pose proof u_pos as Up.
  pose proof (H_D lo hi n Hn) as HDe. fold L U D in HDe. pose proof rho_half as Rh. pose proof epsr_range as Er.
  pose proof (base64_box lo hi n A Flo Fhi Hn LU HA HD x Fx Hx) as Bb. fold b in Bb.
  set (w := u * rho).
  assert (Hw : u * / 2 <= w <= / 8388608).
  { unfold w. split; [apply Rmult_le_compat_l; lra|]. apply Rle_trans with (u * bpow radix2 30); [apply Rmult_le_compat_l; lra|]. change (bpow radix2 30) with 1073741824. rewrite Uv. lra. }
  assert (uA : u * A <= w * D) by (unfold w; rewrite Rmult_assoc; apply Rmult_le_compat_l; lra).
  assert (iD : 0 < / D) by (apply Rinv_0_lt_compat; exact Dp).
  assert (uAi : u * A * / D <= w).
  { apply (Rmult_le_reg_r D); [exact Dp|]. rewrite Rmult_assoc, Rinv_l, Rmult_1_r by lra. exact uA. }
  (* lattice coordinate *)
  set (tx := (B2R x - L) / D).
  assert (Tb : - (3 / 8) <= tx <= IZR n + 3 / 8).
  { unfold tx. split.
    - apply (Rmult_le_reg_r D); [exact Dp|]. unfold Rdiv. rewrite Rmult_assoc, Rinv_l by lra. lra.
    - apply (Rmult_le_reg_r D); [exact Dp|]. unfold Rdiv. rewrite Rmult_assoc, Rinv_l by lra. lra. }
  assert (At : Rabs tx <= IZR n + 3 / 8) by (apply Rabs_le; lra).
  assert (N40 : 2147483650 <= bpow radix2 40) by (change (bpow radix2 40) with (IZR (2 ^ 40)); apply IZR_le; lia).
  destruct (lat64_ok lo hi n A Flo Fhi Hn LU HA HD x Fx) as (Fq & Eq).
  { fold L U D. apply Rabs_le. lra. }
  { fold L U D tx. lra. }
  fold L U D tx in Eq. set (q := B2R (lat64 lo hi n x)) in *.
  assert (un : u * IZR n <= 2 * w).
  { assert (IZR n <= 2 * rho). { apply (Rmult_le_reg_r D); [exact Dp|]. lra. } unfold w. assert (u * IZR n <= u * (2 * rho)) by (apply Rmult_le_compat_l; lra). lra. }
  assert (Eq1 : Rabs (q - (tx - / 2)) <= 76 * w).
  { eapply Rle_trans; [exact Eq|]. assert (u * Rabs tx <= u * (IZR n + 3 / 8)) by (apply Rmult_le_compat_l; lra). lra. }
  assert (Tt : Rabs (tx - / 2 - t) <= 128 * w).
  { unfold tx, t. replace ((B2R x - L) / D - / 2 - ((xr - L) / D - / 2)) with ((B2R x - xr) * / D) by (field; lra).
    rewrite Rabs_mult, (Rabs_pos_eq (/ D)) by lra. apply Rle_trans with (128 * u * A * / D); [apply Rmult_le_compat_r; lra|]. lra. }
  assert (Q : Rabs (q - t) <= 204 * w).
  { replace (q - t) with ((q - (tx - / 2)) + (tx - / 2 - t)) by ring. eapply Rle_trans; [apply Rabs_triang|]. lra. }
  assert (Bq : -1 <= q < IZR n).
  { unfold Rabs in Eq1. destruct Rcase_abs; lra. }
  assert (A53 : Rabs q < bpow radix2 53).
  { apply Rle_lt_trans with (bpow radix2 40); [apply Rabs_le; lra|apply bpow_lt; lia]. }
  assert (Fb : IZR b <= q < IZR b + 1).
  { unfold b. rewrite floor64 by (auto; exact A53). fold q. pose proof (Rfloor_spec q). lra. }
  pose proof (Rfloor_spec t) as Ft. set (b' := Rfloor t) in *.
  assert (Ta : t - 204 * w <= q <= t + 204 * w) by (unfold Rabs in Q; destruct Rcase_abs; lra).
  assert (Tn : -1 <= t < IZR n) by (unfold Rabs in Tt; destruct Rcase_abs; lra).
  assert (C : exists c, IZR b <= c <= IZR b + 1 /\ IZR b' <= c <= IZR b' + 1 /\ Rabs (c - t) <= 204 * w /\ -1 <= c < IZR n).
  { assert (Bn : -1 <= IZR b <= IZR n - 1) by (split; [apply IZR_le; lia|rewrite <- minus_IZR; apply IZR_le; lia]).
    destruct (Z.lt_trichotomy b b') as [G|[G|G]].
    - assert (G1 : (b' - 1 <= b)%Z). { assert (b' - 2 < b)%Z; [|lia]. apply lt_IZR. rewrite minus_IZR. lra. }
      assert (G2 : IZR b = IZR b' - 1) by (rewrite <- minus_IZR; f_equal; lia).
      exists (IZR b'). split; [lra|]. split; [lra|]. split; [apply Rabs_le; lra|lra].
    - rewrite <- G in Ft. exists t. rewrite <- G. split; [lra|]. split; [lra|]. split; [rewrite (Rminus_diag_eq t t), Rabs_R0 by reflexivity; lra|lra].
    - assert (G1 : (b <= b' + 1)%Z). { assert (b < b' + 2)%Z; [|lia]. apply lt_IZR. rewrite plus_IZR. lra. }
      assert (G2 : IZR b = IZR b' + 1) by (rewrite <- plus_IZR; f_equal; lia).
      exists (IZR b). split; [lra|]. split; [lra|]. split; [apply Rabs_le; lra|lra]. }
  destruct C as (c & C1 & C2 & C3 & C4). exists c. split; [exact C1|]. split; [exact C2|]. split; [unfold epsr; fold w; replace (512 * u * rho) with (512 * w) by (unfold w; ring); lra|].
  split; [exact C4|]. split; [exact Tn|].
  (* the local coordinate *)
  destruct (node64_ok lo hi n A Flo Fhi Hn LU HA HD b) as (Fo & Eo); [lia|]. fold L U D in Eo. set (xb := node64 lo hi n b) in *. clearbody xb.
  destruct (odx64_ok lo hi n A Flo Fhi Hn LU HA HD) as (Fod & Eod). fold L U D in Eod. set (o := odx64 lo hi n) in *. clearbody o.
  set (v := c - IZR b). assert (Hv : 0 <= v <= 1) by (unfold v; lra).
  assert (X1 : Rabs (B2R x - B2R xb - v * D) <= 396 * w * D).
  { replace (B2R x - B2R xb - v * D) with ((B2R x - xr) + (- (B2R xb - (L + (IZR b + / 2) * D))) + (t - c) * D)
      by (unfold v, t; field; lra).
    eapply Rle_trans; [apply Rabs_triang|]. rewrite Rabs_mult, (Rabs_pos_eq D), (Rabs_minus_sym t c) by lra.
    assert (Rabs (c - t) * D <= 204 * w * D) by (apply Rmult_le_compat_r; lra).
    eapply Rle_trans; [apply Rplus_le_compat_r, Rabs_triang|]. rewrite Rabs_Ropp. lra. }
  assert (wD : 396 * w * D <= / 1024 * D) by (apply Rmult_le_compat_r; lra).
  assert (vD : 0 <= v * D <= D) by (split; [apply Rmult_le_pos; lra|rewrite <- (Rmult_1_l D) at 2; apply Rmult_le_compat_r; lra]).
  assert (X0 : Rabs (B2R x - B2R xb) <= 2 * D).
  { replace (B2R x - B2R xb) with ((B2R x - B2R xb - v * D) + v * D) by ring. eapply Rle_trans; [apply Rabs_triang|]. rewrite (Rabs_pos_eq (v * D)) by lra. lra. }
  pose proof big as BG. assert (B1022 : 4 * D <= bpow radix2 1022).
  { destruct HA as (_ & _ & HA3). lra. }
  destruct (sub64 x xb Fx Fo) as (Fz & e & He & Ez). { lra. }
  set (z := Bminus mode_NE x xb) in *.
  assert (X2 : Rabs (B2R z - v * D) <= 400 * w * D).
  { rewrite Ez. replace ((B2R x - B2R xb) * (1 + e) - v * D) with ((B2R x - B2R xb - v * D) + e * (B2R x - B2R xb)) by ring.
    eapply Rle_trans; [apply Rabs_triang|]. rewrite Rabs_mult.
    assert (Rabs e * Rabs (B2R x - B2R xb) <= u * (2 * D)) by (apply Rmult_le_compat; auto; apply Rabs_pos).
    assert (u * D <= 2 * w * D) by (apply Rmult_le_compat_r; lra). lra. }
  assert (oD : Rabs (B2R o * D - 1) <= 6 * u).
  { replace (B2R o * D - 1) with ((B2R o - / D) * D) by (field; lra). rewrite Rabs_mult, (Rabs_pos_eq D) by lra.
    apply Rle_trans with (6 * u * / D * D); [apply Rmult_le_compat_r; lra|]. rewrite Rmult_assoc, Rinv_l by lra. lra. }
  assert (X3 : Rabs (B2R z * B2R o - v) <= 413 * w).
  { replace (B2R z * B2R o - v) with ((B2R z - v * D) * / D * (B2R o * D) + v * (B2R o * D - 1)) by (field; lra).
    eapply Rle_trans; [apply Rabs_triang|]. rewrite !Rabs_mult, (Rabs_pos_eq v), (Rabs_pos_eq (/ D)) by lra.
    assert (O1 : Rabs (B2R o) * Rabs D <= 1 + 6 * u).
    { rewrite <- Rabs_mult. replace (B2R o * D) with (1 + (B2R o * D - 1)) by ring. eapply Rle_trans; [apply Rabs_triang|]. rewrite Rabs_R1. lra. }
    assert (Z1 : Rabs (B2R z - v * D) * / D <= 400 * w).
    { apply Rle_trans with (400 * w * D * / D); [apply Rmult_le_compat_r; lra|]. rewrite Rmult_assoc, Rinv_r by lra. lra. }
    assert (Z0 : 0 <= Rabs (B2R z - v * D) * / D) by (apply Rmult_le_pos; [apply Rabs_pos|lra]).
    assert (P1 : Rabs (B2R z - v * D) * / D * (Rabs (B2R o) * Rabs D) <= 400 * w * (1 + 6 * u)).
    { apply Rmult_le_compat; auto. apply Rmult_le_pos; apply Rabs_pos. }
    assert (P2 : v * Rabs (B2R o * D - 1) <= 1 * (6 * u)) by (apply Rmult_le_compat; try lra; apply Rabs_pos).
    assert (P3 : 400 * w * (6 * u) <= 400 * w * (/ 1024)) by (apply Rmult_le_compat_l; [lra|rewrite Uv; lra]). lra. }
  assert (X4 : Rabs (B2R z * B2R o) <= 2).
  { replace (B2R z * B2R o) with ((B2R z * B2R o - v) + v) by ring. eapply Rle_trans; [apply Rabs_triang|]. rewrite (Rabs_pos_eq v) by lra. lra. }
  destruct (mul64_abs z o Fz Fod) as (Fm & Em).
  { apply Rle_trans with (bpow radix2 1); [change (bpow radix2 1) with 2; exact X4|apply bpow_le; lia]. }
  split; [apply okS_1|]. split; [lra|]. split; [lra|]. split; [exact Fm|]. split; [rewrite Rabs_pos_eq by lra; lra|].
  change ((x - xb) * o)%num with (Bmult mode_NE z o).
  replace (B2R (Bmult mode_NE z o) - v) with ((B2R (Bmult mode_NE z o) - B2R z * B2R o) + (B2R z * B2R o - v)) by ring.
  eapply Rle_trans; [apply Rabs_triang|]. unfold epsr. replace (512 * u * rho) with (512 * w) by (unfold w; ring).
  assert (u * Rabs (B2R z * B2R o) <= u * 2) by (apply Rmult_le_compat_l; lra).
  assert (bpow radix2 (-1000) <= u) by (apply bpow_le; lia). lra.
Qed.
End Axis.
