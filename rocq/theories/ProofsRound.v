(** Propagation of rounding errors through the Hermite formulas. *)
From Coq Require Import ZArith List Bool Lia Reals Lra.
From Flocq Require Import Core BinarySingleNaN.
From Verif Require Import Base Num NumB64 ModelVec ModelGrid ModelArray ModelInterp SpecGrid SpecB64
  ProofsBase ProofsGrid ProofsArray ProofsGridProps ProofsInterp ProofsB64 ProofsB64Ops ProofsB64Grid.
Open Scope R_scope.

Definition okS (S : R) : Prop := bpow radix2 (-900) <= S <= bpow radix2 900.
Lemma okS_pos S : okS S -> 0 < S.
Proof. intros [H _]. pose proof (bpow_gt_0 radix2 (-900)). lra. Qed.
Lemma okS_1 : okS 1.
Proof. split; change 1 with (bpow radix2 0); apply bpow_le; lia. Qed.

(** ** Rules for "z is r up to an error of k e S, and r is at most B S" *)
Definition lim20 : R := 1048576.
Record calc {T} {NT : Num T} (ap : R -> R -> R -> T -> R -> Prop) : Prop := {
  c_pos : forall S B k z r, ap S B k z r -> okS S /\ 0 <= B /\ 0 <= k /\ Rabs r <= B * S;
  c_weak : forall S B k B' k' z r, ap S B k z r -> Rabs r <= B' * S -> k <= k' -> ap S B' k' z r;
  c_add : forall S B1 B2 k1 k2 B k z1 z2 r1 r2, ap S B1 k1 z1 r1 -> ap S B2 k2 z2 r2 -> Rabs (r1 + r2) <= B * S ->
    B <= lim20 -> k1 <= lim20 -> k2 <= lim20 -> k1 + k2 + B + / 1024 <= k -> ap S B k (z1 + z2)%num (r1 + r2);
  c_sub : forall S B1 B2 k1 k2 B k z1 z2 r1 r2, ap S B1 k1 z1 r1 -> ap S B2 k2 z2 r2 -> Rabs (r1 - r2) <= B * S ->
    B <= lim20 -> k1 <= lim20 -> k2 <= lim20 -> k1 + k2 + B + / 1024 <= k -> ap S B k (z1 - z2)%num (r1 - r2);
  c_mul : forall S1 S2 B1 B2 k1 k2 B k z1 z2 r1 r2, ap S1 B1 k1 z1 r1 -> ap S2 B2 k2 z2 r2 -> okS (S1 * S2) -> Rabs (r1 * r2) <= B * (S1 * S2) ->
    B1 <= lim20 -> B2 <= lim20 -> k1 <= lim20 -> k2 <= lim20 -> k1 * B2 + B1 * k2 + k1 * k2 / 4096 + B + / 512 <= k ->
    ap (S1 * S2) B k (z1 * z2)%num (r1 * r2);
  c_int : forall z, (Z.abs z <= 3)%Z -> ap 1 (IZR (Z.abs z)) 0 (nofZ z) (IZR z);
  c_zero : forall S, okS S -> ap S 0 0 (nofZ 0) 0;
  c_third : ap 1 (/ 3) (/ 3) one_third (/ 3) }.

(** ** Doubles *)
Section B64.
Variable eps : R.
Hypothesis eps_range : u <= eps <= / 4096.
Definition ap64 (S B k : R) (z : b64) (r : R) : Prop :=
  okS S /\ 0 <= B /\ 0 <= k /\ is_finite z = true /\ Rabs r <= B * S /\ Rabs (B2R z - r) <= k * eps * S.

Lemma size64 S B k z r : ap64 S B k z r -> Rabs (B2R z) <= (B + k * eps) * S.
Proof.
  intros (_ & _ & _ & _ & H1 & H2). replace (B2R z) with (r + (B2R z - r)) by ring.
  eapply Rle_trans; [apply Rabs_triang|]. lra.
Qed.
Lemma keps k : 0 <= k -> k <= lim20 -> 0 <= k * eps <= 256.
Proof.
  unfold lim20. intros H0 H. pose proof u_pos. split; [apply Rmult_le_pos; lra|].
  apply Rle_trans with (1048576 * / 4096); [|lra]. apply Rmult_le_compat; lra.
Qed.
Lemma huge S C : okS S -> C <= bpow radix2 100 -> 0 <= C -> C * S <= bpow radix2 1022.
Proof.
  intros [H1 H2] HC H0. apply Rle_trans with (bpow radix2 100 * bpow radix2 900).
  - pose proof (bpow_gt_0 radix2 (-900)). apply Rmult_le_compat; lra.
  - rewrite <- bpow_plus. apply bpow_le. lia.
Qed.

Lemma rounded S k x y e t : okS S -> 0 <= t -> Rabs e <= u -> Rabs (x - y) <= k * eps * S -> Rabs x <= t * S -> Rabs (x * (1 + e) - y) <= (k * eps + u * t) * S.
Proof.
  intros HS Ht He Hxy Hx. pose proof (okS_pos _ HS). pose proof u_pos.
  replace (x * (1 + e) - y) with ((x - y) + e * x) by ring. eapply Rle_trans; [apply Rabs_triang|]. rewrite (Rabs_mult e x).
  assert (Rabs e * Rabs x <= u * (t * S)) by (apply Rmult_le_compat; auto; apply Rabs_pos). lra.
Qed.
Lemma add_rule (f : b64 -> b64 -> b64) (fr : R -> R -> R) :
  (forall x y : b64, is_finite x = true -> is_finite y = true -> Rabs (fr (B2R x) (B2R y)) <= bpow radix2 1022 -> close (f x y) (fr (B2R x) (B2R y))) ->
  (forall a b c d, Rabs (fr a b - fr c d) <= Rabs (a - c) + Rabs (b - d)) ->
  forall S B1 B2 k1 k2 B k z1 z2 r1 r2, ap64 S B1 k1 z1 r1 -> ap64 S B2 k2 z2 r2 -> Rabs (fr r1 r2) <= B * S ->
    B <= lim20 -> k1 <= lim20 -> k2 <= lim20 -> k1 + k2 + B + / 1024 <= k -> ap64 S B k (f z1 z2) (fr r1 r2).
Proof.
  intros Hf Hr S B1 B2 k1 k2 B k z1 z2 r1 r2 A1 A2 HB LB L1 L2 HK.
  destruct A1 as (HS & P1 & P1' & F1 & Q1 & E1). destruct A2 as (_ & P2 & P2' & F2 & Q2 & E2).
  pose proof (okS_pos _ HS) as Sp. pose proof (keps k1 P1' L1) as K1. pose proof (keps k2 P2' L2) as K2. pose proof u_pos as Up.
  assert (PB : 0 <= B). { apply Rmult_le_reg_r with S; [exact Sp|]. pose proof (Rabs_pos (fr r1 r2)). lra. }
  assert (D : Rabs (fr (B2R z1) (B2R z2) - fr r1 r2) <= (k1 + k2) * eps * S).
  { eapply Rle_trans; [apply Hr|]. lra. }
  assert (Z : Rabs (fr (B2R z1) (B2R z2)) <= (B + (k1 + k2) * eps) * S).
  { replace (fr (B2R z1) (B2R z2)) with (fr r1 r2 + (fr (B2R z1) (B2R z2) - fr r1 r2)) by ring. eapply Rle_trans; [apply Rabs_triang|]. lra. }
  destruct (Hf z1 z2 F1 F2) as (F & e & He & E).
  { eapply Rle_trans; [exact Z|]. apply huge; auto; [|lra]. apply Rle_trans with (bpow radix2 21); [|apply bpow_le; lia].
    change (bpow radix2 21) with 2097152. unfold lim20 in *. lra. }
  split; [exact HS|]. split; [exact PB|]. split; [lra|]. split; [exact F|]. split; [exact HB|].
  rewrite E. eapply Rle_trans; [apply (rounded S (k1 + k2) _ _ e (B + (k1 + k2) * eps)); auto; lra|].
  apply Rmult_le_compat_r; [lra|].
  assert (U1 : u * (B + (k1 + k2) * eps) <= (B + / 1024) * eps).
  { assert (u * B <= eps * B) by (apply Rmult_le_compat_r; lra).
    assert (u * ((k1 + k2) * eps) <= / 1024 * eps).
    { rewrite <- Rmult_assoc. apply Rmult_le_compat_r; [lra|]. rewrite u_val in *. unfold lim20 in *. lra. }
    lra. }
  assert ((k1 + k2 + B + / 1024) * eps <= k * eps) by (apply Rmult_le_compat_r; lra). lra.
Qed.

Lemma calc64 : calc (NT := NumB64) ap64.
Proof.
  split.
  - intros S B k z r (H1 & H2 & H3 & _ & H4 & _). auto.
  - intros S B k B' k' z r (H1 & H2 & H3 & H4 & H5 & H6) HB Hk. pose proof (okS_pos _ H1) as Sp. pose proof u_pos.
    split; [exact H1|]. split. { apply Rmult_le_reg_r with S; [exact Sp|]. pose proof (Rabs_pos r). lra. }
    split; [lra|]. split; [exact H4|]. split; [exact HB|]. eapply Rle_trans; [exact H6|]. apply Rmult_le_compat_r; [lra|]. apply Rmult_le_compat_r; lra.
  - apply (add_rule (Bplus mode_NE) Rplus); [exact add64|]. intros a b c d. replace (a + b - (c + d)) with ((a - c) + (b - d)) by ring. apply Rabs_triang.
  - apply (add_rule (Bminus mode_NE) Rminus); [exact sub64|]. intros a b c d. replace (a - b - (c - d)) with ((a - c) + - (b - d)) by ring. eapply Rle_trans; [apply Rabs_triang|]. rewrite Rabs_Ropp. lra.
  - intros S1 S2 B1 B2 k1 k2 B k z1 z2 r1 r2 A1 A2 HS HB LB1 LB2 L1 L2 HK.
    pose proof (size64 _ _ _ _ _ A2) as Z2.
    destruct A1 as (HS1 & P1 & P1' & F1 & Q1 & E1). destruct A2 as (HS2 & P2 & P2' & F2 & Q2 & E2).
    pose proof (okS_pos _ HS1) as S1p. pose proof (okS_pos _ HS2) as S2p. pose proof (okS_pos _ HS) as Sp.
    pose proof (keps k1 P1' L1) as K1. pose proof (keps k2 P2' L2) as K2. pose proof u_pos as Up.
    assert (PB : 0 <= B). { apply Rmult_le_reg_r with (S1 * S2); [exact Sp|]. pose proof (Rabs_pos (r1 * r2)). lra. }
    set (q := k1 * B2 + B1 * k2 + k1 * k2 * eps).
    assert (Q0 : 0 <= k1 * B2 /\ 0 <= B1 * k2 /\ 0 <= k1 * k2) by (repeat split; apply Rmult_le_pos; lra).
    assert (Qk : 0 <= k1 * k2 * eps <= k1 * k2 / 4096) by (split; [apply Rmult_le_pos; lra|unfold Rdiv; apply Rmult_le_compat_l; lra]).
    assert (D : Rabs (B2R z1 * B2R z2 - r1 * r2) <= q * eps * (S1 * S2)).
    { replace (B2R z1 * B2R z2 - r1 * r2) with ((B2R z1 - r1) * B2R z2 + r1 * (B2R z2 - r2)) by ring.
      eapply Rle_trans; [apply Rabs_triang|]. rewrite !Rabs_mult.
      assert (Rabs (B2R z1 - r1) * Rabs (B2R z2) <= k1 * eps * S1 * ((B2 + k2 * eps) * S2)) by (apply Rmult_le_compat; auto; apply Rabs_pos).
      assert (Rabs r1 * Rabs (B2R z2 - r2) <= B1 * S1 * (k2 * eps * S2)) by (apply Rmult_le_compat; auto; apply Rabs_pos).
      unfold q. replace ((k1 * B2 + B1 * k2 + k1 * k2 * eps) * eps * (S1 * S2)) with (k1 * eps * S1 * ((B2 + k2 * eps) * S2) + B1 * S1 * (k2 * eps * S2)) by ring. lra. }
    assert (Qb : 0 <= q <= bpow radix2 41 * 2).
    { split; [unfold q; lra|]. change (bpow radix2 41) with 2199023255552. unfold q. unfold lim20 in *.
      assert (k1 * B2 <= 1048576 * 1048576) by (apply Rmult_le_compat; lra).
      assert (B1 * k2 <= 1048576 * 1048576) by (apply Rmult_le_compat; lra).
      assert (k1 * k2 <= 1048576 * 1048576) by (apply Rmult_le_compat; lra). lra. }
    assert (Z : Rabs (B2R z1 * B2R z2) <= (B + q * eps) * (S1 * S2)).
    { replace (B2R z1 * B2R z2) with (r1 * r2 + (B2R z1 * B2R z2 - r1 * r2)) by ring. eapply Rle_trans; [apply Rabs_triang|]. lra. }
    (* the bound on B used for overflow: through B1 B2 *)
    assert (Zs : Rabs (B2R z1 * B2R z2) <= bpow radix2 1022).
    { assert (Z1 : Rabs (B2R z1) <= (B1 + k1 * eps) * S1).
      { replace (B2R z1) with (r1 + (B2R z1 - r1)) by ring. eapply Rle_trans; [apply Rabs_triang|]. lra. }
      rewrite Rabs_mult. apply Rle_trans with ((B1 + k1 * eps) * S1 * ((B2 + k2 * eps) * S2)); [apply Rmult_le_compat; auto; apply Rabs_pos|].
      replace ((B1 + k1 * eps) * S1 * ((B2 + k2 * eps) * S2)) with ((B1 + k1 * eps) * (B2 + k2 * eps) * (S1 * S2)) by ring.
      unfold lim20 in *. apply huge; auto; [|apply Rmult_le_pos; lra].
      apply Rle_trans with (bpow radix2 21 * bpow radix2 21); [|rewrite <- bpow_plus; apply bpow_le; lia].
      change (bpow radix2 21) with 2097152. apply Rmult_le_compat; lra. }
    destruct (mul64_abs z1 z2 F1 F2 Zs) as (F & E).
    split; [exact HS|]. split; [exact PB|]. split.
    { apply Rle_trans with (k1 * B2 + B1 * k2 + k1 * k2 / 4096 + B + / 512); lra. }
    split; [exact F|]. split; [exact HB|].
    replace (B2R (z1 * z2)%num - r1 * r2) with ((B2R (z1 * z2)%num - B2R z1 * B2R z2) + (B2R z1 * B2R z2 - r1 * r2)) by ring.
    eapply Rle_trans; [apply Rabs_triang|].
    assert (T : bpow radix2 (-1000) <= / 1024 * eps * (S1 * S2)).
    { apply Rle_trans with (/ 1024 * u * bpow radix2 (-900)).
      - unfold u. change (/ 1024) with (bpow radix2 (-10)). rewrite <- !bpow_plus. apply bpow_le. lia.
      - destruct HS as [HS _]. pose proof (bpow_gt_0 radix2 (-900)). apply Rmult_le_compat; lra. }
    assert (U1 : u * (B + q * eps) <= (B + / 1024) * eps).
    { assert (u * B <= eps * B) by (apply Rmult_le_compat_r; lra).
      assert (u * (q * eps) <= / 1024 * eps).
      { rewrite <- Rmult_assoc. apply Rmult_le_compat_r; [lra|]. change (bpow radix2 41) with 2199023255552 in Qb. rewrite u_val in *. lra. }
      lra. }
    assert (V1 : u * Rabs (B2R z1 * B2R z2) <= (B + / 1024) * eps * (S1 * S2)).
    { apply Rle_trans with (u * ((B + q * eps) * (S1 * S2))); [apply Rmult_le_compat_l; lra|].
      rewrite <- Rmult_assoc. apply Rmult_le_compat_r; lra. }
    assert (W : (q + B + / 512) * eps * (S1 * S2) <= k * eps * (S1 * S2)).
    { apply Rmult_le_compat_r; [lra|]. apply Rmult_le_compat_r; [lra|]. unfold q. lra. }
    cbn [nmul NumB64] in *. lra.
  - intros z Hz. destruct (int64 z) as (F & E). { change (2 ^ 53)%Z with 9007199254740992%Z. lia. }
    split; [apply okS_1|]. split; [apply IZR_le; lia|]. split; [lra|]. split; [exact F|]. split.
    + rewrite abs_IZR. lra.
    + change (nofZ z : b64) with (b64_make z 0). rewrite E. rewrite Rminus_diag_eq by reflexivity. rewrite Rabs_R0. lra.
  - intros S HS. destruct (int64 0) as (F & E); [cbn; lia|]. split; [exact HS|]. split; [lra|]. split; [lra|]. split; [exact F|]. split.
    + rewrite Rabs_R0. lra.
    + change (nofZ 0 : b64) with (b64_make 0 0). rewrite E, Rminus_0_r, Rabs_R0. lra.
  - destruct (int64 1) as (F1 & E1); [cbn; lia|]. destruct (int64 3) as (F3 & E3); [cbn; lia|].
    assert (X : B2R (b64_make 1 0) / B2R (b64_make 3 0) = / 3) by (rewrite E1, E3; lra).
    destruct (div64 (b64_make 1 0) (b64_make 3 0) F1) as (F & e & He & E).
    { rewrite E3. lra. }
    { rewrite X. rewrite Rabs_pos_eq by lra. apply Rle_trans with (bpow radix2 0); [change (bpow radix2 0) with 1; lra|apply bpow_le; lia]. }
    { right. rewrite X. rewrite Rabs_pos_eq by lra. apply Rle_trans with (bpow radix2 (-2)); [apply bpow_le; lia|change (bpow radix2 (-2)) with (/ 4); lra]. }
    split; [apply okS_1|]. split; [lra|]. split; [lra|]. split; [exact F|]. split; [rewrite Rabs_pos_eq; lra|].
    change (one_third : b64) with (Bdiv mode_NE (b64_make 1 0) (b64_make 3 0)). rewrite E, X.
    replace (/ 3 * (1 + e) - / 3) with (/ 3 * e) by ring. rewrite Rabs_mult, (Rabs_pos_eq (/ 3)) by lra. lra.
Qed.
End B64.
