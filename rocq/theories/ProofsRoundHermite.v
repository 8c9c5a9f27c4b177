(** Rounding errors of the Hermite formulas, in each dimension. *)
From Coq Require Import ZArith List Bool Lia Reals Lra.
From Flocq Require Import Core.
From Verif Require Import Base Num ModelVec ModelGrid ModelArray ModelInterp ProofsRound.
Open Scope R_scope.

(** ** Exact arithmetic is a special case *)
Section Real.
Variable eps : R.
Hypothesis eps_range : 0 <= eps <= / 4096.
Definition apR (S B k z r : R) : Prop := okS S /\ 0 <= B /\ 0 <= k /\ Rabs r <= B * S /\ Rabs (z - r) <= k * eps * S.
Lemma R_pos B S r : okS S -> Rabs r <= B * S -> 0 <= B.
Proof. intros HS H. apply okS_pos in HS. apply Rmult_le_reg_r with S; [exact HS|]. pose proof (Rabs_pos r). lra. Qed.
Lemma R_k k k' S : okS S -> k <= k' -> k * eps * S <= k' * eps * S.
Proof. intros HS H. apply okS_pos in HS. apply Rmult_le_compat_r; [lra|]. apply Rmult_le_compat_r; lra. Qed.
Lemma calcR : calc apR.
Proof.
  split.
  - intros S B k z r (H1 & H2 & H3 & H4 & _). auto.
  - intros S B k B' k' z r (H1 & H2 & H3 & H4 & H5) HB Hk. split; [exact H1|]. split; [eapply R_pos; eauto|]. split; [lra|]. split; [exact HB|].
    eapply Rle_trans; [exact H5|]. apply R_k; auto.
  - intros S B1 B2 k1 k2 B k z1 z2 r1 r2 (H1 & H2 & H3 & H4 & H5) (_ & G2 & G3 & G4 & G5) HB _ _ _ HK.
    pose proof (R_pos _ _ _ H1 HB). split; [exact H1|]. split; [auto|]. split; [lra|]. split; [exact HB|]. cbn [nadd NumR].
    replace (z1 + z2 - (r1 + r2)) with ((z1 - r1) + (z2 - r2)) by ring. eapply Rle_trans; [apply Rabs_triang|].
    pose proof (R_k (k1 + k2) k S H1 ltac:(lra)). lra.
  - intros S B1 B2 k1 k2 B k z1 z2 r1 r2 (H1 & H2 & H3 & H4 & H5) (_ & G2 & G3 & G4 & G5) HB _ _ _ HK.
    pose proof (R_pos _ _ _ H1 HB). split; [exact H1|]. split; [auto|]. split; [lra|]. split; [exact HB|]. cbn [nsub NumR].
    replace (z1 - z2 - (r1 - r2)) with ((z1 - r1) + - (z2 - r2)) by ring. eapply Rle_trans; [apply Rabs_triang|]. rewrite Rabs_Ropp.
    pose proof (R_k (k1 + k2) k S H1 ltac:(lra)). lra.
  - intros S1 S2 B1 B2 k1 k2 B k z1 z2 r1 r2 (H1 & H2 & H3 & H4 & H5) (G1 & G2 & G3 & G4 & G5) HS HB _ _ _ _ HK.
    pose proof (R_pos _ _ _ HS HB). pose proof (okS_pos _ H1). pose proof (okS_pos _ G1).
    assert (Q0 : 0 <= k1 * B2 /\ 0 <= B1 * k2 /\ 0 <= k1 * k2) by (repeat split; apply Rmult_le_pos; lra).
    split; [exact HS|]. split; [auto|]. split; [lra|]. split; [exact HB|]. cbn [nmul NumR].
    assert (Z2 : Rabs z2 <= (B2 + k2 * eps) * S2).
    { replace z2 with (r2 + (z2 - r2)) by ring. eapply Rle_trans; [apply Rabs_triang|]. lra. }
    replace (z1 * z2 - r1 * r2) with ((z1 - r1) * z2 + r1 * (z2 - r2)) by ring.
    eapply Rle_trans; [apply Rabs_triang|]. rewrite !Rabs_mult.
    assert (Rabs (z1 - r1) * Rabs z2 <= k1 * eps * S1 * ((B2 + k2 * eps) * S2)) by (apply Rmult_le_compat; auto; apply Rabs_pos).
    assert (Rabs r1 * Rabs (z2 - r2) <= B1 * S1 * (k2 * eps * S2)) by (apply Rmult_le_compat; auto; apply Rabs_pos).
    assert (Qk : k1 * k2 * eps <= k1 * k2 / 4096) by (unfold Rdiv; apply Rmult_le_compat_l; lra).
    pose proof (R_k (k1 * B2 + B1 * k2 + k1 * k2 * eps) k (S1 * S2) HS ltac:(lra)).
    replace ((k1 * B2 + B1 * k2 + k1 * k2 * eps) * eps * (S1 * S2)) with (k1 * eps * S1 * ((B2 + k2 * eps) * S2) + B1 * S1 * (k2 * eps * S2)) in * by ring. lra.
  - intros z Hz. split; [apply okS_1|]. split; [apply IZR_le; lia|]. split; [lra|]. split; [rewrite abs_IZR; lra|].
    cbn [nofZ NumR]. rewrite (Rminus_diag_eq (IZR z) (IZR z)) by reflexivity. rewrite Rabs_R0. lra.
  - intros S HS. split; [exact HS|]. split; [lra|]. split; [lra|]. cbn [nofZ NumR]. rewrite Rminus_0_r, Rabs_R0. split; lra.
  - split; [apply okS_1|]. split; [lra|]. split; [lra|]. split; [rewrite Rabs_pos_eq; lra|].
    unfold one_third. cbn [nofZ ndiv NumR]. rewrite (Rminus_diag_eq (1 / 3) (/ 3)) by lra. rewrite Rabs_R0. lra.
Qed.
End Real.

(** ** The formulas *)
Section Calc.
Context {T : Type} {NT : Num T}.
Variable ap : R -> R -> R -> T -> R -> Prop.
Hypothesis C : calc ap.

Lemma ap_third : ap 1 (/ 3) (/ 3) one_third (one_third : R).
Proof. unfold one_third at 2. cbn [ndiv nofZ NumR]. replace (1 / 3) with (/ 3) by lra. apply C. Qed.
Lemma up S B k B' k' z r : ap S B k z r -> B <= B' -> k <= k' -> ap S B' k' z r.
Proof.
  intros H HB Hk. destruct (c_pos _ C _ _ _ _ _ H) as (HS & _ & _ & Hr). eapply (c_weak _ C); eauto.
  eapply Rle_trans; [exact Hr|]. apply Rmult_le_compat_r; auto. apply okS_pos in HS. lra.
Qed.
(** bounds by the triangle inequality *)
Lemma add' S B1 B2 k1 k2 B k z1 z2 r1 r2 : ap S B1 k1 z1 r1 -> ap S B2 k2 z2 r2 -> B1 + B2 <= B ->
    B <= lim20 -> k1 <= lim20 -> k2 <= lim20 -> k1 + k2 + B + / 1024 <= k -> ap S B k (z1 + z2)%num (r1 + r2).
Proof.
  intros H1 H2 HB. destruct (c_pos _ C _ _ _ _ _ H1) as (HS & _ & _ & Q1). destruct (c_pos _ C _ _ _ _ _ H2) as (_ & _ & _ & Q2).
  apply (c_add _ C _ _ _ _ _ _ _ _ _ _ _ H1 H2). eapply Rle_trans; [apply Rabs_triang|]. apply okS_pos in HS.
  assert ((B1 + B2) * S <= B * S) by (apply Rmult_le_compat_r; lra). lra.
Qed.
Lemma sub' S B1 B2 k1 k2 B k z1 z2 r1 r2 : ap S B1 k1 z1 r1 -> ap S B2 k2 z2 r2 -> B1 + B2 <= B ->
    B <= lim20 -> k1 <= lim20 -> k2 <= lim20 -> k1 + k2 + B + / 1024 <= k -> ap S B k (z1 - z2)%num (r1 - r2).
Proof.
  intros H1 H2 HB. destruct (c_pos _ C _ _ _ _ _ H1) as (HS & _ & _ & Q1). destruct (c_pos _ C _ _ _ _ _ H2) as (_ & _ & _ & Q2).
  apply (c_sub _ C _ _ _ _ _ _ _ _ _ _ _ H1 H2). unfold Rminus. eapply Rle_trans; [apply Rabs_triang|]. rewrite Rabs_Ropp. apply okS_pos in HS.
  assert ((B1 + B2) * S <= B * S) by (apply Rmult_le_compat_r; lra). lra.
Qed.
Lemma mul' S S1 S2 B1 B2 k1 k2 B k z1 z2 r1 r2 : ap S1 B1 k1 z1 r1 -> ap S2 B2 k2 z2 r2 -> S1 * S2 = S -> okS S -> B1 * B2 <= B ->
    B1 <= lim20 -> B2 <= lim20 -> k1 <= lim20 -> k2 <= lim20 -> k1 * B2 + B1 * k2 + k1 * k2 / 4096 + B + / 512 <= k ->
    ap S B k (z1 * z2)%num (r1 * r2).
Proof.
  intros H1 H2 <- HS HB. destruct (c_pos _ C _ _ _ _ _ H1) as (HS1 & P1 & _ & Q1). destruct (c_pos _ C _ _ _ _ _ H2) as (HS2 & P2 & _ & Q2).
  apply (c_mul _ C _ _ _ _ _ _ _ _ _ _ _ _ H1 H2 HS). rewrite Rabs_mult. apply okS_pos in HS, HS1, HS2.
  apply Rle_trans with (B1 * S1 * (B2 * S2)); [apply Rmult_le_compat; auto; apply Rabs_pos|].
  replace (B1 * S1 * (B2 * S2)) with (B1 * B2 * (S1 * S2)) by ring. apply Rmult_le_compat_r; lra.
Qed.

(** *** weights *)
Section Weight.
Variables (e : T) (t : R).
Hypothesis He : ap 1 1 1 e t.
Hypothesis Ht : 0 <= t <= 1.

Ltac num := unfold lim20; lra.
Ltac abs1 := rewrite Rmult_1_r; apply Rabs_le.
Lemma int_ z : (Z.abs z <= 3)%Z -> ap 1 (IZR (Z.abs z)) 0 (nofZ z) (IZR z).
Proof. apply C. Qed.
Lemma w_1m : ap 1 1 (33 / 16) (#1 - e)%num (1 - t).
Proof. apply (c_sub _ C _ _ _ _ _ _ _ _ _ _ _ (int_ 1 ltac:(lia)) He); try num. abs1. lra. Qed.
Lemma mul1 B1 B2 k1 k2 B k z1 z2 r1 r2 : ap 1 B1 k1 z1 r1 -> ap 1 B2 k2 z2 r2 -> Rabs (r1 * r2) <= B ->
    B1 <= lim20 -> B2 <= lim20 -> k1 <= lim20 -> k2 <= lim20 -> k1 * B2 + B1 * k2 + k1 * k2 / 4096 + B + / 512 <= k ->
    ap 1 B k (z1 * z2)%num (r1 * r2).
Proof.
  intros H1 H2 HB L1 L2 L3 L4 HK. replace 1 with (1 * 1) at 1 by ring. apply (c_mul _ C _ _ _ _ _ _ _ _ _ _ _ _ H1 H2); auto.
  - rewrite Rmult_1_r. apply okS_1.
  - rewrite !Rmult_1_r. exact HB.
Qed.
Lemma p01 a b : 0 <= a <= 1 -> 0 <= b <= 1 -> 0 <= a * b <= 1.
Proof. intros. split; [apply Rmult_le_pos; lra|]. apply Rle_trans with (1 * 1); [apply Rmult_le_compat; lra|lra]. Qed.

Lemma w_sqr1 : ap 1 1 (21 / 4) ((#1 - e) * (#1 - e))%num ((1 - t) * (1 - t)).
Proof. apply (mul1 _ _ _ _ _ _ _ _ _ _ w_1m w_1m); try num. apply Rabs_le. pose proof (p01 (1 - t) (1 - t)). lra. Qed.
Lemma w_sqr : ap 1 1 (25 / 8) (e * e)%num (t * t).
Proof. apply (mul1 _ _ _ _ _ _ _ _ _ _ He He); try num. apply Rabs_le. pose proof (p01 t t). lra. Qed.
Lemma w_3t : ap 1 3 (49 / 8) (#3 * e)%num (3 * t).
Proof. apply (mul1 _ _ _ _ _ _ _ _ _ _ (int_ 3 ltac:(lia)) He); cbn [Z.abs]; try num. apply Rabs_le. lra. Qed.

Lemma w_B0 : ap 1 1 24 (B0 e) (B0 t).
Proof.
  unfold B0, cube. cbn [nsub nmul nofZ NumR]. apply up with (B := 1) (k := 9); try lra.
  apply (mul1 _ _ _ _ _ _ _ _ _ _ w_sqr1 w_1m); try num. apply Rabs_le. pose proof (p01 ((1 - t) * (1 - t)) (1 - t) (p01 (1 - t) (1 - t) ltac:(lra) ltac:(lra)) ltac:(lra)). lra.
Qed.
Lemma w_B3 : ap 1 1 24 (B3 e) (B3 t).
Proof.
  unfold B3, cube. cbn [nsub nmul nofZ NumR]. apply up with (B := 1) (k := 9); try lra.
  apply (mul1 _ _ _ _ _ _ _ _ _ _ w_sqr He); try num. apply Rabs_le. pose proof (p01 (t * t) t (p01 t t Ht Ht) Ht). lra.
Qed.
Lemma quarter : (1 - t) * t <= / 4.
Proof. pose proof (Rle_0_sqr (t - / 2)) as S. unfold Rsqr in S. lra. Qed.
Lemma quad3 : 0 <= 3 * t * ((1 - t) * (1 - t)) <= 1 /\ 0 <= 3 * (t * t) * (1 - t) <= 1.
Proof.
  pose proof (p01 t (1 - t) Ht ltac:(lra)) as P. assert (Q : t * (1 - t) <= / 4). { pose proof (Rle_0_sqr (t - / 2)) as S. unfold Rsqr in S. lra. }
  assert (Q1 : t * (1 - t) * (1 - t) <= / 4 * 1) by (apply Rmult_le_compat; lra).
  assert (Q2 : t * (1 - t) * t <= / 4 * 1) by (apply Rmult_le_compat; lra).
  assert (N1 : 0 <= t * (1 - t) * (1 - t)) by (apply Rmult_le_pos; lra).
  assert (N2 : 0 <= t * (1 - t) * t) by (apply Rmult_le_pos; lra). split; lra.
Qed.
Lemma w_B1 : ap 1 1 24 (B1 e) (B1 t).
Proof.
  unfold B1, sqr. cbn [nsub nmul nofZ NumR].
  apply (mul1 _ _ _ _ _ _ _ _ _ _ w_3t w_sqr1); try num. apply Rabs_le. pose proof quad3. lra.
Qed.
Lemma w_3t2 : ap 1 3 (25 / 2) (#3 * (e * e))%num (3 * (t * t)).
Proof. apply (mul1 _ _ _ _ _ _ _ _ _ _ (int_ 3 ltac:(lia)) w_sqr); cbn [Z.abs]; try num. apply Rabs_le. pose proof (p01 t t Ht Ht). lra. Qed.
Lemma w_B2 : ap 1 1 24 (B2 e) (B2 t).
Proof.
  unfold B2, sqr. cbn [nsub nmul nofZ NumR].
  apply (mul1 _ _ _ _ _ _ _ _ _ _ w_3t2 w_1m); try num. apply Rabs_le. pose proof quad3. lra.
Qed.
Lemma w_B0' : ap 1 3 48 (B0_Prime e) (B0_Prime t).
Proof.
  unfold B0_Prime, sqr. cbn [nsub nmul nofZ NumR].
  apply (mul1 _ _ _ _ _ _ _ _ _ _ (int_ (-3) ltac:(lia)) w_sqr1); cbn [Z.abs]; try num. apply Rabs_le. pose proof (p01 (1 - t) (1 - t)). lra.
Qed.
Lemma w_13t : ap 1 2 (33 / 4) (#1 - #3 * e)%num (1 - 3 * t).
Proof. apply (c_sub _ C _ _ _ _ _ _ _ _ _ _ _ (int_ 1 ltac:(lia)) w_3t); try num. abs1. lra. Qed.
Lemma w_23t : ap 1 2 (33 / 4) (#2 - #3 * e)%num (2 - 3 * t).
Proof. apply (c_sub _ C _ _ _ _ _ _ _ _ _ _ _ (int_ 2 ltac:(lia)) w_3t); try num. abs1. lra. Qed.
Lemma w_31m : ap 1 3 (37 / 4) (#3 * (#1 - e))%num (3 * (1 - t)).
Proof. apply (mul1 _ _ _ _ _ _ _ _ _ _ (int_ 3 ltac:(lia)) w_1m); cbn [Z.abs]; try num. apply Rabs_le. lra. Qed.
Lemma w_B1' : ap 1 3 48 (B1_Prime e) (B1_Prime t).
Proof.
  unfold B1_Prime. cbn [nsub nmul nofZ NumR].
  apply (mul1 _ _ _ _ _ _ _ _ _ _ w_31m w_13t); try num. apply Rabs_le. pose proof quarter. pose proof (p01 (1 - t) t ltac:(lra) Ht). pose proof (p01 (1 - t) (1 - t) ltac:(lra) ltac:(lra)). lra.
Qed.
Lemma w_B2' : ap 1 3 48 (B2_Prime e) (B2_Prime t).
Proof.
  unfold B2_Prime. cbn [nsub nmul nofZ NumR].
  apply (mul1 _ _ _ _ _ _ _ _ _ _ w_3t w_23t); try num. apply Rabs_le. pose proof quarter. pose proof (p01 (1 - t) t ltac:(lra) Ht). pose proof (p01 t t Ht Ht). lra.
Qed.
Lemma w_B3' : ap 1 3 48 (B3_Prime e) (B3_Prime t).
Proof. unfold B3_Prime, sqr. cbn [nsub nmul nofZ NumR]. apply up with (B := 3) (k := 25 / 2); try lra. apply w_3t2. Qed.

Lemma w_bern : Forall2 (ap 1 1 24) (bern e) (bern t).
Proof. repeat constructor; [apply w_B0|apply w_B1|apply w_B2|apply w_B3]. Qed.
Lemma w_bern' : Forall2 (ap 1 3 48) (bern' e) (bern' t).
Proof. repeat constructor; [apply w_B0'|apply w_B1'|apply w_B2'|apply w_B3']. Qed.
End Weight.

(** *** tensor products of weights *)
Lemma Forall2_map_mul Bx By kx ky B k x xr ys yr : ap 1 Bx kx x xr -> Forall2 (ap 1 By ky) ys yr ->
  Bx * By <= B -> Bx <= lim20 -> By <= lim20 -> kx <= lim20 -> ky <= lim20 -> kx * By + Bx * ky + kx * ky / 4096 + B + / 512 <= k ->
  Forall2 (ap 1 B k) (map (fun y => x * y)%num ys) (map (fun y => xr * y) yr).
Proof.
  intros Hx Hy HB L1 L2 L3 L4 HK. induction Hy; cbn [map]; constructor; auto.
  apply (mul' 1 1 1 Bx By kx ky); auto; [ring|apply okS_1].
Qed.
Lemma Forall2_app_ {A B} (P : A -> B -> Prop) l l' m m' : Forall2 P l m -> Forall2 P l' m' -> Forall2 P (l ++ l') (m ++ m').
Proof. intros H H'. induction H; cbn [app]; auto. Qed.
Lemma tens2_ok Bx By kx ky B k xs xr ys yr : Forall2 (ap 1 Bx kx) xs xr -> Forall2 (ap 1 By ky) ys yr ->
  Bx * By <= B -> Bx <= lim20 -> By <= lim20 -> kx <= lim20 -> ky <= lim20 -> kx * By + Bx * ky + kx * ky / 4096 + B + / 512 <= k ->
  Forall2 (ap 1 B k) (tens2 xs ys) (tens2 xr yr).
Proof.
  intros Hx Hy HB L1 L2 L3 L4 HK. unfold tens2. induction Hx; cbn [flat_map]; [constructor|].
  apply Forall2_app_; auto. eapply Forall2_map_mul; eauto.
Qed.
Lemma tens3_ok Bx By Bz kx ky kz B2 k2 B k xs xr ys yr zs zr : Forall2 (ap 1 Bx kx) xs xr -> Forall2 (ap 1 By ky) ys yr -> Forall2 (ap 1 Bz kz) zs zr ->
  Bx * By <= B2 -> Bx <= lim20 -> By <= lim20 -> kx <= lim20 -> ky <= lim20 -> kx * By + Bx * ky + kx * ky / 4096 + B2 + / 512 <= k2 ->
  B2 * Bz <= B -> B2 <= lim20 -> Bz <= lim20 -> k2 <= lim20 -> kz <= lim20 -> k2 * Bz + B2 * kz + k2 * kz / 4096 + B + / 512 <= k ->
  Forall2 (ap 1 B k) (tens3 xs ys zs) (tens3 xr yr zr).
Proof.
  intros Hx Hy Hz HB L1 L2 L3 L4 HK HB' L1' L2' L3' L4' HK'. unfold tens3. induction Hx as [|x xr' xs xr Hx1 Hx IH]; cbn [flat_map]; [constructor|].
  apply Forall2_app_; auto. clear IH Hx. induction Hy as [|y yr' ys yr Hy1 Hy IH]; cbn [flat_map]; [constructor|].
  apply Forall2_app_; auto. apply (Forall2_map_mul B2 Bz k2 kz); auto. cbn [nmul NumR]. apply (mul' 1 1 1 Bx By kx ky); auto; [ring|apply okS_1].
Qed.

(** *** sums *)
Lemma fold_ok M Bw kw Bc kc Bt kt : 0 <= Bt -> 0 <= kt -> Bw * Bc <= Bt -> Bw <= lim20 -> Bc <= lim20 -> kw <= lim20 -> kc <= lim20 ->
  kw * Bc + Bw * kc + kw * kc / 4096 + Bt + / 512 <= kt ->
  64 * Bt <= lim20 -> 64 * kt + 2080 * Bt + 1 <= lim20 -> okS M ->
  forall w wr, Forall2 (ap 1 Bw kw) w wr -> forall c cr, Forall2 (ap M Bc kc) c cr -> forall m a ar, (m + length c <= 64)%nat ->
  ap M (INR m * Bt) (INR m * kt + INR m * (INR m + 1) / 2 * Bt + INR m / 1024) a ar ->
  exists m', (m' <= 64)%nat /\ (m <= m' <= m + length c)%nat /\ ap M (INR m' * Bt) (INR m' * kt + INR m' * (INR m' + 1) / 2 * Bt + INR m' / 1024)
    (fold_left (fun acc p => (acc + fst p * snd p)%num) (combine w c) a)
    (fold_left (fun acc p => acc + fst p * snd p) (combine wr cr) ar).
Proof.
  intros P1 P2 HB L1 L2 L3 L4 HK HL HL' HM w wr Hw. induction Hw as [|w0 wr0 w wr Hw0 Hw IH]; intros c cr Hc m a ar Hm Ha.
  - exists m. cbn [combine fold_left]. split; [lia|]. split; [lia|exact Ha].
  - destruct Hc as [|c0 cr0 c cr Hc0 Hc].
    + exists m. cbn [combine fold_left]. cbn [length] in *. split; [lia|]. split; [lia|exact Ha].
    + cbn [combine fold_left fst snd length] in *.
      destruct (IH c cr Hc (S m) (a + w0 * c0)%num (ar + wr0 * cr0)) as (m' & M1 & M2 & A); [lia| |exists m'; split; [exact M1|]; split; [lia|exact A]].
      assert (Hp : ap M Bt kt (w0 * c0)%num (wr0 * cr0)) by (apply (mul' M 1 M Bw Bc kw kc); auto; ring).
      assert (I : 0 <= INR m <= 63). { split; [apply pos_INR|]. replace 63 with (INR 63) by (cbn; lra). apply le_INR. lia. }
      assert (I2 : INR m * (INR m + 1) / 2 <= 2016). { assert (INR m * (INR m + 1) <= 63 * 64) by (apply Rmult_le_compat; lra). lra. }
      assert (X1 : INR m * Bt <= 63 * Bt) by (apply Rmult_le_compat_r; lra).
      assert (X2 : INR m * kt <= 63 * kt) by (apply Rmult_le_compat_r; lra).
      assert (X3 : INR m * (INR m + 1) / 2 * Bt <= 2016 * Bt) by (apply Rmult_le_compat_r; lra).
      unfold lim20 in *. rewrite S_INR. eapply add'; [exact Ha|exact Hp|..]; unfold lim20; try lra.
Qed.
Lemma wsum_ok M Bw kw Bc kc Bt kt m w wr c cr : 0 <= Bt -> 0 <= kt -> Bw * Bc <= Bt -> Bw <= lim20 -> Bc <= lim20 -> kw <= lim20 -> kc <= lim20 ->
  kw * Bc + Bw * kc + kw * kc / 4096 + Bt + / 512 <= kt ->
  64 * Bt <= lim20 -> 64 * kt + 2080 * Bt + 1 <= lim20 -> okS M ->
  Forall2 (ap 1 Bw kw) w wr -> Forall2 (ap M Bc kc) c cr -> length c = m -> (m <= 64)%nat ->
  ap M (INR m * Bt) (INR m * kt + INR m * (INR m + 1) / 2 * Bt + INR m / 1024) (wsum w c) (wsum wr cr).
Proof.
  intros P1 P2 HB L1 L2 L3 L4 HK HL HL' HM Hw Hc Hlen Hm. unfold wsum. cbn [nadd nmul nofZ NumR].
  destruct (fold_ok M Bw kw Bc kc Bt kt P1 P2 HB L1 L2 L3 L4 HK HL HL' HM w wr Hw c cr Hc 0%nat (nofZ 0) 0) as (m' & M1 & M2 & A).
  - lia.
  - cbn [INR]. apply up with (B := 0) (k := 0); [apply (c_zero _ C); exact HM|lra|lra].
  - eapply up; [exact A|..].
    + apply Rmult_le_compat_r; [lra|]. apply le_INR. lia.
    + assert (I : 0 <= INR m' <= INR m) by (split; [apply pos_INR|apply le_INR; lia]).
      assert (INR m' * kt <= INR m * kt) by (apply Rmult_le_compat_r; lra).
      assert (INR m' * (INR m' + 1) <= INR m * (INR m + 1)) by (apply Rmult_le_compat; lra).
      assert (INR m' * (INR m' + 1) / 2 * Bt <= INR m * (INR m + 1) / 2 * Bt) by (apply Rmult_le_compat_r; lra). lra.
Qed.

(** *** control points *)
Ltac num := unfold lim20; lra.
Lemma h3 D d dr : okS D -> ap D 1 1 d dr -> ap D (/ 3) (9 / 8) (d * one_third)%num (dr * one_third).
Proof. intros HD Hd. apply (mul' D D 1 1 (/ 3) 1 (/ 3)); auto; try num. apply ap_third. Qed.
Lemma slope S S' D s sr d dr : ap S' 1 0 s sr -> ap D 1 1 d dr -> S' * D = S -> okS S -> ap S (/ 3) (3 / 2) (s * d * one_third)%num (sr * dr * one_third).
Proof.
  intros Hs Hd E HS. apply (mul' S S 1 1 (/ 3) (33 / 16) (/ 3)); try num; [|apply ap_third|exact HS].
  apply (mul' S S' D 1 1 0 1); auto; num.
Qed.
Lemma slope' S S' D s sr d dr : ap S' 1 0 s sr -> ap D 1 1 d dr -> S' * D = S -> okS S -> okS D -> ap S (/ 3) (3 / 2) (d * one_third * s)%num (dr * one_third * sr).
Proof.
  intros Hs Hd E HS HD. apply (mul' S D S' (/ 3) 1 (9 / 8) 0); try num; auto. apply h3; auto.
Qed.
Definition gcp (p0 s0 p1 s1 d : T) := get_control_points p0 s0 p1 s1 d false.
Definition gcr (p0 s0 p1 s1 d : R) := get_control_points p0 s0 p1 s1 d false.
Section GCP.
Variables (S S' D : R) (p0 s0 p1 s1 d : T) (p0r s0r p1r s1r dr : R).
Hypothesis A0 : ap S 1 0 p0 p0r.
Hypothesis A1 : ap S 1 0 p1 p1r.
Hypothesis B0 : ap S' 1 0 s0 s0r.
Hypothesis B1 : ap S' 1 0 s1 s1r.
Hypothesis Hd : ap D 1 1 d dr.
Hypothesis E : S' * D = S.
Hypothesis HS : okS S.
Lemma gcp30 : ap S 1 0 (c_30 (gcp p0 s0 p1 s1 d)) (c_30 (gcr p0r s0r p1r s1r dr)).
Proof. exact A0. Qed.
Lemma gcp03 : ap S 1 0 (c_03 (gcp p0 s0 p1 s1 d)) (c_03 (gcr p0r s0r p1r s1r dr)).
Proof. exact A1. Qed.
Lemma gcp21 : ap S (4 / 3) 3 (c_21 (gcp p0 s0 p1 s1 d)) (c_21 (gcr p0r s0r p1r s1r dr)).
Proof. cbn. apply (add' S 1 (/ 3) 0 (3 / 2)); try num; [exact A0|apply (slope S S' D); auto]. Qed.
Lemma gcp12 : ap S (4 / 3) 3 (c_12 (gcp p0 s0 p1 s1 d)) (c_12 (gcr p0r s0r p1r s1r dr)).
Proof. cbn. apply (sub' S 1 (/ 3) 0 (3 / 2)); try num; [exact A1|apply (slope S S' D); auto]. Qed.
End GCP.

(** first and second corrections of an inner control point *)
Section Corr.
Variables (S S' D : R) (c c' d : T) (cr c'r dr : R).
Hypothesis HS : okS S.
Hypothesis HD : okS D.
Hypothesis Hc : ap S (4 / 3) 3 c cr.
Hypothesis Hd : ap D 1 1 d dr.
Hypothesis Hc' : ap S' (4 / 3) 3 c' c'r.
Hypothesis E : S' * D = S.
Lemma corr : ap S (4 / 9) 3 (d * one_third * c')%num (dr * one_third * c'r).
Proof. apply (mul' S D S' (/ 3) (4 / 3) (9 / 8) 3); try num; auto. apply h3; auto. Qed.
Lemma corr_add : ap S 2 8 (c + d * one_third * c')%num (cr + dr * one_third * c'r).
Proof. apply (up S (16 / 9) 8); try lra. apply (add' S (4 / 3) (4 / 9) 3 3); try num; auto. apply corr. Qed.
Lemma corr_sub : ap S 2 8 (c - d * one_third * c')%num (cr - dr * one_third * c'r).
Proof. apply (up S (16 / 9) 8); try lra. apply (sub' S (4 / 3) (4 / 9) 3 3); try num; auto. apply corr. Qed.
End Corr.

Section Scales.
Variables (M Dx Dy Dz : R) (dx odx : vec3 T) (dxr odxr : vec3 R).
Hypothesis HM : okS M.

(** 1-D *)
Definition apq1 (q : nodal T) (r : nodal R) : Prop := ap M 1 0 (q_phi q) (q_phi r) /\ ap (M * / Dx) 1 0 (vx (q_psi q)) (vx (q_psi r)).
Hypothesis Dx_pos : 0 < Dx.
Hypothesis HDx : okS Dx.
Hypothesis HMx : okS (M * / Dx).
Hypothesis Hdx : ap Dx 1 1 (vx dx) (vx dxr).
Hypothesis Hox : ap (/ Dx) 1 1 (vx odx) (vx odxr).

Lemma round_1d q0 q1 r0 r1 e t : apq1 q0 r0 -> apq1 q1 r1 -> ap 1 1 1 e t -> 0 <= t <= 1 ->
  let f := hermite1 q0 q1 e (vx dx) (vx odx) false in let fr := hermite1 r0 r1 t (vx dxr) (vx odxr) false in
  ap M 512 512 (f_phi f) (f_phi fr) /\ ap (M * / Dx) 512 512 (vx (f_psi f)) (vx (f_psi fr)).
Proof.
  intros [P0 S0] [P1 S1] He Ht f fr.
  assert (EM : M * / Dx * Dx = M) by (field; lra).
  assert (C30 := gcp30 M _ (vx (q_psi q0)) (q_phi q1) (vx (q_psi q1)) (vx dx) _ (vx (q_psi r0)) (q_phi r1) (vx (q_psi r1)) (vx dxr) P0).
  assert (C03 := gcp03 M (q_phi q0) (vx (q_psi q0)) _ (vx (q_psi q1)) (vx dx) (q_phi r0) (vx (q_psi r0)) _ (vx (q_psi r1)) (vx dxr) P1).
  assert (C21 := gcp21 M _ _ _ _ (q_phi q1) (vx (q_psi q1)) _ _ _ (q_phi r1) (vx (q_psi r1)) _ P0 S0 Hdx EM HM).
  assert (C12 := gcp12 M _ _ (q_phi q0) (vx (q_psi q0)) _ _ _ (q_phi r0) (vx (q_psi r0)) _ _ _ P1 S1 Hdx EM HM).
  assert (UP : forall c cr, ap M 1 0 c cr -> ap M (4 / 3) 3 c cr) by (intros c cr H; apply (up M 1 0); auto; lra).
  apply UP in C30. apply UP in C03.
  unfold f, fr, hermite1. cbn [f_phi f_psi vset vx vzero]. fold (gcp (q_phi q0) (vx (q_psi q0)) (q_phi q1) (vx (q_psi q1)) (vx dx)).
  fold (gcr (q_phi r0) (vx (q_psi r0)) (q_phi r1) (vx (q_psi r1)) (vx dxr)).
  set (cp := gcp _ _ _ _ _) in *. set (cq := gcr _ _ _ _ _) in *. cbn [nadd nmul NumR].
  assert (PR : forall B k Bw kw c cr w wr, ap M (4 / 3) 3 c cr -> ap 1 Bw kw w wr -> 4 / 3 * Bw <= B -> Bw <= lim20 -> kw <= lim20 -> 3 * Bw + 4 / 3 * kw + 3 * kw / 4096 + B + / 512 <= k ->
    ap M B k (c * w)%num (cr * wr)).
  { intros B k Bw kw c cr w wr Hc Hw HB L1 L2 HK. apply (mul' M M 1 (4 / 3) Bw 3 kw); auto; num. }
  split.
  - apply (up M (16 / 3) 256); [|num|lra].
    repeat match goal with |- ap M ?B 256 (?a + ?b)%num _ => idtac end.
    apply (add' M 4 (4 / 3) 150 38); try num.
    + apply (add' M (8 / 3) (4 / 3) 96 38); try num.
      * apply (add' M (4 / 3) (4 / 3) 38 38); try num.
        -- apply (PR _ _ 1 24); auto; try num. apply w_B0; auto.
        -- apply (PR _ _ 1 24); auto; try num. apply w_B1; auto.
      * apply (PR _ _ 1 24); auto; try num. apply w_B2; auto.
    + apply (PR _ _ 1 24); auto; try num. apply w_B3; auto.
  - apply (up (M * / Dx) 16 512); [|num|lra].
    apply (mul' (M * / Dx) M (/ Dx) 16 1 400 1); try num; auto.
    apply (add' M 12 4 280 80); try num.
    + apply (add' M 8 4 180 80); try num.
      * apply (add' M 4 4 80 80); try num.
        -- apply (PR _ _ 3 48); auto; try num. apply w_B0'; auto.
        -- apply (PR _ _ 3 48); auto; try num. apply w_B1'; auto.
      * apply (PR _ _ 3 48); auto; try num. apply w_B2'; auto.
    + apply (PR _ _ 3 48); auto; try num. apply w_B3'; auto.
Qed.

(** 2-D *)
Hypothesis Dy_pos : 0 < Dy.
Hypothesis HDy : okS Dy.
Hypothesis HMy : okS (M * / Dy).
Hypothesis HMxy : okS (M * / Dx * / Dy).
Hypothesis Hdy : ap Dy 1 1 (vy dx) (vy dxr).
Hypothesis Hoy : ap (/ Dy) 1 1 (vy odx) (vy odxr).
Definition apq2 (q : nodal T) (r : nodal R) : Prop := apq1 q r /\ ap (M * / Dy) 1 0 (vy (q_psi q)) (vy (q_psi r)) /\ ap (M * / Dx * / Dy) 1 0 (q_m0 q) (q_m0 r).

Ltac scale := first [assumption | field; lra].
Ltac point := first [ assumption
  | eapply gcp30; eassumption
  | eapply gcp03; eassumption
  | eapply gcp21; [eassumption|eassumption|eassumption|scale|assumption]
  | eapply gcp12; [eassumption|eassumption|eassumption|scale|assumption] ].

Lemma points_2d q00 q10 q01 q11 r00 r10 r01 r11 : apq2 q00 r00 -> apq2 q10 r10 -> apq2 q01 r01 -> apq2 q11 r11 ->
  Forall2 (ap M 2 8) (control_points_2d q00 q10 q01 q11 dx false) (control_points_2d r00 r10 r01 r11 dxr false).
Proof.
  intros [[A1 A2] [A3 A4]] [[B1 B2] [B3 B4]] [[C1 C2] [C3 C4]] [[E1 E2] [E3 E4]].
  assert (K1 : forall c cr, ap M 1 0 c cr -> ap M 2 8 c cr) by (intros; eapply up; eauto; lra).
  assert (K2 : forall c cr, ap M (4 / 3) 3 c cr -> ap M 2 8 c cr) by (intros; eapply up; eauto; lra).
  assert (Cy : forall p pr m mr, ap (M * / Dy) 1 0 p pr -> ap (M * / Dx * / Dy) 1 0 m mr ->
     ap (M * / Dy) (4 / 3) 3 (p + vx dx * one_third * m)%num (pr + vx dxr * one_third * mr)).
  { intros p pr m mr Hp Hm. apply (add' _ 1 (/ 3) 0 (3 / 2)); try num; auto. apply (slope' _ (M * / Dx * / Dy) Dx); auto. field. lra. }
  assert (Cx : forall p pr m mr, ap (M * / Dx) 1 0 p pr -> ap (M * / Dx * / Dy) 1 0 m mr ->
     ap (M * / Dx) (4 / 3) 3 (p + vy dx * one_third * m)%num (pr + vy dxr * one_third * mr)).
  { intros p pr m mr Hp Hm. apply (add' _ 1 (/ 3) 0 (3 / 2)); try num; auto. apply (slope' _ (M * / Dx * / Dy) Dy); auto. field. lra. }
  assert (Cx' : forall p pr m mr, ap (M * / Dx) 1 0 p pr -> ap (M * / Dx * / Dy) 1 0 m mr ->
     ap (M * / Dx) (4 / 3) 3 (p - vy dx * one_third * m)%num (pr - vy dxr * one_third * mr)).
  { intros p pr m mr Hp Hm. apply (sub' _ 1 (/ 3) 0 (3 / 2)); try num; auto. apply (slope' _ (M * / Dx * / Dy) Dy); auto. field. lra. }
  unfold control_points_2d. cbv zeta.
  repeat match goal with
  | |- context [get_control_points (T := T) ?a ?b ?c ?d ?e false] => change (get_control_points (T := T) a b c d e false) with (gcp a b c d e)
  | |- context [get_control_points (T := R) ?a ?b ?c ?d ?e false] => change (get_control_points (T := R) a b c d e false) with (gcr a b c d e) end.
  cbn [nadd nsub nmul NumR].
  repeat apply Forall2_cons; try apply Forall2_nil.
  all: try (apply K1; solve [point]); try (apply K2; solve [point]).
  - apply (corr_add M (M * / Dy) Dy); auto; try point; first [field; lra | apply Cx; solve [auto] | apply Cy; solve [auto] | apply Cx'; solve [auto]].
  - apply (corr_sub M (M * / Dy) Dy); auto; try point; first [field; lra | apply Cx; solve [auto] | apply Cy; solve [auto] | apply Cx'; solve [auto]].
  - apply (corr_sub M (M * / Dx) Dx); auto; try point; first [field; lra | apply Cx; solve [auto] | apply Cy; solve [auto] | apply Cx'; solve [auto]].
  - apply (corr_sub M (M * / Dx) Dx); auto; try point; first [field; lra | apply Cx; solve [auto] | apply Cy; solve [auto] | apply Cx'; solve [auto]].
Qed.

Lemma round_2d q00 q10 q01 q11 r00 r10 r01 r11 e t : apq2 q00 r00 -> apq2 q10 r10 -> apq2 q01 r01 -> apq2 q11 r11 ->
  ap 1 1 1 (vx e) (vx t) -> ap 1 1 1 (vy e) (vy t) -> 0 <= vx t <= 1 -> 0 <= vy t <= 1 ->
  let f := hermite2 q00 q10 q01 q11 e dx odx false in let fr := hermite2 r00 r10 r01 r11 t dxr odxr false in
  ap M 512 8192 (f_phi f) (f_phi fr) /\ ap (M * / Dx) 512 8192 (vx (f_psi f)) (vx (f_psi fr)) /\ ap (M * / Dy) 512 8192 (vy (f_psi f)) (vy (f_psi fr)).
Proof.
  intros A B D E Hx Hy Tx Ty f fr. pose proof (points_2d _ _ _ _ _ _ _ _ A B D E) as P.
  pose proof (w_bern (vx e) (vx t) Hx Tx) as bx. pose proof (w_bern (vy e) (vy t) Hy Ty) as by_.
  pose proof (w_bern' (vx e) (vx t) Hx Tx) as bx'. pose proof (w_bern' (vy e) (vy t) Hy Ty) as by'.
  assert (W : Forall2 (ap 1 1 50) (tens2 (bern (vx e)) (bern (vy e))) (tens2 (bern (vx t)) (bern (vy t)))) by (eapply (tens2_ok 1 1 24 24); eauto; num).
  assert (Wx : Forall2 (ap 1 3 125) (tens2 (bern' (vx e)) (bern (vy e))) (tens2 (bern' (vx t)) (bern (vy t)))) by (eapply (tens2_ok 3 1 48 24); eauto; num).
  assert (Wy : Forall2 (ap 1 3 125) (tens2 (bern (vx e)) (bern' (vy e))) (tens2 (bern (vx t)) (bern' (vy t)))) by (eapply (tens2_ok 1 3 24 48); eauto; num).
  assert (L : length (control_points_2d q00 q10 q01 q11 dx false) = 16%nat) by reflexivity.
  unfold f, fr, hermite2. cbn [f_phi f_psi vx vy].
  set (cp := control_points_2d q00 q10 q01 q11 dx false) in *. set (cq := control_points_2d r00 r10 r01 r11 dxr false) in *. clearbody cp cq.
  assert (V := wsum_ok M 1 50 2 8 2 111 16 _ _ _ _ ltac:(lra) ltac:(lra) ltac:(lra) ltac:(num) ltac:(num) ltac:(num) ltac:(num) ltac:(num) ltac:(num) ltac:(num) HM W P L ltac:(lia)).
  assert (Vx := wsum_ok M 3 125 2 8 6 281 16 _ _ _ _ ltac:(lra) ltac:(lra) ltac:(lra) ltac:(num) ltac:(num) ltac:(num) ltac:(num) ltac:(num) ltac:(num) ltac:(num) HM Wx P L ltac:(lia)).
  assert (Vy := wsum_ok M 3 125 2 8 6 281 16 _ _ _ _ ltac:(lra) ltac:(lra) ltac:(lra) ltac:(num) ltac:(num) ltac:(num) ltac:(num) ltac:(num) ltac:(num) ltac:(num) HM Wy P L ltac:(lia)).
  replace (INR 16) with 16 in * by (cbn; lra).
  split; [|split].
  - eapply up; [exact V|num|num].
  - apply (up (M * / Dx) 96 8192); [|num|lra]. cbn [nmul NumR]. eapply (mul' (M * / Dx) M (/ Dx)); [exact Vx|exact Hox|reflexivity|auto|..]; num.
  - apply (up (M * / Dy) 96 8192); [|num|lra]. cbn [nmul NumR]. eapply (mul' (M * / Dy) M (/ Dy)); [exact Vy|exact Hoy|reflexivity|auto|..]; num.
Qed.

(** 3-D *)
Hypothesis Dz_pos : 0 < Dz.
Hypothesis HDz : okS Dz.
Hypothesis HDxy : okS (Dx * Dy).
Hypothesis HMz : okS (M * / Dz).
Hypothesis HMyz : okS (M * / Dy * / Dz).
Hypothesis HMzx : okS (M * / Dz * / Dx).
Hypothesis HMxyz : okS (M * / Dx * / Dy * / Dz).
Hypothesis Hdz : ap Dz 1 1 (vz dx) (vz dxr).
Hypothesis Hoz : ap (/ Dz) 1 1 (vz odx) (vz odxr).
Definition apq3 (q : nodal T) (r : nodal R) : Prop := apq2 q r /\ ap (M * / Dz) 1 0 (vz (q_psi q)) (vz (q_psi r)) /\
  ap (M * / Dy * / Dz) 1 0 (q_m1 q) (q_m1 r) /\ ap (M * / Dz * / Dx) 1 0 (q_m2 q) (q_m2 r) /\ ap (M * / Dx * / Dy * / Dz) 1 0 (q_m3 q) (q_m3 r).

Section Deep.
Variables (c a b d : T) (cr ar br dr : R).
Hypothesis Hc : ap M (4 / 3) 3 c cr.
Hypothesis Ha : ap (M * / Dx * / Dy) (4 / 3) 3 a ar.
Hypothesis Hb : ap (M * / Dy) (4 / 3) 3 b br.
Hypothesis Hd : ap (M * / Dz) (4 / 3) 3 d dr.
Lemma h33 : ap (Dx * Dy) (/ 9) (7 / 8) (vx dx * one_third * (vy dx * one_third))%num (vx dxr * one_third * (vy dxr * one_third)).
Proof. apply (mul' (Dx * Dy) Dx Dy (/ 3) (/ 3) (9 / 8) (9 / 8)); try num; auto; apply h3; auto. Qed.
Lemma deep1 : ap M (4 / 27) (7 / 4) (vx dx * one_third * (vy dx * one_third) * a)%num (vx dxr * one_third * (vy dxr * one_third) * ar).
Proof. apply (mul' M (Dx * Dy) (M * / Dx * / Dy) (/ 9) (4 / 3) (7 / 8) 3); try num; auto; [apply h33|field; lra]. Qed.
Lemma deep2 : ap M (4 / 9) 3 (vy dx * one_third * b)%num (vy dxr * one_third * br).
Proof. apply (corr M (M * / Dy) Dy); auto. field; lra. Qed.
Lemma deep3 : ap M (4 / 9) 3 (vz dx * one_third * d)%num (vz dxr * one_third * dr).
Proof. apply (corr M (M * / Dz) Dz); auto. field; lra. Qed.
Definition pm (s : bool) (x y : T) : T := if s then (x + y)%num else (x - y)%num.
Definition pmr (s : bool) (x y : R) : R := if s then x + y else x - y.
Lemma pm_ok s S B1 B2 k1 k2 B k z1 z2 r1 r2 : ap S B1 k1 z1 r1 -> ap S B2 k2 z2 r2 -> B1 + B2 <= B ->
    B <= lim20 -> k1 <= lim20 -> k2 <= lim20 -> k1 + k2 + B + / 1024 <= k -> ap S B k (pm s z1 z2) (pmr s r1 r2).
Proof. destruct s; [apply add'|apply sub']. Qed.
Lemma deep s1 s2 s3 : ap M (5 / 2) 18
  (pm s3 (pm s2 (pm s1 c (vx dx * one_third * (vy dx * one_third) * a)) (vy dx * one_third * b)) (vz dx * one_third * d))%num
  (pmr s3 (pmr s2 (pmr s1 cr (vx dxr * one_third * (vy dxr * one_third) * ar)) (vy dxr * one_third * br)) (vz dxr * one_third * dr)).
Proof.
  apply (up M (64 / 27) 17); try lra.
  apply (pm_ok _ M (52 / 27) (4 / 9) (45 / 4) 3); try num; [|apply deep3].
  apply (pm_ok _ M (40 / 27) (4 / 9) (25 / 4) 3); try num; [|apply deep2].
  apply (pm_ok _ M (4 / 3) (4 / 27) 3 (7 / 4)); try num; [exact Hc|apply deep1].
Qed.
End Deep.

Ltac outer := first [eapply gcp21; [eassumption|eassumption|eassumption|scale|assumption] | eapply gcp12; [eassumption|eassumption|eassumption|scale|assumption]].
Lemma points_3d q000 q100 q010 q001 q110 q011 q101 q111 r000 r100 r010 r001 r110 r011 r101 r111 :
  apq3 q000 r000 -> apq3 q100 r100 -> apq3 q010 r010 -> apq3 q001 r001 -> apq3 q110 r110 -> apq3 q011 r011 -> apq3 q101 r101 -> apq3 q111 r111 ->
  Forall2 (ap M (5 / 2) 18) (control_points_3d q000 q100 q010 q001 q110 q011 q101 q111 dx false) (control_points_3d r000 r100 r010 r001 r110 r011 r101 r111 dxr false).
Proof.
  intros [[[A1 A2] [A3 A4]] (A5 & A6 & A7 & A8)] [[[B1 B2] [B3 B4]] (B5 & B6 & B7 & B8)] [[[C1 C2] [C3 C4]] (C5 & C6 & C7 & C8)]
    [[[E1 E2] [E3 E4]] (E5 & E6 & E7 & E8)] [[[F1 F2] [F3 F4]] (F5 & F6 & F7 & F8)] [[[G1 G2] [G3 G4]] (G5 & G6 & G7 & G8)]
    [[[H1 H2] [H3 H4]] (H5 & H6 & H7 & H8)] [[[I1 I2] [I3 I4]] (I5 & I6 & I7 & I8)].
  assert (K1 : forall c cr, ap M 1 0 c cr -> ap M (5 / 2) 18 c cr) by (intros; eapply up; eauto; lra).
  assert (K2 : forall c cr, ap M (4 / 3) 3 c cr -> ap M (5 / 2) 18 c cr) by (intros; eapply up; eauto; lra).
  assert (K3 : forall c cr, ap M 2 8 c cr -> ap M (5 / 2) 18 c cr) by (intros; eapply up; eauto; lra).
  unfold control_points_3d. cbv zeta.
  repeat match goal with
  | |- context [get_control_points (T := T) ?a ?b ?c ?d ?e false] => change (get_control_points (T := T) a b c d e false) with (gcp a b c d e)
  | |- context [get_control_points (T := R) ?a ?b ?c ?d ?e false] => change (get_control_points (T := R) a b c d e false) with (gcr a b c d e) end.
  cbn [nadd nsub nmul NumR].
  repeat apply Forall2_cons; try apply Forall2_nil.
  all: try (apply K1; solve [point]); try (apply K2; solve [point]).
  all: try (apply K3; eapply corr_add; [assumption| |outer|eassumption|outer|scale]; assumption).
  all: try (apply K3; eapply corr_sub; [assumption| |outer|eassumption|outer|scale]; assumption).
  - refine (deep _ _ _ _ _ _ _ _ _ _ _ _ true true true); outer.
  - refine (deep _ _ _ _ _ _ _ _ _ _ _ _ true true false); outer.
  - refine (deep _ _ _ _ _ _ _ _ _ _ _ _ false false true); outer.
  - refine (deep _ _ _ _ _ _ _ _ _ _ _ _ false false false); outer.
  - refine (deep _ _ _ _ _ _ _ _ _ _ _ _ false true true); outer.
  - refine (deep _ _ _ _ _ _ _ _ _ _ _ _ false true false); outer.
  - refine (deep _ _ _ _ _ _ _ _ _ _ _ _ true false true); outer.
  - refine (deep _ _ _ _ _ _ _ _ _ _ _ _ true false false); outer.
Qed.

Lemma round_3d q000 q100 q010 q001 q110 q011 q101 q111 r000 r100 r010 r001 r110 r011 r101 r111 e t :
  apq3 q000 r000 -> apq3 q100 r100 -> apq3 q010 r010 -> apq3 q001 r001 -> apq3 q110 r110 -> apq3 q011 r011 -> apq3 q101 r101 -> apq3 q111 r111 ->
  (forall a, ap 1 1 1 (vget e a) (vget t a) /\ 0 <= vget t a <= 1) ->
  let f := hermite3 q000 q100 q010 q001 q110 q011 q101 q111 e dx odx false in let fr := hermite3 r000 r100 r010 r001 r110 r011 r101 r111 t dxr odxr false in
  ap M 512 65536 (f_phi f) (f_phi fr) /\ ap (M * / Dx) 512 65536 (vx (f_psi f)) (vx (f_psi fr)) /\
  ap (M * / Dy) 512 65536 (vy (f_psi f)) (vy (f_psi fr)) /\ ap (M * / Dz) 512 65536 (vz (f_psi f)) (vz (f_psi fr)).
Proof.
  intros A B D E A' B' D' E' He f fr. pose proof (points_3d _ _ _ _ _ _ _ _ _ _ _ _ _ _ _ _ A B D E A' B' D' E') as P.
  destruct (He AX) as (Hx & Tx). destruct (He AY) as (Hy & Ty). destruct (He AZ) as (Hz & Tz). cbn [vget] in *.
  pose proof (w_bern (vx e) (vx t) Hx Tx) as bx. pose proof (w_bern (vy e) (vy t) Hy Ty) as by_. pose proof (w_bern (vz e) (vz t) Hz Tz) as bz.
  pose proof (w_bern' (vx e) (vx t) Hx Tx) as bx'. pose proof (w_bern' (vy e) (vy t) Hy Ty) as by'. pose proof (w_bern' (vz e) (vz t) Hz Tz) as bz'.
  assert (W : Forall2 (ap 1 1 75) (tens3 (bern (vx e)) (bern (vy e)) (bern (vz e))) (tens3 (bern (vx t)) (bern (vy t)) (bern (vz t)))) by (apply (tens3_ok 1 1 1 24 24 24 1 (197 / 4)); auto; num).
  assert (Wx : Forall2 (ap 1 3 200) (tens3 (bern' (vx e)) (bern (vy e)) (bern (vz e))) (tens3 (bern' (vx t)) (bern (vy t)) (bern (vz t)))) by (apply (tens3_ok 3 1 1 48 24 24 3 (247 / 2)); auto; num).
  assert (Wy : Forall2 (ap 1 3 200) (tens3 (bern (vx e)) (bern' (vy e)) (bern (vz e))) (tens3 (bern (vx t)) (bern' (vy t)) (bern (vz t)))) by (apply (tens3_ok 1 3 1 24 48 24 3 (247 / 2)); auto; num).
  assert (Wz : Forall2 (ap 1 3 200) (tens3 (bern (vx e)) (bern (vy e)) (bern' (vz e))) (tens3 (bern (vx t)) (bern (vy t)) (bern' (vz t)))) by (apply (tens3_ok 1 1 3 24 24 48 1 (197 / 4)); auto; num).
  assert (L : length (control_points_3d q000 q100 q010 q001 q110 q011 q101 q111 dx false) = 64%nat) by reflexivity.
  unfold f, fr, hermite3. cbn [f_phi f_psi vx vy vz].
  set (cp := control_points_3d q000 q100 q010 q001 q110 q011 q101 q111 dx false) in *. set (cq := control_points_3d r000 r100 r010 r001 r110 r011 r101 r111 dxr false) in *. clearbody cp cq.
  assert (V := wsum_ok M 1 75 (5 / 2) 18 (5 / 2) 209 64 _ _ _ _ ltac:(lra) ltac:(lra) ltac:(lra) ltac:(num) ltac:(num) ltac:(num) ltac:(num) ltac:(num) ltac:(num) ltac:(num) HM W P L ltac:(lia)).
  assert (Vx := wsum_ok M 3 200 (5 / 2) 18 (15 / 2) 563 64 _ _ _ _ ltac:(lra) ltac:(lra) ltac:(lra) ltac:(num) ltac:(num) ltac:(num) ltac:(num) ltac:(num) ltac:(num) ltac:(num) HM Wx P L ltac:(lia)).
  assert (Vy := wsum_ok M 3 200 (5 / 2) 18 (15 / 2) 563 64 _ _ _ _ ltac:(lra) ltac:(lra) ltac:(lra) ltac:(num) ltac:(num) ltac:(num) ltac:(num) ltac:(num) ltac:(num) ltac:(num) HM Wy P L ltac:(lia)).
  assert (Vz := wsum_ok M 3 200 (5 / 2) 18 (15 / 2) 563 64 _ _ _ _ ltac:(lra) ltac:(lra) ltac:(lra) ltac:(num) ltac:(num) ltac:(num) ltac:(num) ltac:(num) ltac:(num) ltac:(num) HM Wz P L ltac:(lia)).
  replace (INR 64) with 64 in * by (cbn; lra).
  split; [|split; [|split]].
  - eapply up; [exact V|num|num].
  - apply (up (M * / Dx) 480 65536); [|num|lra]. cbn [nmul NumR]. eapply (mul' (M * / Dx) M (/ Dx)); [exact Vx|exact Hox|reflexivity|auto|..]; num.
  - apply (up (M * / Dy) 480 65536); [|num|lra]. cbn [nmul NumR]. eapply (mul' (M * / Dy) M (/ Dy)); [exact Vy|exact Hoy|reflexivity|auto|..]; num.
  - apply (up (M * / Dz) 480 65536); [|num|lra]. cbn [nmul NumR]. eapply (mul' (M * / Dz) M (/ Dz)); [exact Vz|exact Hoz|reflexivity|auto|..]; num.
Qed.
End Scales.
End Calc.
