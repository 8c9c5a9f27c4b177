(** Accumulated rounding errors of the 1-D loop: pure sequences. *)
From Coq Require Import ZArith List Bool Lia Reals Lra.
From Verif Require Import Base Num ModelVec SpecStability ProofsRunLine ProofsEnergy ProofsStability ProofsConverge.
Open Scope R_scope.

Lemma abs_le x y : Rabs x <= y -> - y <= x <= y.
Proof. intros H. unfold Rabs in H. destruct (Rcase_abs x); lra. Qed.
Lemma sq_le x y : Rabs x <= y -> x ^ 2 <= y ^ 2.
Proof. intros H. rewrite <- !Rsqr_pow2. apply Rsqr_le_abs_1. rewrite (Rabs_pos_eq y); [exact H|]. eapply Rle_trans; [apply Rabs_pos|exact H]. Qed.

(** (x + y)^2 <= (1 + t) x^2 + (1 + 1/t) y^2 *)
Lemma young t x y : 0 < t -> (x + y) ^ 2 <= (1 + t) * x ^ 2 + (1 + / t) * y ^ 2.
Proof.
  intros Ht. apply Rminus_le. replace ((x + y) ^ 2 - ((1 + t) * x ^ 2 + (1 + / t) * y ^ 2)) with (- (/ t * (t * x - y) ^ 2)) by (field; lra).
  assert (0 <= / t * (t * x - y) ^ 2) by (apply Rmult_le_pos; [left; apply Rinv_0_lt_compat; lra|apply pow2_ge_0]). lra.
Qed.
Lemma bend_young t p0 s0 p1 s1 q0 r0 q1 r1 h : 0 < t -> 0 < h ->
  bend (p0 + q0) (s0 + r0) (p1 + q1) (s1 + r1) h <= (1 + t) * bend p0 s0 p1 s1 h + (1 + / t) * bend q0 r0 q1 r1 h.
Proof.
  intros Ht Hh. unfold bend. set (x := (p1 - p0) / h - (s0 + s1) / 2). set (y := (q1 - q0) / h - (r0 + r1) / 2).
  replace ((p1 + q1 - (p0 + q0)) / h - (s0 + r0 + (s1 + r1)) / 2) with (x + y) by (unfold x, y; field; lra).
  replace (s1 + r1 - (s0 + r0)) with ((s1 - s0) + (r1 - r0)) by ring.
  pose proof (young t x y Ht) as Y1. pose proof (young t (s1 - s0) (r1 - r0) Ht) as Y2. set (z := s1 - s0) in *. set (w := r1 - r0) in *. clearbody x y z w.
  replace ((1 + t) * ((12 * x ^ 2 + z ^ 2) / h) + (1 + / t) * ((12 * y ^ 2 + w ^ 2) / h)) with
    ((12 * ((1 + t) * x ^ 2 + (1 + / t) * y ^ 2) + ((1 + t) * z ^ 2 + (1 + / t) * w ^ 2)) / h) by (field; lra).
  unfold Rdiv. apply Rmult_le_compat_r; [left; apply Rinv_0_lt_compat; lra|]. lra.
Qed.
Lemma energy_young t (P S A B C D : Z -> R) h : 0 < t -> 0 < h -> (forall i, P i = A i + C i /\ S i = B i + D i) ->
  forall k a, energy P S h a k <= (1 + t) * energy A B h a k + (1 + / t) * energy C D h a k.
Proof.
  intros Ht Hh HE. induction k as [|k IH]; intros a; cbn [energy]; [lra|].
  destruct (HE a) as (-> & ->). destruct (HE (a + 1)%Z) as (-> & ->). specialize (IH (a + 1)%Z).
  pose proof (bend_young t (A a) (B a) (A (a + 1)%Z) (B (a + 1)%Z) (C a) (D a) (C (a + 1)%Z) (D (a + 1)%Z) h Ht Hh). lra.
Qed.

Section Drift.
Variables (h a : R) (n : Z) (N : nat).
Hypothesis Hh : 0 < h.
Hypothesis Ha : 0 <= a.
Hypothesis Hn : (1 <= n)%Z.
Let q := sqrt (IZR (n + 1)).
Let w := 39 * q * a.

Lemma q_sq : q ^ 2 = IZR (n + 1).
Proof. unfold q. rewrite <- Rsqr_pow2. apply Rsqr_sqrt. apply IZR_le. lia. Qed.
Lemma q_pos : 0 <= q. Proof. apply sqrt_pos. Qed.
Lemma w_pos : 0 <= w. Proof. unfold w. pose proof q_pos. apply Rmult_le_pos; lra. Qed.
Lemma h3_pos : 0 < h ^ 3. Proof. apply pow_lt. exact Hh. Qed.

Definition vdrift := a * (1 + 5 * (INR N + 1) * q).
Definition sdrift := a / h * (8 + 39 * (INR N + 1) * q).

(** errors of size a in the values and 8 a / h in the slopes *)
Lemma small_bend p0 s0 p1 s1 : Rabs p0 <= a -> Rabs p1 <= a -> Rabs s0 <= 8 * (a / h) -> Rabs s1 <= 8 * (a / h) ->
  bend p0 s0 p1 s1 h <= 1456 * a ^ 2 / h ^ 3.
Proof.
  intros H1 H2 H3 H4. apply abs_le in H1, H2, H3, H4. unfold bend.
  assert (E1 : Rabs ((p1 - p0) / h - (s0 + s1) / 2) <= 10 * (a / h)).
  { set (b := a / h) in *. assert (Eb : a = b * h) by (unfold b; field; lra).
    assert (- (2 * b) <= (p1 - p0) / h <= 2 * b).
    { split; apply (Rmult_le_reg_r h); auto; unfold Rdiv; rewrite Rmult_assoc, Rinv_l by lra; lra. }
    apply Rabs_le. lra. }
  assert (E2 : Rabs (s1 - s0) <= 16 * (a / h)) by (apply Rabs_le; lra).
  apply sq_le in E1. apply sq_le in E2. replace (1456 * a ^ 2 / h ^ 3) with ((12 * (10 * (a / h)) ^ 2 + (16 * (a / h)) ^ 2) / h) by (field; lra).
  unfold Rdiv at 1 5. apply Rmult_le_compat_r; [left; apply Rinv_0_lt_compat; lra|]. lra.
Qed.
Lemma small_energy (P S : Z -> R) : forall k b, (forall i, (b <= i <= b + Z.of_nat k)%Z -> Rabs (P i) <= a /\ Rabs (S i) <= 8 * (a / h)) ->
  energy P S h b k <= INR k * (1456 * a ^ 2 / h ^ 3).
Proof.
  induction k as [|k IH]; intros b Hk; cbn [energy]; [cbn; lra|].
  destruct (Hk b ltac:(lia)) as (A1 & A2). destruct (Hk (b + 1)%Z ltac:(lia)) as (B1 & B2).
  pose proof (small_bend _ _ _ _ A1 B1 A2 B2). specialize (IH (b + 1)%Z ltac:(intros i Hi; apply Hk; lia)). rewrite S_INR. lra.
Qed.
Lemma small_total (P S : Z -> R) k b : (Z.of_nat k <= n + 1)%Z -> (forall i, (b <= i <= b + Z.of_nat k)%Z -> Rabs (P i) <= a /\ Rabs (S i) <= 8 * (a / h)) ->
  energy P S h b k <= w ^ 2 / h ^ 3.
Proof.
  intros Hk H. eapply Rle_trans; [apply small_energy; exact H|]. pose proof h3_pos as H3.
  unfold w. replace ((39 * q * a) ^ 2 / h ^ 3) with (q ^ 2 * (1521 * a ^ 2 / h ^ 3)) by (field; lra). rewrite q_sq.
  assert (0 <= / h ^ 3) by (left; apply Rinv_0_lt_compat; exact H3). pose proof (pow2_ge_0 a) as A2.
  apply Rmult_le_compat.
  - apply pos_INR.
  - apply Rmult_le_pos; lra.
  - rewrite INR_IZR_INZ. apply IZR_le. exact Hk.
  - unfold Rdiv. apply Rmult_le_compat_r; lra.
Qed.

(** the errors after m steps *)
Record drift (m : nat) (P S : Z -> R) : Prop := {
  dr_E : energy P S h (Z.of_nat m - 1) (Z.to_nat (n + 1 - 2 * Z.of_nat m)) <= (INR (Datatypes.S m) * w) ^ 2 / h ^ 3;
  dr_V : forall i, (Z.of_nat m - 1 <= i <= n - Z.of_nat m)%Z -> Rabs (P i) <= INR (Datatypes.S m) * vdrift;
  dr_S : forall i, (Z.of_nat m - 1 <= i <= n - Z.of_nat m)%Z -> Rabs (S i) <= INR (Datatypes.S m) * sdrift }.

Lemma ah_pos : 0 <= a / h. Proof. apply Rmult_le_pos; [exact Ha|left; apply Rinv_0_lt_compat; exact Hh]. Qed.
Lemma Nq_pos : 0 <= (INR N + 1) * q.
Proof. apply Rmult_le_pos; [pose proof (pos_INR N); lra|apply q_pos]. Qed.

Lemma drift_0 P S : (forall i, (-1 <= i <= n)%Z -> Rabs (P i) <= a /\ Rabs (S i) <= 8 * (a / h)) -> drift 0 P S.
Proof.
  intros H. pose proof ah_pos as AH. pose proof Nq_pos as NQ. constructor.
  - change (INR 1) with 1. rewrite Rmult_1_l. apply small_total; [lia|]. intros i Hi. apply H. lia.
  - intros i Hi. destruct (H i ltac:(lia)) as (A & _). change (INR 1) with 1. rewrite Rmult_1_l. unfold vdrift.
    assert (0 <= a * ((INR N + 1) * q)) by (apply Rmult_le_pos; lra). lra.
  - intros i Hi. destruct (H i ltac:(lia)) as (_ & A). change (INR 1) with 1. rewrite Rmult_1_l. unfold sdrift.
    assert (0 <= a / h * ((INR N + 1) * q)) by (apply Rmult_le_pos; lra). lra.
Qed.

(** an exact step of the errors, plus new errors *)
Lemma drift_step m P S P' S' o u : (m < N)%nat -> drift m P S -> (o = -1 \/ o = 0)%Z -> 0 <= u < h ->
  (forall i, (Z.of_nat m <= i <= n - Z.of_nat m - 1)%Z ->
     Rabs (P' i - seg (P (i + o)%Z) (S (i + o)%Z) (P (i + o + 1)%Z) (S (i + o + 1)%Z) h u) <= a /\
     Rabs (S' i - seg' (P (i + o)%Z) (S (i + o)%Z) (P (i + o + 1)%Z) (S (i + o + 1)%Z) h u) <= 8 * (a / h)) ->
  drift (Datatypes.S m) P' S'.
Proof.
  intros Hm [DE DV DS] Ho Hu HP. pose proof h3_pos as H3. pose proof w_pos as W0. pose proof q_pos as Q0. pose proof ah_pos as AH.
  set (A := fun i => seg (P (i + o)%Z) (S (i + o)%Z) (P (i + o + 1)%Z) (S (i + o + 1)%Z) h u).
  set (B := fun i => seg' (P (i + o)%Z) (S (i + o)%Z) (P (i + o + 1)%Z) (S (i + o + 1)%Z) h u).
  assert (Mp : 0 < INR (Datatypes.S m)) by (rewrite S_INR; pose proof (pos_INR m); lra).
  assert (I3 : 0 < / h ^ 3) by (apply Rinv_0_lt_compat; exact H3).
  (* energy of one old cell *)
  assert (CB : forall i, (Z.of_nat m <= i <= n - Z.of_nat m - 1)%Z ->
     bend (P (i + o)%Z) (S (i + o)%Z) (P (i + o + 1)%Z) (S (i + o + 1)%Z) h <= ((INR N + 1) * w) ^ 2 / h ^ 3).
  { intros i Hi. eapply Rle_trans; [apply (cell_energy h Hh P S (Z.of_nat m - 1) (Z.to_nat (n + 1 - 2 * Z.of_nat m)) (i + o)%Z); lia|].
    eapply Rle_trans; [exact DE|]. unfold Rdiv. apply Rmult_le_compat_r; [lra|]. apply pow_incr. split; [apply Rmult_le_pos; lra|].
    apply Rmult_le_compat_r; [exact W0|]. rewrite <- S_INR. apply le_INR. lia. }
  constructor.
  - set (M1 := INR (Datatypes.S m)) in *. rewrite S_INR. fold M1.
    destruct (Z_le_gt_dec 0 (n - 1 - 2 * Z.of_nat m)) as [HZ|HZ].
    + replace (n + 1 - 2 * Z.of_nat (Datatypes.S m))%Z with (n - 1 - 2 * Z.of_nat m)%Z by lia. replace (Z.of_nat (Datatypes.S m) - 1)%Z with (Z.of_nat m) by lia.
      set (k := Z.to_nat (n - 1 - 2 * Z.of_nat m)).
      destruct (step_energy P S A B (fun _ => 0) (fun _ => 0) h 0 o u Hh Hu k (Z.of_nat m)) as (lft & L0 & _ & L2).
      { intros i Hi. split.
        - split; rewrite Rplus_0_r; reflexivity.
        - unfold small_pert. destruct (Req_EM_T u 0) as [|N0]; [repeat split; lra|]. unfold bend. right. field. lra. }
      rewrite Rmult_0_r, Rplus_0_r in L2.
      assert (T1 : energy P S h (Z.of_nat m + o) (Datatypes.S k) <= energy P S h (Z.of_nat m - 1) (Z.to_nat (n + 1 - 2 * Z.of_nat m))).
      { apply energy_sub; [exact Hh|lia|lia]. }
      assert (T2 : energy (fun i => P' i - A i) (fun i => S' i - B i) h (Z.of_nat m) k <= w ^ 2 / h ^ 3).
      { apply small_total; [lia|]. intros i Hi. apply HP. lia. }
      assert (Tp : 0 < / M1) by (apply Rinv_0_lt_compat; exact Mp).
      pose proof (energy_young (/ M1) P' S' A B (fun i => P' i - A i) (fun i => S' i - B i) h Tp Hh ltac:(intros i; split; ring) k (Z.of_nat m)) as Y.
      eapply Rle_trans; [exact Y|]. rewrite Rinv_inv.
      replace (((M1 + 1) * w) ^ 2 / h ^ 3) with ((1 + / M1) * ((M1 * w) ^ 2 / h ^ 3) + (1 + M1) * (w ^ 2 / h ^ 3)) by (field; lra).
      apply Rplus_le_compat; apply Rmult_le_compat_l; lra.
    + replace (Z.to_nat (n + 1 - 2 * Z.of_nat (Datatypes.S m))) with 0%nat by lia. cbn [energy].
      apply Rmult_le_pos; [apply pow2_ge_0|lra].
  - intros i Hi. assert (Hi' : (Z.of_nat m <= i <= n - Z.of_nat m - 1)%Z) by lia. destruct (HP i Hi') as (B1 & _).
    pose proof (CB i Hi') as CBi. pose proof (DV (i + o)%Z ltac:(lia)) as V0. pose proof (DV (i + o + 1)%Z ltac:(lia)) as V1.
    pose proof (seg_chord (P (i + o)%Z) (S (i + o)%Z) (P (i + o + 1)%Z) (S (i + o + 1)%Z) h u Hh ltac:(lra)) as CH.
    set (p0 := P (i + o)%Z) in *. set (p1 := P (i + o + 1)%Z) in *. set (b := bend _ _ _ _ _) in *. set (sg := seg _ _ _ _ _ _) in *.
    set (mv := INR (Datatypes.S m) * vdrift) in *. replace (INR (Datatypes.S (Datatypes.S m)) * vdrift) with (mv + vdrift) by (unfold mv; rewrite (S_INR (Datatypes.S m)); ring).
    clearbody p0 p1 b sg mv.
    assert (T : 0 <= u / h <= 1).
    { split; [apply Rmult_le_pos; [lra|left; apply Rinv_0_lt_compat; lra]|]. apply (Rmult_le_reg_r h); [lra|]. unfold Rdiv. rewrite Rmult_assoc, Rinv_l; lra. }
    assert (CC : Rabs (p0 + (p1 - p0) * (u / h)) <= mv).
    { set (t := u / h) in *. clearbody t. apply abs_le in V0, V1.
      apply Rabs_le. replace (p0 + (p1 - p0) * t) with (p0 * (1 - t) + p1 * t) by ring.
      assert (- mv * (1 - t) <= p0 * (1 - t) <= mv * (1 - t)) by (split; apply Rmult_le_compat_r; lra).
      assert (- mv * t <= p1 * t <= mv * t) by (split; apply Rmult_le_compat_r; lra). lra. }
    pose proof Nq_pos as NQ. pose proof (pos_INR N) as PN.
    assert (DV' : Rabs (sg - (p0 + (p1 - p0) * (u / h))) <= 5 * (INR N + 1) * q * a).
    { apply Rle_trans with ((INR N + 1) * w / 8).
      2: { unfold w. assert (0 <= (INR N + 1) * q * a) by (apply Rmult_le_pos; lra). lra. }
      apply sq_abs; [apply Rmult_le_pos; [apply Rmult_le_pos; lra|lra]|].
      assert (h ^ 3 * b <= h ^ 3 * (((INR N + 1) * w) ^ 2 / h ^ 3)) by (apply Rmult_le_compat_l; lra).
      replace (((INR N + 1) * w / 8) ^ 2) with (h ^ 3 * (((INR N + 1) * w) ^ 2 / h ^ 3) / 64) by (field; lra). lra. }
    unfold vdrift.
    replace (P' i) with ((p0 + (p1 - p0) * (u / h)) + (sg - (p0 + (p1 - p0) * (u / h))) + (P' i - sg)) by ring.
    eapply Rle_trans; [apply Rabs_triang|]. pose proof (Rabs_triang (p0 + (p1 - p0) * (u / h)) (sg - (p0 + (p1 - p0) * (u / h)))). lra.
  - intros i Hi. assert (Hi' : (Z.of_nat m <= i <= n - Z.of_nat m - 1)%Z) by lia. destruct (HP i Hi') as (_ & B1).
    pose proof (CB i Hi') as CBi. pose proof (DS (i + o)%Z ltac:(lia)) as V0.
    pose proof (seg_slope (P (i + o)%Z) (S (i + o)%Z) (P (i + o + 1)%Z) (S (i + o + 1)%Z) h u Hh ltac:(lra)) as CH.
    set (s0 := S (i + o)%Z) in *. set (b := bend _ _ _ _ _) in *. set (sg := seg' _ _ _ _ _ _) in *.
    set (mv := INR (Datatypes.S m) * sdrift) in *. replace (INR (Datatypes.S (Datatypes.S m)) * sdrift) with (mv + sdrift) by (unfold mv; rewrite (S_INR (Datatypes.S m)); ring).
    clearbody s0 b sg mv. pose proof Nq_pos as NQ. pose proof (pos_INR N) as PN.
    assert (DV' : Rabs (sg - s0) <= (INR N + 1) * w / h).
    { apply sq_abs; [apply Rmult_le_pos; [apply Rmult_le_pos; lra|left; apply Rinv_0_lt_compat; lra]|].
      assert (h * b <= h * (((INR N + 1) * w) ^ 2 / h ^ 3)) by (apply Rmult_le_compat_l; lra).
      replace (((INR N + 1) * w / h) ^ 2) with (h * (((INR N + 1) * w) ^ 2 / h ^ 3)) by (field; lra). lra. }
    replace sdrift with (8 * (a / h) + (INR N + 1) * w / h) by (unfold sdrift, w; field; lra).
    replace (S' i) with (s0 + (sg - s0) + (S' i - sg)) by ring.
    eapply Rle_trans; [apply Rabs_triang|]. pose proof (Rabs_triang s0 (sg - s0)). lra.
Qed.
End Drift.
