(** Error of the 1-D loop for a smooth field: pure sequences. *)
From Coq Require Import ZArith List Bool Lia Reals Lra.
From Verif Require Import Base Num ModelVec SpecGradient SpecStability ProofsHermiteErr ProofsRunLine ProofsEnergy ProofsStability ProofsSegErr.
Import ListNotations.
Open Scope R_scope.

Lemma seg_plus p0 s0 p1 s1 q0 r0 q1 r1 h u : h <> 0 ->
  seg (p0 + q0) (s0 + r0) (p1 + q1) (s1 + r1) h u = seg p0 s0 p1 s1 h u + seg q0 r0 q1 r1 h u.
Proof. intros H. unfold seg, co2, co3. field. exact H. Qed.
Lemma seg'_plus p0 s0 p1 s1 q0 r0 q1 r1 h u : h <> 0 ->
  seg' (p0 + q0) (s0 + r0) (p1 + q1) (s1 + r1) h u = seg' p0 s0 p1 s1 h u + seg' q0 r0 q1 r1 h u.
Proof. intros H. unfold seg', co2, co3. field. exact H. Qed.

Lemma sq_abs x y : 0 <= y -> x ^ 2 <= y ^ 2 -> Rabs x <= y.
Proof.
  intros Hy H. rewrite <- (Rabs_pos_eq y Hy). apply Rsqr_le_abs_0. unfold Rsqr. lra.
Qed.

Lemma derivs_sub lo hi lo' hi' : lo <= lo' -> hi' <= hi -> forall ds f, derivs lo hi f ds -> derivs lo' hi' f ds.
Proof. intros H1 H2. induction ds as [|d ds IH]; intros f Hd; [exact I|]. destruct Hd as (A & B). split; [intros t Ht; apply A; lra|apply IH; exact B]. Qed.

Section Err.
Variables (f f1 f2 f3 f4 : R -> R) (x0 h M : R) (n : Z) (N : nat).
(** node positions X (-1) .. X n *)
Let X (i : Z) : R := x0 + IZR i * h.
Hypothesis Hh : 0 < h.
Hypothesis HD : derivs (X (-1)) (X n) f [f1; f2; f3; f4].
Hypothesis HM : forall t, X (-1) <= t <= X n -> Rabs (f4 t) <= M.
Hypothesis Hn : (1 <= n)%Z.

Let q := sqrt (INR N * IZR (n + 1) / 18).
Definition vb := h ^ 4 * M * (/ 384 + q / 8).
Definition sb := h ^ 3 * M * (/ 24 + q).

Lemma M0 : 0 <= M.
Proof.
  assert (X (-1) <= X n). { unfold X. apply Rplus_le_compat_l. apply Rmult_le_compat_r; [lra|]. apply IZR_le. lia. }
  eapply Rle_trans; [apply Rabs_pos|]. apply (HM (X (-1))). lra.
Qed.
Lemma q0 : 0 <= q. Proof. apply sqrt_pos. Qed.
Lemma q2 : q ^ 2 = INR N * IZR (n + 1) / 18.
Proof.
  unfold q. rewrite <- Rsqr_pow2. apply Rsqr_sqrt. apply Rmult_le_pos; [|lra]. apply Rmult_le_pos; [apply pos_INR|apply IZR_le; lia].
Qed.

(** state after m steps, total displacement D *)
Record close (m : nat) (D : R) (P S : Z -> R) : Prop := {
  cl_D : - (INR m * h) <= D <= INR m * h;
  cl_E : energy (fun i => P i - f (X i - D)) (fun i => S i - f1 (X i - D)) h (Z.of_nat m - 1) (Z.to_nat (n + 1 - 2 * Z.of_nat m))
         <= INR m * (IZR (n + 1) * (M ^ 2 * h ^ 5 / 18));
  cl_V : forall i, (Z.of_nat m - 1 <= i <= n - Z.of_nat m)%Z -> Rabs (P i - f (X i - D)) <= INR m * vb;
  cl_S : forall i, (Z.of_nat m - 1 <= i <= n - Z.of_nat m)%Z -> Rabs (S i - f1 (X i - D)) <= INR m * sb }.

Lemma close_0 P S : (forall i, (-1 <= i <= n)%Z -> P i = f (X i) /\ S i = f1 (X i)) -> close 0 0 P S.
Proof.
  intros H. constructor.
  - cbn. lra.
  - replace (INR 0 * (IZR (n + 1) * (M ^ 2 * h ^ 5 / 18))) with 0 by (cbn; ring). right.
    change (Z.of_nat 0 - 1)%Z with (-1)%Z. replace (n + 1 - 2 * Z.of_nat 0)%Z with (n + 1)%Z by lia.
    assert (K : forall k a, (-1 <= a)%Z -> (a + Z.of_nat k <= n)%Z -> energy (fun i => P i - f (X i - 0)) (fun i => S i - f1 (X i - 0)) h a k = 0).
    { induction k as [|k IH]; intros a Ha Hk; [reflexivity|]. cbn [energy]. rewrite IH by lia.
      destruct (H a ltac:(lia)) as (-> & ->). destruct (H (a + 1)%Z ltac:(lia)) as (-> & ->). rewrite !Rminus_0_r. unfold bend. field. lra. }
    apply K; lia.
  - intros i Hi. destruct (H i ltac:(cbn in Hi; lia)) as (-> & _). rewrite Rminus_0_r. replace (f (X i) - f (X i)) with 0 by ring. rewrite Rabs_R0. cbn. lra.
  - intros i Hi. destruct (H i ltac:(cbn in Hi; lia)) as (_ & ->). rewrite Rminus_0_r. replace (f1 (X i) - f1 (X i)) with 0 by ring. rewrite Rabs_R0. cbn. lra.
Qed.

Lemma cell_energy P S a k j : (a <= j < a + Z.of_nat k)%Z -> bend (P j) (S j) (P (j + 1)%Z) (S (j + 1)%Z) h <= energy P S h a k.
Proof.
  intros Hj. pose proof (energy_sub P S h j 1 a k Hh ltac:(lia) ltac:(lia)) as K. cbn [energy] in K. lra.
Qed.

Lemma close_step m D P S P' S' o u d : (m < N)%nat -> close m D P S -> (o = -1 \/ o = 0)%Z -> 0 <= u < h -> - d = IZR o * h + u ->
  (forall i, (0 <= i < n)%Z -> advected h o u P S P' S' i) -> close (Datatypes.S m) (d + D) P' S'.
Proof.
  intros Hm [CD CE CV CS] Ho Hu Ed HA. pose proof M0 as HM0. pose proof q0 as HQ. pose proof q2 as HQ2.
  set (wP := fun i => P i - f (X i - D)) in *. set (wS := fun i => S i - f1 (X i - D)) in *.
  assert (Hd : - h <= d <= h) by (destruct Ho as [-> | ->]; lra).
  set (ro := fun i => seg (f (X (i + o)%Z - D)) (f1 (X (i + o)%Z - D)) (f (X (i + o + 1)%Z - D)) (f1 (X (i + o + 1)%Z - D)) h u - f (X i - (d + D))).
  set (si := fun i => seg' (f (X (i + o)%Z - D)) (f1 (X (i + o)%Z - D)) (f (X (i + o + 1)%Z - D)) (f1 (X (i + o + 1)%Z - D)) h u - f1 (X i - (d + D))).
  (* the new error *)
  assert (W : forall i, (Z.of_nat m <= i <= n - Z.of_nat m - 1)%Z ->
    P' i - f (X i - (d + D)) = seg (wP (i + o)%Z) (wS (i + o)%Z) (wP (i + o + 1)%Z) (wS (i + o + 1)%Z) h u + ro i /\
    S' i - f1 (X i - (d + D)) = seg' (wP (i + o)%Z) (wS (i + o)%Z) (wP (i + o + 1)%Z) (wS (i + o + 1)%Z) h u + si i).
  { intros i Hi. destruct (HA i ltac:(lia)) as (A1 & A2). unfold ro, si.
    split.
    - rewrite A1.
      replace (seg (P (i + o)%Z) (S (i + o)%Z) (P (i + o + 1)%Z) (S (i + o + 1)%Z) h u) with
        (seg (wP (i + o)%Z) (wS (i + o)%Z) (wP (i + o + 1)%Z) (wS (i + o + 1)%Z) h u +
         seg (f (X (i + o)%Z - D)) (f1 (X (i + o)%Z - D)) (f (X (i + o + 1)%Z - D)) (f1 (X (i + o + 1)%Z - D)) h u); [lra|].
      rewrite <- seg_plus by lra. unfold wP, wS. f_equal; lra.
    - rewrite A2.
      replace (seg' (P (i + o)%Z) (S (i + o)%Z) (P (i + o + 1)%Z) (S (i + o + 1)%Z) h u) with
        (seg' (wP (i + o)%Z) (wS (i + o)%Z) (wP (i + o + 1)%Z) (wS (i + o + 1)%Z) h u +
         seg' (f (X (i + o)%Z - D)) (f1 (X (i + o)%Z - D)) (f (X (i + o + 1)%Z - D)) (f1 (X (i + o + 1)%Z - D)) h u); [lra|].
      rewrite <- seg'_plus by lra. unfold wP, wS. f_equal; lra. }
  (* the perturbation *)
  assert (PB : forall i, (Z.of_nat m <= i <= n - Z.of_nat m - 1)%Z ->
    Rabs (ro i) <= M / 24 * (u ^ 2 * (h - u) ^ 2) /\ Rabs (si i) <= M / 6 * (u * (h - u) * h)).
  { intros i Hi. set (a := X (i + o)%Z - D).
    assert (Ea : X (i + o + 1)%Z - D = a + h) by (unfold a, X; rewrite plus_IZR; ring).
    assert (Eu : X i - (d + D) = a + u) by (unfold a, X; rewrite plus_IZR; lra).
    assert (Bd : X (-1) <= a /\ a + h <= X n).
    { rewrite INR_IZR_INZ in CD.
      assert (L1 : IZR (Z.of_nat m) - 1 <= IZR (i + o)) by (rewrite <- minus_IZR; apply IZR_le; lia).
      assert (L2 : IZR (i + o) <= IZR n - IZR (Z.of_nat m) - 1) by (rewrite <- !minus_IZR; apply IZR_le; lia).
      unfold a, X. set (z := IZR (i + o)) in *. set (k := IZR (Z.of_nat m)) in *. set (nn := IZR n) in *. clearbody z k nn.
      assert (0 <= (z - (k - 1)) * h) by (apply Rmult_le_pos; lra). assert (0 <= (nn - k - 1 - z) * h) by (apply Rmult_le_pos; lra). lra. }
    assert (DS : derivs a (a + h) f [f1; f2; f3; f4]) by (eapply derivs_sub; [| |exact HD]; lra).
    assert (MS : forall t, a <= t <= a + h -> Rabs (f4 t) <= M) by (intros t Ht; apply HM; lra).
    unfold ro, si. fold a. rewrite Ea, Eu. split.
    - apply (seg_value f f1 f2 f3 f4 a h M Hh DS MS u). lra.
    - apply (seg_slope_at f f1 f2 f3 f4 a h M Hh DS MS u). lra. }
  set (ka := M ^ 2 * h ^ 5 / 18).
  assert (Hka : 0 <= ka). { unfold ka. apply Rmult_le_pos; [|lra]. apply Rmult_le_pos; [apply pow2_ge_0|apply pow_le; lra]. }
  (* bound of the energy of one old cell *)
  assert (CB : forall i, (Z.of_nat m <= i <= n - Z.of_nat m - 1)%Z ->
     bend (wP (i + o)%Z) (wS (i + o)%Z) (wP (i + o + 1)%Z) (wS (i + o + 1)%Z) h <= q ^ 2 * (M ^ 2 * h ^ 5)).
  { intros i Hi. eapply Rle_trans; [apply (cell_energy wP wS (Z.of_nat m - 1) (Z.to_nat (n + 1 - 2 * Z.of_nat m)) (i + o)%Z); lia|].
    eapply Rle_trans; [exact CE|]. rewrite HQ2. fold ka.
    replace (INR N * IZR (n + 1) / 18 * (M ^ 2 * h ^ 5)) with (INR N * (IZR (n + 1) * ka)) by (unfold ka; field).
    apply Rmult_le_compat_r; [apply Rmult_le_pos; [apply IZR_le; lia|exact Hka]|]. apply le_INR. lia. }
  constructor.
  - rewrite S_INR. lra.
  - rewrite S_INR. fold ka in CE |- *.
    destruct (Z_le_gt_dec 0 (n - 1 - 2 * Z.of_nat m)) as [HZ|HZ].
    + replace (n + 1 - 2 * Z.of_nat (Datatypes.S m))%Z with (n - 1 - 2 * Z.of_nat m)%Z by lia. replace (Z.of_nat (Datatypes.S m) - 1)%Z with (Z.of_nat m) by lia.
      set (k := Z.to_nat (n - 1 - 2 * Z.of_nat m)).
      destruct (step_energy wP wS (fun i => P' i - f (X i - (d + D))) (fun i => S' i - f1 (X i - (d + D))) ro si h ka o u Hh Hu k (Z.of_nat m)) as (lft & L0 & _ & L2).
      { intros i Hi. assert (Hi' : (Z.of_nat m <= i <= n - Z.of_nat m - 1)%Z) by lia. destruct (W i Hi') as (W1 & W2). split; [split; [exact W1|exact W2]|].
        destruct (PB i Hi') as (B1 & B2). unfold small_pert. destruct (Req_EM_T u 0) as [E0|N0].
        - rewrite E0 in B1, B2. replace (M / 24 * (0 ^ 2 * (h - 0) ^ 2)) with 0 in B1 by ring. replace (M / 6 * (0 * (h - 0) * h)) with 0 in B2 by ring.
          split; [|split; [|exact Hka]].
          + pose proof (Rabs_pos (ro i)). destruct (Req_dec (ro i) 0); [assumption|]. pose proof (Rabs_pos_lt _ H0). lra.
          + pose proof (Rabs_pos (si i)). destruct (Req_dec (si i) 0); [assumption|]. pose proof (Rabs_pos_lt _ H0). lra.
        - apply pert_energy; auto. lra. }
      assert (T1 : energy wP wS h (Z.of_nat m + o) (Datatypes.S k) <= energy wP wS h (Z.of_nat m - 1) (Z.to_nat (n + 1 - 2 * Z.of_nat m))).
      { apply energy_sub; [exact Hh|lia|lia]. }
      assert (T2 : INR (Datatypes.S k) * ka <= IZR (n + 1) * ka).
      { apply Rmult_le_compat_r; [exact Hka|]. rewrite INR_IZR_INZ. apply IZR_le. lia. }
      rewrite Rmult_plus_distr_r. lra.
    + replace (Z.to_nat (n + 1 - 2 * Z.of_nat (Datatypes.S m))) with 0%nat by lia. cbn [energy].
      apply Rmult_le_pos; [pose proof (pos_INR m); lra|]. apply Rmult_le_pos; [apply IZR_le; lia|exact Hka].
  - intros i Hi. assert (Hi' : (Z.of_nat m <= i <= n - Z.of_nat m - 1)%Z) by lia. destruct (W i Hi') as (-> & _). destruct (PB i Hi') as (B1 & _).
    pose proof (CB i Hi') as CBi. pose proof (CV (i + o)%Z ltac:(lia)) as V0. pose proof (CV (i + o + 1)%Z ltac:(lia)) as V1.
    fold (wP (i + o)%Z) in V0. fold (wP (i + o + 1)%Z) in V1.
    pose proof (seg_chord (wP (i + o)%Z) (wS (i + o)%Z) (wP (i + o + 1)%Z) (wS (i + o + 1)%Z) h u Hh ltac:(lra)) as CH.
    set (p0 := wP (i + o)%Z) in *. set (p1 := wP (i + o + 1)%Z) in *. set (b := bend _ _ _ _ _) in *. set (sg := seg _ _ _ _ _ _) in *.
    set (mv := INR m * vb) in *. replace (INR (Datatypes.S m) * vb) with (mv + vb) by (unfold mv; rewrite S_INR; ring). clearbody p0 p1 b sg mv.
    assert (T : 0 <= u / h <= 1).
    { split; [apply Rmult_le_pos; [lra|left; apply Rinv_0_lt_compat; lra]|]. apply (Rmult_le_reg_r h); [lra|]. unfold Rdiv. rewrite Rmult_assoc, Rinv_l; lra. }
    assert (CC : Rabs (p0 + (p1 - p0) * (u / h)) <= mv).
    { set (t := u / h) in *. clearbody t. assert (- mv <= p0 <= mv) by (unfold Rabs in V0; destruct (Rcase_abs p0); lra).
      assert (- mv <= p1 <= mv) by (unfold Rabs in V1; destruct (Rcase_abs p1); lra).
      apply Rabs_le. replace (p0 + (p1 - p0) * t) with (p0 * (1 - t) + p1 * t) by ring.
      assert (- mv * (1 - t) <= p0 * (1 - t) <= mv * (1 - t)) by (split; apply Rmult_le_compat_r; lra).
      assert (- mv * t <= p1 * t <= mv * t) by (split; apply Rmult_le_compat_r; lra). lra. }
    assert (DV : Rabs (sg - (p0 + (p1 - p0) * (u / h))) <= h ^ 4 * M * q / 8).
    { apply sq_abs; [apply Rmult_le_pos; [|lra]; apply Rmult_le_pos; [apply Rmult_le_pos; [apply pow_le; lra|exact HM0]|exact HQ]|].
      assert (h ^ 3 * b <= h ^ 3 * (q ^ 2 * (M ^ 2 * h ^ 5))) by (apply Rmult_le_compat_l; [apply pow_le; lra|exact CBi]).
      replace ((h ^ 4 * M * q / 8) ^ 2) with (h ^ 3 * (q ^ 2 * (M ^ 2 * h ^ 5)) / 64) by field. lra. }
    assert (B2 : M / 24 * (u ^ 2 * (h - u) ^ 2) <= h ^ 4 * M / 384).
    { replace (h ^ 4 * M / 384) with (M / 24 * (h ^ 2 / 4) ^ 2) by field. apply Rmult_le_compat_l; [lra|].
      replace (u ^ 2 * (h - u) ^ 2) with ((u * (h - u)) ^ 2) by ring. apply pow_incr. split; [apply Rmult_le_pos; lra|].
      apply Rminus_le. replace (u * (h - u) - h ^ 2 / 4) with (- (u - h / 2) ^ 2) by field. pose proof (pow2_ge_0 (u - h / 2)). lra. }
    unfold vb.
    replace (sg + ro i) with ((p0 + (p1 - p0) * (u / h)) + (sg - (p0 + (p1 - p0) * (u / h))) + ro i) by ring.
    eapply Rle_trans; [apply Rabs_triang|]. pose proof (Rabs_triang (p0 + (p1 - p0) * (u / h)) (sg - (p0 + (p1 - p0) * (u / h)))). lra.
  - intros i Hi. assert (Hi' : (Z.of_nat m <= i <= n - Z.of_nat m - 1)%Z) by lia. destruct (W i Hi') as (_ & ->). destruct (PB i Hi') as (_ & B1).
    pose proof (CB i Hi') as CBi. pose proof (CS (i + o)%Z ltac:(lia)) as V0. fold (wS (i + o)%Z) in V0.
    pose proof (seg_slope (wP (i + o)%Z) (wS (i + o)%Z) (wP (i + o + 1)%Z) (wS (i + o + 1)%Z) h u Hh ltac:(lra)) as CH.
    set (s0 := wS (i + o)%Z) in *. set (b := bend _ _ _ _ _) in *. set (sg := seg' _ _ _ _ _ _) in *. set (mv := INR m * sb) in *. replace (INR (Datatypes.S m) * sb) with (mv + sb) by (unfold mv; rewrite S_INR; ring). clearbody s0 b sg mv.
    assert (DV : Rabs (sg - s0) <= h ^ 3 * M * q).
    { apply sq_abs; [apply Rmult_le_pos; [apply Rmult_le_pos; [apply pow_le; lra|exact HM0]|exact HQ]|].
      assert (h * b <= h * (q ^ 2 * (M ^ 2 * h ^ 5))) by (apply Rmult_le_compat_l; [lra|exact CBi]).
      replace ((h ^ 3 * M * q) ^ 2) with (h * (q ^ 2 * (M ^ 2 * h ^ 5))) by ring. lra. }
    assert (B2 : M / 6 * (u * (h - u) * h) <= h ^ 3 * M / 24).
    { replace (h ^ 3 * M / 24) with (M / 6 * (h ^ 2 / 4 * h)) by field. apply Rmult_le_compat_l; [lra|]. apply Rmult_le_compat_r; [lra|].
      apply Rminus_le. replace (u * (h - u) - h ^ 2 / 4) with (- (u - h / 2) ^ 2) by field. pose proof (pow2_ge_0 (u - h / 2)). lra. }
    unfold sb.
    replace (sg + si i) with (s0 + (sg - s0) + si i) by ring.
    eapply Rle_trans; [apply Rabs_triang|]. pose proof (Rabs_triang s0 (sg - s0)). lra.
Qed.
End Err.
