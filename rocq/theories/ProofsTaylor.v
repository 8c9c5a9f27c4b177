(** Taylor remainder bounds and the order of the difference formulas. *)
From Coq Require Import Reals Lra Lia.
From Verif Require Import Base ModelVec SpecInterp SpecGradient.
Open Scope R_scope.

Lemma nonneg_growth F F' h : (forall t, 0 <= t <= h -> derivable_pt_lim F t (F' t)) ->
  (forall t, 0 <= t <= h -> 0 <= F' t) -> F 0 = 0 -> forall t, 0 <= t <= h -> 0 <= F t.
Proof.
  intros HD HP H0 t Ht. destruct (Req_dec t 0) as [->|Hne]; [lra|].
  destruct (MVT_cor2 F F' 0 t) as (c & E & Hc); [lra|intros c Hc; apply HD; lra|].
  rewrite H0 in E. assert (0 <= F' c * (t - 0)) by (apply Rmult_le_pos; [apply HP; lra|lra]). lra.
Qed.

Lemma growth f f' B B' h : (forall t, 0 <= t <= h -> derivable_pt_lim f t (f' t)) ->
  (forall t, 0 <= t <= h -> derivable_pt_lim B t (B' t)) ->
  (forall t, 0 <= t <= h -> Rabs (f' t) <= B' t) -> f 0 = 0 -> B 0 = 0 ->
  forall t, 0 <= t <= h -> Rabs (f t) <= B t.
Proof.
  intros H1 H2 HB F0 B0 t Ht. apply Rabs_le. split.
  - assert (0 <= B t + f t); [|lra].
    apply (nonneg_growth (fun t => B t + f t) (fun t => B' t + f' t) h); auto; [|intros s Hs|lra].
    + intros s Hs. apply (derivable_pt_lim_plus B f); auto.
    + specialize (HB s Hs).  unfold Rabs in HB. destruct (Rcase_abs (f' s)); lra.
  - assert (0 <= B t - f t); [|lra].
    apply (nonneg_growth (fun t => B t - f t) (fun t => B' t - f' t) h); auto; [|intros s Hs|lra].
    + intros s Hs. apply (derivable_pt_lim_minus B f); auto.
    + specialize (HB s Hs). unfold Rabs in HB. destruct (Rcase_abs (f' s)); lra.
Qed.

Lemma d_lin c t : derivable_pt_lim (fun t => c * t) t c.
Proof.
  assert (H : derivable_pt_lim (fun t => c * t) t (c * 1)); [|rewrite Rmult_1_r in H; exact H].
  apply (derivable_pt_lim_scal id c). apply derivable_pt_lim_id.
Qed.
Lemma d_pow c n t : derivable_pt_lim (fun t => c * t ^ n) t (c * (INR n * t ^ pred n)).
Proof. apply (derivable_pt_lim_scal (fun t => t ^ n) c). apply derivable_pt_lim_pow. Qed.
Lemma d_const c t : derivable_pt_lim (fun _ => c) t 0.
Proof. apply derivable_pt_lim_const. Qed.
Lemma d_eq f t l l' : derivable_pt_lim f t l -> l = l' -> derivable_pt_lim f t l'.
Proof. intros H <-. exact H. Qed.

Lemma taylor2 h M f d1 d2 d3 : derivs 0 h f (d1 :: d2 :: d3 :: nil) -> (forall t, 0 <= t <= h -> Rabs (d3 t) <= M) ->
  forall t, 0 <= t <= h -> Rabs (f t - (f 0 + d1 0 * t + d2 0 / 2 * t ^ 2)) <= M / 6 * t ^ 3.
Proof.
  intros (D1 & D2 & D3 & _) HM.
  assert (R1 : forall t, 0 <= t <= h -> Rabs (d2 t - d2 0) <= M * t).
  { apply (growth (fun t => d2 t - d2 0) d3 (fun t => M * t) (fun _ => M)); auto; try lra.
    - intros t Ht. eapply d_eq; [apply (derivable_pt_lim_minus d2 (fun _ => d2 0)); [apply D3; auto|apply d_const]|ring].
    - intros t _. apply d_lin. }
  assert (R2 : forall t, 0 <= t <= h -> Rabs (d1 t - d1 0 - d2 0 * t) <= M / 2 * t ^ 2).
  { apply (growth (fun t => d1 t - d1 0 - d2 0 * t) (fun t => d2 t - d2 0) (fun t => M / 2 * t ^ 2) (fun t => M * t)); auto; try lra.
    - intros t Ht. eapply d_eq; [apply (derivable_pt_lim_minus (fun t => d1 t - d1 0) (fun t => d2 0 * t));
        [apply (derivable_pt_lim_minus d1 (fun _ => d1 0)); [apply D2; auto|apply d_const]|apply d_lin]|ring].
    - intros t _. eapply d_eq; [apply d_pow|]. cbn. field. }
  apply (growth (fun t => f t - (f 0 + d1 0 * t + d2 0 / 2 * t ^ 2)) (fun t => d1 t - d1 0 - d2 0 * t) (fun t => M / 6 * t ^ 3) (fun t => M / 2 * t ^ 2)); auto; try lra.
  - intros t Ht. eapply d_eq; [apply (derivable_pt_lim_minus f (fun t => f 0 + d1 0 * t + d2 0 / 2 * t ^ 2)); [apply D1; auto|]|].
    + apply (derivable_pt_lim_plus (fun t => f 0 + d1 0 * t) (fun t => d2 0 / 2 * t ^ 2)); [|apply d_pow].
      apply (derivable_pt_lim_plus (fun t => f 0) (fun t => d1 0 * t)); [apply d_const|apply d_lin].
    + cbn. field.
  - intros t _. eapply d_eq; [apply d_pow|]. cbn. field.
Qed.

Lemma taylor3 h M f d1 d2 d3 d4 : derivs 0 h f (d1 :: d2 :: d3 :: d4 :: nil) -> (forall t, 0 <= t <= h -> Rabs (d4 t) <= M) ->
  forall t, 0 <= t <= h -> Rabs (f t - (f 0 + d1 0 * t + d2 0 / 2 * t ^ 2 + d3 0 / 6 * t ^ 3)) <= M / 24 * t ^ 4.
Proof.
  intros (D1 & D) HM.
  pose proof (taylor2 h M d1 d2 d3 d4 D HM) as R.
  apply (growth (fun t => f t - (f 0 + d1 0 * t + d2 0 / 2 * t ^ 2 + d3 0 / 6 * t ^ 3)) (fun t => d1 t - (d1 0 + d2 0 * t + d3 0 / 2 * t ^ 2))
    (fun t => M / 24 * t ^ 4) (fun t => M / 6 * t ^ 3)); auto; try lra.
  - intros t Ht. eapply d_eq; [apply (derivable_pt_lim_minus f (fun t => f 0 + d1 0 * t + d2 0 / 2 * t ^ 2 + d3 0 / 6 * t ^ 3)); [apply D1; auto|]|].
    + apply (derivable_pt_lim_plus (fun t => f 0 + d1 0 * t + d2 0 / 2 * t ^ 2) (fun t => d3 0 / 6 * t ^ 3)); [|apply d_pow].
      apply (derivable_pt_lim_plus (fun t => f 0 + d1 0 * t) (fun t => d2 0 / 2 * t ^ 2)); [|apply d_pow].
      apply (derivable_pt_lim_plus (fun t => f 0) (fun t => d1 0 * t)); [apply d_const|apply d_lin].
    + cbn. field.
  - intros t _. eapply d_eq; [apply d_pow|]. cbn. field.
Qed.

(** mirrored function *)
Lemma d_mirror f d t : derivable_pt_lim f (- t) d -> derivable_pt_lim (fun t => f (- t)) t (- d).
Proof.
  intros H. replace (- d) with (d * -1) by ring.
  apply (derivable_pt_lim_comp (fun t => - t) f); [|exact H].
  apply (derivable_pt_lim_opp id t 1). apply derivable_pt_lim_id.
Qed.
Lemma d_mirror' f d t : derivable_pt_lim f (- t) d -> derivable_pt_lim (fun t => - f (- t)) t d.
Proof.
  intros H. replace d with (- - d) by ring. apply (derivable_pt_lim_opp (fun t => f (- t))). apply d_mirror. exact H.
Qed.

Lemma derivs_sub lo hi lo' hi' f ds : lo <= lo' -> hi' <= hi -> derivs lo hi f ds -> derivs lo' hi' f ds.
Proof.
  intros H1 H2. revert f; induction ds as [|d ds IH]; intros f; cbn; auto. intros (A & B). split; auto.
  intros t Ht. apply A. lra.
Qed.

Lemma soc_order h M f d1 d2 d3 : 0 < h -> derivs (- h) h f (d1 :: d2 :: d3 :: nil) ->
  (forall t, - h <= t <= h -> Rabs (d3 t) <= M) ->
  Rabs ((f h - f (- h)) / (2 * h) - d1 0) <= M / 6 * h ^ 2.
Proof.
  intros Hh HD HM.
  assert (A : Rabs (f h - (f 0 + d1 0 * h + d2 0 / 2 * h ^ 2)) <= M / 6 * h ^ 3).
  { apply (taylor2 h M f d1 d2 d3); [apply (derivs_sub (- h) h); auto; lra| |lra]. intros t Ht. apply HM. lra. }
  assert (B : Rabs (f (- h) - (f (- 0) + - d1 (- 0) * h + d2 (- 0) / 2 * h ^ 2)) <= M / 6 * h ^ 3).
  { destruct HD as (D1 & D2 & D3 & _).
    apply (taylor2 h M (fun t => f (- t)) (fun t => - d1 (- t)) (fun t => d2 (- t)) (fun t => - d3 (- t))); [|intros t Ht; rewrite Rabs_Ropp; apply HM; lra|lra].
    split; [intros t Ht; apply d_mirror; apply D1; lra|]. split; [intros t Ht; apply d_mirror'; apply D2; lra|].
    split; [intros t Ht; apply d_mirror; apply D3; lra|exact I]. }
  rewrite Ropp_0 in B.
  set (r1 := f h - _) in A. set (r2 := f (- h) - _) in B.
  assert (E : (f h - f (- h)) / (2 * h) - d1 0 = (r1 - r2) / (2 * h)) by (unfold r1, r2; field; lra).
  rewrite E. unfold Rdiv. rewrite Rabs_mult, (Rabs_right (/ (2 * h))) by (left; apply Rinv_0_lt_compat; lra).
  apply Rmult_le_reg_r with (2 * h); [lra|]. rewrite Rmult_assoc, Rinv_l by lra. rewrite Rmult_1_r.
  clearbody r1 r2. unfold Rabs in *. destruct (Rcase_abs r1), (Rcase_abs r2), (Rcase_abs (r1 - r2)); cbn in *; lra.
Qed.

Lemma third_order h M f d1 d2 d3 d4 : 0 < h -> derivs (- (2 * h)) h f (d1 :: d2 :: d3 :: d4 :: nil) ->
  (forall t, - (2 * h) <= t <= h -> Rabs (d4 t) <= M) ->
  Rabs ((2 * f h + 3 * f 0 - 6 * f (- h) + f (- 2 * h)) / (6 * h) - d1 0) <= M / 6 * h ^ 3.
Proof.
  intros Hh HD HM.
  assert (A : Rabs (f h - (f 0 + d1 0 * h + d2 0 / 2 * h ^ 2 + d3 0 / 6 * h ^ 3)) <= M / 24 * h ^ 4).
  { apply (taylor3 h M f d1 d2 d3 d4); [apply (derivs_sub (- (2 * h)) h); auto; lra| |lra]. intros t Ht. apply HM. lra. }
  assert (B : forall s, 0 <= s <= 2 * h -> Rabs (f (- s) - (f (- 0) + - d1 (- 0) * s + d2 (- 0) / 2 * s ^ 2 + - d3 (- 0) / 6 * s ^ 3)) <= M / 24 * s ^ 4).
  { intros s Hs. destruct HD as (D1 & D2 & D3 & D4 & _).
    apply (taylor3 (2 * h) M (fun t => f (- t)) (fun t => - d1 (- t)) (fun t => d2 (- t)) (fun t => - d3 (- t)) (fun t => d4 (- t)));
      [|intros t Ht; apply HM; lra|lra].
    split; [intros t Ht; apply d_mirror; apply D1; lra|]. split; [intros t Ht; apply d_mirror'; apply D2; lra|].
    split; [intros t Ht; apply d_mirror; apply D3; lra|]. split; [intros t Ht; apply d_mirror'; apply D4; lra|exact I]. }
  pose proof (B h ltac:(lra)) as B1. pose proof (B (2 * h) ltac:(lra)) as B2. rewrite Ropp_0 in B1, B2. clear B.
  replace (- (2 * h)) with (- 2 * h) in B2 by ring.
  set (r1 := f h - _) in A. set (r2 := f (- h) - _) in B1. set (r3 := f (- 2 * h) - _) in B2.
  assert (E : (2 * f h + 3 * f 0 - 6 * f (- h) + f (- 2 * h)) / (6 * h) - d1 0 = (2 * r1 - 6 * r2 + r3) / (6 * h)) by (unfold r1, r2, r3; field; lra).
  rewrite E. unfold Rdiv. rewrite Rabs_mult, (Rabs_right (/ (6 * h))) by (left; apply Rinv_0_lt_compat; lra).
  apply Rmult_le_reg_r with (6 * h); [lra|]. rewrite Rmult_assoc, Rinv_l by lra. rewrite Rmult_1_r.
  replace ((2 * h) ^ 4) with (16 * h ^ 4) in B2 by ring. replace (M * / 6 * h ^ 3 * (6 * h)) with (M * h ^ 4) by field.
  replace (M / 24 * (16 * h ^ 4)) with (16 * (M / 24 * h ^ 4)) in B2 by ring.
  replace (M * h ^ 4) with (24 * (M / 24 * h ^ 4)) by field.
  clearbody r1 r2 r3. set (e := M / 24 * h ^ 4) in *. clearbody e.
  unfold Rabs in *. destruct (Rcase_abs r1), (Rcase_abs r2), (Rcase_abs r3), (Rcase_abs (2 * r1 - 6 * r2 + r3)); lra.
Qed.
