(** Exactly how far time gets in binary64: C45. *)
From Coq Require Import ZArith List Reals Lra Lia Bool.
From Flocq Require Import Core BinarySingleNaN.
From Verif Require Import Base Num NumB64 ModelVec ModelApp SpecApp SpecB64 ProofsB64.
Open Scope R_scope.

Lemma bp_S e : bpow radix2 (e + 1) = 2 * bpow radix2 e.
Proof. rewrite bpow_plus. change (bpow radix2 1) with 2. ring. Qed.
Lemma fmt_between (e : Z) t : (-1074 <= e)%Z -> generic_format radix2 fe t -> t < bpow radix2 (e + 53) -> t <= bpow radix2 (e + 53) - bpow radix2 e.
Proof.
  intros He Ft Ht. assert (P : t <= pred radix2 fe (bpow radix2 (e + 53))).
  { apply pred_ge_gt; auto. typeclasses eauto. apply fmt_bpow. lia. }
  rewrite pred_bpow in P. replace (fe (e + 53)) with e in P by (unfold SpecFloat.fexp, SpecFloat.emin; lia). exact P.
Qed.
Lemma ulp_le t e : (-1074 <= e)%Z -> 0 <= t < bpow radix2 (e + 53) -> ulp radix2 fe t <= bpow radix2 e.
Proof.
  intros He [H0 H1]. destruct (Req_dec t 0) as [->|N].
  - change fe with (FLT_exp (-1074) 53). rewrite ulp_FLT_0 by reflexivity. apply bpow_le. exact He.
  - rewrite ulp_neq_0 by auto. apply bpow_le. unfold cexp.
    assert (M : (mag radix2 t <= e + 53)%Z) by (apply mag_le_bpow; [auto|rewrite Rabs_pos_eq; lra]).
    unfold SpecFloat.fexp, SpecFloat.emin. lia.
Qed.
Lemma ulp_top t e : (-1074 <= e)%Z -> bpow radix2 (e + 52) <= t < bpow radix2 (e + 53) -> ulp radix2 fe t = bpow radix2 e.
Proof.
  intros He [H0 H1]. pose proof (bpow_gt_0 radix2 (e + 52)). rewrite ulp_neq_0 by lra. unfold cexp.
  rewrite (mag_unique_pos radix2 t (e + 53)).
  - f_equal. unfold SpecFloat.fexp, SpecFloat.emin. lia.
  - replace (e + 53 - 1)%Z with (e + 52)%Z by lia. auto.
Qed.

Section Step.
Variables (q : Z) (d : R).
Hypothesis Hq : (-1074 <= q)%Z.
Hypothesis Fd : generic_format radix2 fe d.
Hypothesis Hd : bpow radix2 (q - 1) < d <= bpow radix2 q.
Let T := bpow radix2 (q + 53).

Lemma half_q : bpow radix2 q = 2 * bpow radix2 (q - 1).
Proof. rewrite <- bp_S. f_equal. lia. Qed.
Lemma d_pos : 0 < d.
Proof. pose proof (bpow_gt_0 radix2 (q - 1)). lra. Qed.

Lemma stuck : RN (T + d) = T.
Proof.
  pose proof d_pos as P. assert (F : generic_format radix2 fe T) by (apply fmt_bpow; lia).
  assert (PT : 0 <= T) by apply bpow_ge_0.
  assert (U : ulp radix2 fe T = 2 * bpow radix2 q).
  { unfold T. rewrite ulp_bpow. replace (fe (q + 53 + 1)) with (q + 1)%Z by (unfold SpecFloat.fexp, SpecFloat.emin; lia). apply bp_S. }
  pose proof (bpow_gt_0 radix2 q) as Pq.
  assert (D : round radix2 fe Zfloor (T + d) = T).
  { apply round_DN_plus_eps; auto. typeclasses eauto. rewrite (Rle_bool_true _ _ PT), U. lra. }
  assert (V : round radix2 fe Zceil (T + d) = T + 2 * bpow radix2 q).
  { rewrite round_UP_plus_eps; auto. rewrite succ_eq_pos by auto. rewrite U. reflexivity. typeclasses eauto.
    rewrite (Rle_bool_true _ _ PT), U. lra. }
  destruct (Rle_lt_or_eq_dec d (bpow radix2 q) (proj2 Hd)) as [L|E].
  - pose proof (round_N_eq_DN radix2 fe (fun n => negb (Z.even n)) (T + d)) as N. cbv zeta in N.
    rewrite D, V in N. apply N. lra.
  - pose proof (round_N_middle radix2 fe (fun n => negb (Z.even n)) (T + d)) as N. rewrite D, V in N.
    rewrite N by lra. clear N.
    assert (Z : Zfloor (scaled_mantissa radix2 fe (T + d)) = (2 ^ 52)%Z).
    { unfold scaled_mantissa, cexp. rewrite (mag_unique_pos radix2 (T + d) (q + 54)).
      - replace (fe (q + 54)) with (q + 1)%Z by (unfold SpecFloat.fexp, SpecFloat.emin; lia).
        replace ((T + d) * bpow radix2 (- (q + 1))) with (bpow radix2 52 + / 2).
        + change (bpow radix2 52) with (IZR (2 ^ 52)). apply Zfloor_imp. rewrite plus_IZR. lra.
        + unfold T. rewrite E. replace (q + 53)%Z with (52 + (q + 1))%Z by lia. rewrite (bpow_plus _ 52 (q + 1)), bpow_opp, bp_S.
          assert (bpow radix2 q <> 0) by lra. field. auto.
      - replace (q + 54 - 1)%Z with (q + 53)%Z by lia. fold T. replace (q + 54)%Z with (q + 53 + 1)%Z by lia. rewrite bp_S. fold T.
        split; [lra|]. assert (bpow radix2 q < T) by (apply bpow_lt; lia). lra. }
    rewrite Z. reflexivity.
Qed.

Lemma capped t : t <= T -> RN (t + d) <= T.
Proof. intros H. rewrite <- stuck. apply RN_le. lra. Qed.

Lemma grow t : generic_format radix2 fe t -> 0 <= t < T -> t + d / 2 <= RN (t + d).
Proof.
  intros Ft [H0 H1]. pose proof d_pos as P. pose proof half_q as Q. pose proof (bpow_gt_0 radix2 (q - 1)) as Pq.
  assert (M : t <= RN (t + d)) by (rewrite <- (RN_id t Ft) at 1; apply RN_le; lra).
  assert (Fr : generic_format radix2 fe (RN (t + d))) by (apply generic_format_round; typeclasses eauto).
  assert (One : ulp radix2 fe t = bpow radix2 q -> t + d / 2 <= RN (t + d)).
  { intros U. assert (Sc : succ radix2 fe t = t + bpow radix2 q) by (rewrite succ_eq_pos by auto; rewrite U; reflexivity).
    assert (Fs : generic_format radix2 fe (t + bpow radix2 q)) by (rewrite <- Sc; apply generic_format_succ; [typeclasses eauto|auto]).
    destruct (Rle_lt_or_eq_dec _ _ M) as [L|L].
    - assert (K : succ radix2 fe t <= RN (t + d)) by (apply succ_le_lt; auto; typeclasses eauto). lra.
    - exfalso. destruct (round_N_pt radix2 fe (fun n => negb (Z.even n)) (t + d)) as [_ K]. specialize (K _ Fs).
      rewrite <- L in K. unfold Rabs in K. destruct (Rcase_abs _) in K; destruct (Rcase_abs _) in K; lra. }
  destruct (Rle_or_lt (bpow radix2 (q + 52)) t) as [A|A].
  - apply One. apply ulp_top; auto.
  - destruct (Z.eq_dec q (-1074)) as [E|E].
    + apply One. apply Rle_antisym.
      * apply ulp_le; auto.
      * rewrite E. change fe with (FLT_exp (-1074) 53). rewrite <- (ulp_FLT_0 radix2 (-1074) 53) by reflexivity. apply ulp_ge_ulp_0; [exact fe_valid|change (FLT_exp (-1074) 53) with fe; typeclasses eauto].
    + destruct (Rle_or_lt (t + d) (bpow radix2 (q + 52))) as [B|B].
      * destruct (Rle_lt_or_eq_dec _ _ B) as [L|L].
        -- pose proof (error_le_half_ulp radix2 fe (fun n => negb (Z.even n)) (t + d)) as K.
           pose proof (ulp_le (t + d) (q - 1) ltac:(lia)) as U. replace (q - 1 + 53)%Z with (q + 52)%Z in U by lia.
           specialize (U ltac:(lra)). unfold Rabs in K. destruct (Rcase_abs _) in K; lra.
        -- rewrite RN_id; [lra|]. rewrite L. apply fmt_bpow. lia.
      * assert (K : bpow radix2 (q + 52) <= RN (t + d)) by (rewrite <- (RN_bpow (q + 52)) by lia; apply RN_le; lra).
        pose proof (fmt_between (q - 1) t ltac:(lia) Ft) as W. replace (q - 1 + 53)%Z with (q + 52)%Z in W by lia. specialize (W A). lra.
Qed.
End Step.

Lemma vsmall_pos : 0 <= B2R (VSMALL : b64).
Proof.
  unfold VSMALL. cbn [ndiv nofZ NumB64].
  assert (E1 : B2R (b64_make 1 0) = 1). { cbn. unfold F2R. cbn. lra. }
  assert (E2 : B2R (b64_make 10000000000 0) = 10000000000). { cbn. unfold F2R. cbn. lra. }
  pose proof (Bdiv_correct 53 1024 prec53 emax1024 mode_NE (b64_make 1 0) (b64_make 10000000000 0)) as H.
  rewrite E1, E2 in H. specialize (H ltac:(lra)). cbn [round_mode] in H.
  assert (L0 : 0 <= RN (1 / 10000000000)) by (rewrite <- RN_0; apply RN_le; lra).
  assert (L : RN (1 / 10000000000) <= 1).
  { change 1 with (bpow radix2 0) at 2. rewrite <- (RN_bpow 0) by lia. apply RN_le. change (bpow radix2 0) with 1. lra. }
  rewrite Rlt_bool_true in H.
  - destruct H as (-> & _). exact L0.
  - rewrite Rabs_pos_eq by exact L0. eapply Rle_lt_trans; [exact L|]. change 1 with (bpow radix2 0). apply bpow_lt. lia.
Qed.
(** the value of |t - te| as computed, for te at or after t *)
Lemma gap64 (t te : b64) : is_finite t = true -> is_finite te = true -> 0 <= B2R t <= B2R te ->
  is_equal t te = Rle_bool (RN (B2R te - B2R t)) (B2R (VSMALL : b64)).
Proof.
  intros Ft Fe [H0 H1]. unfold is_equal, nabs. cbn [nltb nleb nsub nofZ NumB64].
  pose proof (Bminus_correct 53 1024 prec53 emax1024 mode_NE t te Ft Fe) as H. cbn [round_mode] in H.
  assert (Rte : RN (B2R te) = B2R te) by (apply RN_id, fmt_B2R).
  assert (O : RN (B2R t - B2R te) = - RN (B2R te - B2R t)).
  { replace (B2R t - B2R te) with (- (B2R te - B2R t)) by ring. rewrite round_NE_opp. reflexivity. }
  assert (A1 : 0 <= RN (B2R te - B2R t)) by (rewrite <- RN_0; apply RN_le; lra).
  assert (A2 : RN (B2R te - B2R t) <= B2R te) by (rewrite <- Rte at 2; apply RN_le; lra).
  assert (A3 : Rabs (B2R te) < bpow radix2 1024) by apply abs_B2R_lt_emax. rewrite Rabs_pos_eq in A3 by lra.
  rewrite Rlt_bool_true in H by (rewrite O, Rabs_Ropp, Rabs_pos_eq; lra). destruct H as (E & F & _).
  set (y := Bminus mode_NE t te) in *. destruct zero64 as (F0 & Z0). destruct vsmall64 as (Fv & _).
  rewrite Bltb_correct by auto. rewrite Z0. destruct (Rlt_bool_spec (B2R y) 0) as [L|L].
  - pose proof (Bminus_correct 53 1024 prec53 emax1024 mode_NE (b64_make 0 0) y F0 F) as H'. cbn [round_mode] in H'.
    rewrite Z0 in H'. replace (0 - B2R y) with (- B2R y) in H' by ring.
    rewrite (RN_id (- B2R y)) in H' by (apply generic_format_opp, fmt_B2R).
    rewrite Rlt_bool_true in H' by (rewrite E, O, Ropp_involutive, Rabs_pos_eq; lra). destruct H' as (E' & F' & _).
    rewrite Bleb_correct by auto. rewrite E', E, O, Ropp_involutive. reflexivity.
  - rewrite Bleb_correct by auto. rewrite E, O in L. rewrite E, O.
    assert (Z : RN (B2R te - B2R t) = 0) by lra. rewrite Z, Ropp_0. reflexivity.
Qed.

Section Loop.
Context {S : Type} (body : b64 -> S -> outcome S) (dt te : b64) (q : Z).
Hypothesis Hb : total_body body.
Hypothesis Fd : is_finite dt = true.
Hypothesis Fe : is_finite te = true.
Hypothesis Hd : bpow radix2 (q - 1) < B2R dt <= bpow radix2 q.
Let T := bpow radix2 (q + 53).

Lemma q_low : (-1074 <= q)%Z.
Proof.
  assert (P : 0 < B2R dt) by (pose proof (bpow_gt_0 radix2 (q - 1)); lra).
  assert (St : is_finite_strict dt = true) by (clear - P Fd; destruct dt; cbn in *; try discriminate; auto; lra).
  pose proof (abs_B2R_ge_emin 53 1024 dt St) as M. rewrite Rabs_pos_eq in M by lra.
  change (SpecFloat.emin 53 1024) with (-1074)%Z in M. apply (le_bpow radix2). lra.
Qed.

(** time never passes T *)
Lemma stalls : T < B2R te -> B2R (VSMALL : b64) < RN (B2R te - T) -> forall fuel t c s, is_finite t = true -> 0 <= B2R t <= T ->
  time_loop fuel body dt te t c s = None.
Proof.
  intros H1 H2. pose proof q_low as Q. pose proof (bpow_gt_0 radix2 (q - 1)) as Pq.
  induction fuel as [|fuel IH]; intros t c s Ft Ht; [reflexivity|].
  destruct (Hb (Bplus mode_NE t dt) s) as (s' & Eb). rewrite (loop_step body dt te _ t c s s' Eb).
  assert (U : RN (B2R t + B2R dt) <= T) by (apply capped; auto; try apply fmt_B2R; apply Ht).
  assert (W : 0 <= RN (B2R t + B2R dt)) by (rewrite <- RN_0; apply RN_le; lra).
  pose proof (Bplus_correct 53 1024 prec53 emax1024 mode_NE t dt Ft Fd) as H. cbn [round_mode] in H.
  assert (A3 : Rabs (B2R te) < bpow radix2 1024) by apply abs_B2R_lt_emax. rewrite Rabs_pos_eq in A3 by lra.
  rewrite Rlt_bool_true in H by (rewrite Rabs_pos_eq; lra). destruct H as (Er & Ff & _).
  replace (stop_test (Bplus mode_NE t dt) te) with false.
  - apply IH; auto. rewrite Er. lra.
  - symmetry. unfold stop_test. apply orb_false_iff. split.
    + rewrite gap64 by (auto; rewrite Er; lra). apply Rle_bool_false. eapply Rlt_le_trans; [exact H2|]. apply RN_le. rewrite Er. lra.
    + cbn [nltb NumB64]. rewrite Bltb_correct by auto. apply Rlt_bool_false. rewrite Er. lra.
Qed.

(** one step before T: the loop stops, or time grows by half of dt and stays before T and te *)
Lemma one_step : B2R te <= T \/ RN (B2R te - T) <= B2R (VSMALL : b64) ->
  forall t, is_finite t = true -> 0 <= B2R t < T -> let t' := Bplus mode_NE t dt in
  stop_test t' te = true \/ (is_finite t' = true /\ B2R t + B2R dt / 2 <= B2R t' /\ B2R t' < T /\ B2R t' <= B2R te /\ stop_test t' te = false).
Proof.
  intros Hs t Ft Ht. cbv zeta. pose proof q_low as Q. pose proof (bpow_gt_0 radix2 (q - 1)) as Pq.
  destruct (plus_cases t dt Ft Fd (proj1 Ht) ltac:(lra)) as [Ei | (Ff & Er)]; set (t' := Bplus mode_NE t dt) in *.
  { left. rewrite Ei. unfold stop_test. cbn [nltb NumB64]. rewrite ltb_inf, orb_true_r by auto. auto. }
  pose proof (grow q (B2R dt) Q Hd (B2R t) (fmt_B2R t) Ht) as P.
  pose proof (capped q (B2R dt) Q Hd (B2R t) ltac:(fold T; lra)) as C. fold T in C. rewrite <- Er in P, C.
  destruct (stop_test t' te) eqn:St; [auto|right]. pose proof St as St0.
  unfold stop_test in St. apply orb_false_iff in St. destruct St as [Se St]. cbn [nltb NumB64] in St.
  rewrite Bltb_correct in St by auto. destruct (Rlt_bool_spec (B2R te) (B2R t')) as [|Hle]; [discriminate|].
  rewrite gap64 in Se by (auto; lra). repeat split; auto.
  destruct (Rle_lt_or_eq_dec _ _ C) as [L|L]; [exact L|exfalso]. destruct Hs as [Hs|Hs].
  - replace (B2R te) with (B2R t') in Se by lra. rewrite Rminus_diag_eq, RN_0, Rle_bool_true in Se by (auto; apply vsmall_pos). discriminate.
  - rewrite L in Se. rewrite Rle_bool_true in Se by auto. discriminate.
Qed.
Lemma arrives : B2R te <= T \/ RN (B2R te - T) <= B2R (VSMALL : b64) ->
  forall n t c s, is_finite t = true -> 0 <= B2R t < T -> Rmin (B2R te) T - B2R t < INR (Datatypes.S n) * (B2R dt / 2) ->
  exists r, time_loop (Datatypes.S n) body dt te t c s = Some (Ok r).
Proof.
  intros Hs. pose proof (bpow_gt_0 radix2 (q - 1)) as Pq. induction n as [|n IH]; intros t c s Ft Ht H2;
    destruct (Hb (Bplus mode_NE t dt) s) as (s' & Eb); rewrite (loop_step body dt te _ t c s s' Eb);
    destruct (one_step Hs t Ft Ht) as [E|(A & B & C & D & E)]; rewrite E; eauto.
  - exfalso. cbn [INR] in H2. unfold Rmin in H2. destruct (Rle_dec _ _) in H2; lra.
  - apply IH; auto; try lra. rewrite S_INR in H2. lra.
Qed.

Lemma time_exact s : B2R te <= T \/ RN (B2R te - T) <= B2R (VSMALL : b64) -> exists N r, INR N <= Rmax 0 (2 * B2R te / B2R dt) + 2 /\
  forall fuel, (N <= fuel)%nat -> time_loop fuel body dt te (nofZ 0) 0 s = Some (Ok r).
Proof.
  intros Hs. destruct zero64 as (F0 & Z0). pose proof (bpow_gt_0 radix2 (q - 1)) as Pq. assert (PT : 0 < T) by apply bpow_gt_0.
  set (n := Z.to_nat (up (2 * B2R te / B2R dt))).
  destruct (archimed (2 * B2R te / B2R dt)) as [A1 A2].
  assert (X : 2 * B2R te = 2 * B2R te / B2R dt * B2R dt) by (field; lra).
  set (k := 2 * B2R te / B2R dt) in *.
  assert (Bn : k <= INR n /\ INR n <= Rmax 0 k + 1).
  { unfold n. rewrite INR_IZR_INZ. destruct (Z.le_gt_cases 0 (up k)) as [L|L].
    - rewrite Z2Nat.id by exact L. pose proof (Rmax_r 0 k). lra.
    - replace (Z.of_nat (Z.to_nat (up k))) with 0%Z by lia. pose proof (Rmax_l 0 k). apply IZR_lt in L. lra. }
  destruct (arrives Hs n (b64_make 0 0) 0%Z s F0) as (r & Hr).
  - rewrite Z0. lra.
  - rewrite Z0, S_INR. assert (k * B2R dt <= INR n * B2R dt) by (apply Rmult_le_compat_r; lra). pose proof (Rmin_l (B2R te) T). lra.
  - exists (Datatypes.S n), r. split; [rewrite S_INR; lra|]. intros fuel L. eapply loop_mono; [exact L|exact Hr].
Qed.
Lemma time_stalls : T < B2R te -> B2R (VSMALL : b64) < RN (B2R te - T) -> forall fuel s, time_loop fuel body dt te (nofZ 0) 0 s = None.
Proof.
  intros A B fuel s. destruct zero64 as (F0 & Z0). cbn [nofZ NumB64]. apply stalls; auto. rewrite Z0. split; [lra|apply bpow_ge_0].
Qed.
End Loop.

Lemma size_of_step (dt : b64) : 0 < B2R dt -> exists! q, bpow radix2 (q - 1) < B2R dt <= bpow radix2 q.
Proof.
  intros P. set (e := (mag radix2 (B2R dt) : Z)).
  pose proof (bpow_mag_gt radix2 (B2R dt)) as G. fold e in G. rewrite Rabs_pos_eq in G by lra.
  pose proof (bpow_mag_le radix2 (B2R dt)) as L. fold e in L. rewrite Rabs_pos_eq in L by lra. specialize (L ltac:(lra)).
  assert (U : forall q q' x, bpow radix2 (q - 1) < x <= bpow radix2 q -> bpow radix2 (q' - 1) < x <= bpow radix2 q' -> q = q').
  { intros q q' x A B. assert (bpow radix2 (q - 1) < bpow radix2 q') by lra. assert (bpow radix2 (q' - 1) < bpow radix2 q) by lra.
    apply lt_bpow in H. apply lt_bpow in H0. lia. }
  clearbody e. destruct (Rle_lt_or_eq_dec _ _ L) as [K|K].
  - exists e. split; [lra|]. intros q' Hq. eapply U; [|exact Hq]. lra.
  - exists (e - 1)%Z. assert (bpow radix2 (e - 1 - 1) < bpow radix2 (e - 1)) by (apply bpow_lt; lia).
    split; [lra|]. intros q' Hq. eapply U; [|exact Hq]. lra.
Qed.

(** dt = 0.1 rounded to a double; limits 2^50 and beyond *)
Lemma tenth : let dt : b64 := b64_make 3602879701896397 (-55) in
  is_finite dt = true /\ bpow radix2 (-3 - 1) < B2R dt <= bpow radix2 (-3).
Proof.
  cbv zeta. split; [reflexivity|]. assert (E1 : B2R (b64_make 3602879701896397 (-55)) = 3602879701896397 / 36028797018963968). { cbn. unfold F2R. cbn. lra. }
  rewrite E1. change (bpow radix2 (-3 - 1)) with (/ 16). change (bpow radix2 (-3)) with (/ 8). lra.
Qed.
Lemma tenth_stops : let te : b64 := b64_make 1 50 in is_finite te = true /\ B2R te <= bpow radix2 (-3 + 53).
Proof.
  cbv zeta. split; [reflexivity|]. change (bpow radix2 (-3 + 53)) with 1125899906842624.
  assert (E : B2R (b64_make 1 50) = 1125899906842624) by (cbn; unfold F2R; cbn; lra). rewrite E. lra.
Qed.
Lemma tenth_stalls : let te : b64 := b64_make 1 51 in is_finite te = true /\ bpow radix2 (-3 + 53) < B2R te /\
  B2R (VSMALL : b64) < nearest (B2R te - bpow radix2 (-3 + 53)).
Proof.
  cbv zeta. split; [reflexivity|]. change (bpow radix2 (-3 + 53)) with 1125899906842624.
  assert (E : B2R (b64_make 1 51) = 2251799813685248) by (cbn; unfold F2R; cbn; lra). rewrite E. split; [lra|].
  replace (2251799813685248 - 1125899906842624) with (bpow radix2 50) by (change (bpow radix2 50) with 1125899906842624; lra).
  unfold nearest. rewrite RN_bpow by lia. destruct vsmall64 as [_ V]. eapply Rle_lt_trans; [exact V|]. apply bpow_lt. lia.
Qed.
