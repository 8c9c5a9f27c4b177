(** The energy of the 1-D loop never grows. *)
From Coq Require Import ZArith List Bool Lia Reals Lra.
From Coquelicot Require Import Coquelicot.
From Verif Require Import Base Num ModelVec ModelGrid ModelArray ModelInterp ModelTemporal ModelRun SpecGrid SpecInterp SpecTemporal SpecRun SpecStability
  ProofsInterpApi ProofsTemporalCases ProofsGridProps ProofsRun ProofsRunStep ProofsRunLine ProofsRunCases ProofsEnergy.
Import ListNotations.
Open Scope R_scope.

Lemma seg_derive p0 s0 p1 s1 h t : is_derive (seg p0 s0 p1 s1 h) t (seg' p0 s0 p1 s1 h t).
Proof. unfold seg, seg'. auto_derive; [exact I|]. ring. Qed.
Lemma seg'_derive p0 s0 p1 s1 h t : is_derive (seg' p0 s0 p1 s1 h) t (seg'' p0 s0 p1 s1 h t).
Proof. unfold seg', seg''. auto_derive; [exact I|]. ring. Qed.

Lemma energy_is_integral p0 s0 p1 s1 h : 0 < h ->
  seg p0 s0 p1 s1 h 0 = p0 /\ seg p0 s0 p1 s1 h h = p1 /\ seg' p0 s0 p1 s1 h 0 = s0 /\ seg' p0 s0 p1 s1 h h = s1 /\
  (forall t, derivable_pt_lim (seg p0 s0 p1 s1 h) t (seg' p0 s0 p1 s1 h t) /\ derivable_pt_lim (seg' p0 s0 p1 s1 h) t (seg'' p0 s0 p1 s1 h t)) /\
  is_RInt (fun t => (seg'' p0 s0 p1 s1 h t) ^ 2) 0 h (bend p0 s0 p1 s1 h).
Proof.
  intros H. split; [apply seg_0|]. split; [unfold seg, co2, co3; field; lra|]. split; [apply seg'_0|]. split; [unfold seg', co2, co3; field; lra|]. split.
  { intros t. split; apply is_derive_Reals; [apply seg_derive|apply seg'_derive]. }
  set (A := co2 p0 s0 p1 s1 h). set (B := co3 p0 s0 p1 s1 h).
  set (F := fun t : R => 4 * A ^ 2 * t + 12 * A * B * t ^ 2 + 12 * B ^ 2 * t ^ 3).
  replace (bend p0 s0 p1 s1 h) with (minus (F h) (F 0)).
  2:{ unfold minus, plus, opp. cbn. unfold F, A, B, bend, co2, co3. field. lra. }
  apply (is_RInt_derive F (fun t => (seg'' p0 s0 p1 s1 h t) ^ 2)).
  - intros t _. unfold F, seg''. fold A. fold B. auto_derive; [exact I|]. ring.
  - intros t _. apply (ex_derive_continuous (V := R_NormedModule)). unfold seg''. auto_derive. exact I.
Qed.

Lemma energy_pos P S h : 0 < h -> forall k a, 0 <= energy P S h a k.
Proof. intros H. induction k; intros a; cbn [energy]; [lra|]. pose proof (bend_pos (P a) (S a) (P (a + 1)%Z) (S (a + 1)%Z) h H). specialize (IHk (a + 1)%Z). lra. Qed.
Lemma energy_right P S h : 0 < h -> forall k m a, (k <= m)%nat -> energy P S h a k <= energy P S h a m.
Proof.
  intros H. induction k; intros m a Hm; [apply energy_pos; exact H|]. destruct m; [lia|]. cbn [energy]. specialize (IHk m (a + 1)%Z ltac:(lia)). lra.
Qed.
Lemma energy_sub P S h a k a' k' : 0 < h -> (a' <= a)%Z -> (a + Z.of_nat k <= a' + Z.of_nat k')%Z -> energy P S h a k <= energy P S h a' k'.
Proof.
  intros H. intros Ha Hk. remember (Z.to_nat (a - a')) as m eqn:Em. assert (a = a' + Z.of_nat m)%Z by lia. subst a. clear Em Ha.
  revert a' k' Hk. induction m; intros a' k' Hk.
  - rewrite Z.add_0_r in *. apply energy_right; [exact H|lia].
  - destruct k' as [|k']; [lia|]. cbn [energy].
    pose proof (bend_pos (P a') (S a') (P (a' + 1)%Z) (S (a' + 1)%Z) h H).
    specialize (IHm (a' + 1)%Z k' ltac:(lia)). replace (a' + 1 + Z.of_nat m)%Z with (a' + Z.of_nat (Datatypes.S m))%Z in IHm by lia. lra.
Qed.

(** Cauchy-Schwarz along the line *)
Lemma energy_slopes P S h : 0 < h -> forall k a, (S (a + Z.of_nat k)%Z - S a) ^ 2 <= INR k * h * energy P S h a k.
Proof.
  intros H. induction k; intros a.
  - cbn [energy]. rewrite Z.add_0_r. replace ((S a - S a) ^ 2) with 0 by ring. lra.
  - specialize (IHk (a + 1)%Z). replace (a + 1 + Z.of_nat k)%Z with (a + Z.of_nat (Datatypes.S k))%Z in IHk by lia.
    cbn [energy]. rewrite S_INR.
    pose proof (bend_slope (P a) (S a) (P (a + 1)%Z) (S (a + 1)%Z) h H) as B.
    set (x := S (a + Z.of_nat (Datatypes.S k))%Z - S (a + 1)%Z) in *. set (y := S (a + 1)%Z - S a) in *.
    replace (S (a + Z.of_nat (Datatypes.S k))%Z - S a) with (x + y) by (unfold x, y; ring).
    set (b := bend _ _ _ _ _) in *. set (E := energy _ _ _ _ _) in *. pose proof (pos_INR k) as Hk. set (K := INR k) in *.
    assert (HE : 0 <= E) by (apply energy_pos; exact H). assert (HB : 0 <= b) by (apply bend_pos; exact H).
    clearbody x y b E K. clear - H IHk B Hk HE HB.
    (* (x+y)^2 <= (K+1) h (b+E) *)
    destruct (Req_dec K 0) as [->|N].
    + assert (x ^ 2 <= 0) by lra. assert (x = 0). { pose proof (pow2_ge_0 x). assert (x ^ 2 = 0) by lra. destruct (Req_dec x 0); auto. exfalso. apply (pow_nonzero x 2) in H3; auto. }
      subst x. replace ((0 + y) ^ 2) with (y ^ 2) by ring. assert (0 <= h * E) by (apply Rmult_le_pos; lra). lra.
    + assert (KP : 0 < K) by lra.
      assert (T : 2 * x * y <= x ^ 2 / K + K * y ^ 2).
      { apply Rminus_le. replace (2 * x * y - (x ^ 2 / K + K * y ^ 2)) with (- (K * (x / K - y) ^ 2)) by (field; lra).
        pose proof (pow2_ge_0 (x / K - y)). assert (0 <= K * (x / K - y) ^ 2) by (apply Rmult_le_pos; lra). lra. }
      assert (T2 : x ^ 2 / K <= h * E). { apply (Rmult_le_reg_r K); [lra|]. unfold Rdiv. rewrite Rmult_assoc, Rinv_l by lra. lra. }
      assert (T3 : K * y ^ 2 <= K * (h * b)) by (apply Rmult_le_compat_l; lra).
      replace ((x + y) ^ 2) with (x ^ 2 + 2 * x * y + y ^ 2) by ring. lra.
Qed.

Section Stab.
Variables (ov : ovmode) (n : vec3 Z) (bmin bmax : vec3 R) (g : grid R).
Hypothesis Hb : built ov 1 n 1 bmin bmax g.
Hypothesis Hbox : proper_box 1 bmin bmax.
Hypothesis Hdef : interp_defined ov 1.
Let h := spacing (vx bmin) (vx bmax) (vx n).

Lemma steps_energy : forall sched ds l P S, levelset_on g l -> line ov (vx n) g l P S ->
  Forall2 (moves_by ov n g) sched ds -> Forall (within_a_cell 1 n bmin bmax) ds ->
  exists l' P' S', sl_steps ov g sched l = Ok l' /\ levelset_on g l' /\ line ov (vx n) g l' P' S' /\
    forall a k, let N := length sched in (-1 <= a - Z.of_nat N)%Z -> (a + Z.of_nat k + Z.of_nat N <= vx n)%Z ->
      energy P' S' h a k <= energy P S h (a - Z.of_nat N) (k + 2 * N).
Proof.
  pose proof (h0 ov n bmin bmax g Hb Hbox) as Hh. fold h in Hh.
  induction sched as [|s sched IH]; intros ds l P S Hl HL H2 HF; inversion H2; subst.
  - exists l, P, S. split; [reflexivity|]. split; [exact Hl|]. split; [exact HL|]. intros a k. cbv zeta. intros _ _.
    cbn [length Z.of_nat Nat.mul]. rewrite Z.sub_0_r, Nat.add_0_r. lra.
  - rename l' into ds. pose proof (Forall_inv HF) as Hw. pose proof (Forall_inv_tail HF) as HF'.
    destruct (line_step ov n bmin bmax g Hb Hbox Hdef l P S s y Hl HL H1 Hw) as (l1 & P1 & S1 & o & u & E1 & Hl1 & HL1 & Ho & Hu & _ & _ & A).
    fold h in Hu, A.
    destruct (IH ds l1 P1 S1 Hl1 HL1 H4 HF') as (l' & P' & S' & E' & Hl' & HL' & K). exists l', P', S'.
    split; [unfold sl_steps; cbn [forM]; rewrite E1; cbn [bind]; exact E'|]. split; [exact Hl'|]. split; [exact HL'|].
    intros a k. cbv zeta. cbn [length]. intros Ha Hk. specialize (K a k ltac:(lia) ltac:(lia)). eapply Rle_trans; [exact K|].
    set (N := length sched) in *.
    destruct (step_energy P S P1 S1 (fun _ => 0) (fun _ => 0) h 0 o u Hh Hu (k + 2 * N) (a - Z.of_nat N)%Z) as (lft & L0 & _ & L2).
    { intros i Hi. split.
      - destruct (A i ltac:(lia)) as (A1 & A2). split; rewrite Rplus_0_r; [exact A1|exact A2].
      - unfold small_pert. destruct (Req_EM_T u 0) as [|N0]; [repeat split; lra|]. unfold bend. right. field. lra. }
    rewrite Rmult_0_r, Rplus_0_r in L2.
    assert (energy P S h (a - Z.of_nat N + o) (Datatypes.S (k + 2 * N)) <= energy P S h (a - Z.of_nat (Datatypes.S N)) (k + 2 * Datatypes.S N)).
    { apply energy_sub; [exact Hh|lia|lia]. }
    lra.
Qed.

Lemma steps_slopes sched ds l P S : levelset_on g l -> line ov (vx n) g l P S ->
  Forall2 (moves_by ov n g) sched ds -> Forall (within_a_cell 1 n bmin bmax) ds ->
  exists l' P' S', sl_steps ov g sched l = Ok l' /\ line ov (vx n) g l' P' S' /\
    (forall a k, let N := length sched in (-1 <= a - Z.of_nat N)%Z -> (a + Z.of_nat k + Z.of_nat N <= vx n)%Z ->
      energy P' S' h a k <= energy P S h (a - Z.of_nat N) (k + 2 * N) /\
      (S' (a + Z.of_nat k)%Z - S' a) ^ 2 <= INR k * h * energy P S h (a - Z.of_nat N) (k + 2 * N)).
Proof.
  intros Hl HL H2 HF. pose proof (h0 ov n bmin bmax g Hb Hbox) as Hh. fold h in Hh.
  destruct (steps_energy sched ds l P S Hl HL H2 HF) as (l' & P' & S' & E & _ & HL' & K). exists l', P', S'. split; [exact E|]. split; [exact HL'|].
  intros a k N Ha Hk. specialize (K a k Ha Hk). fold N in K. split; [exact K|].
  eapply Rle_trans; [apply (energy_slopes P' S' h Hh k a)|]. apply Rmult_le_compat_l; [|exact K]. apply Rmult_le_pos; [apply pos_INR|lra].
Qed.
End Stab.

(** any data on a line of 5 cells, three steps back and forth *)
Lemma c119_case (P S : Z -> R) : exists g l lv,
  built Wrap 1 (V3 5 1 1)%Z 1 lo1 hi1 g /\ proper_box 1 lo1 hi1 /\ interp_defined Wrap 1 /\ levelset_on g l /\
  line Wrap 5 g l P S /\
  let sched := [(1 / 7, lv); (- 1 / 9, lv)] in let ds := [V3 (1 / 7 * 2) (1 / 7 * 0) (1 / 7 * 0); V3 (- 1 / 9 * 2) (- 1 / 9 * 0) (- 1 / 9 * 0)] in
  Forall2 (moves_by Wrap (V3 5 1 1)%Z g) sched ds /\ Forall (within_a_cell 1 (V3 5 1 1)%Z lo1 hi1) ds /\
  (-1 <= 1 - Z.of_nat (length sched))%Z /\ (1 + Z.of_nat 2 + Z.of_nat (length sched) <= 5)%Z.
Proof.
  destruct (built_1d (T := R) Wrap lo1 hi1) as (g & Hb).
  destruct (current_exists _ _ _ _ _ _ g (fun b => CV (P (ccoord b AX)) (S (ccoord b AX)) 0 0 0 0 0 0) Hb) as (l & Hl & HS).
  destruct (uniform_exists _ _ _ _ _ _ g (V3 2 0 0) Hb) as (lv & HV).
  exists g, l, lv. split; [exact Hb|]. split; [apply unit_box|]. split; [left; reflexivity|]. split; [exact Hl|]. split.
  { intros i Hi. assert (Hp : padded_cell 1 (V3 5 1 1)%Z 1 (i, 0, 0)%Z) by (intros [| |]; cbn; lia).
    destruct (HS i 0%Z 0%Z Hp) as (A & B & _). rewrite keep_phi in A. rewrite keep_psi in B. split; [exact A|]. eexists. split; [exact B|]. reflexivity. }
  cbv zeta. split; [constructor; [apply (HV (1 / 7))|constructor; [apply (HV (- 1 / 9))|constructor]]|]. split; [|cbn; lia].
  apply Forall_cons; [|apply Forall_cons; [|apply Forall_nil]]; intros [| |] U; try discriminate; unfold spacing; cbn; lra.
Qed.
