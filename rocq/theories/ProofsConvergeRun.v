(** Error of the 1-D loop for a smooth field. *)
From Coq Require Import ZArith List Bool Lia Reals Lra.
From Coquelicot Require Import Coquelicot.
From Verif Require Import Base Num ModelVec ModelGrid ModelArray ModelInterp ModelTemporal ModelRun SpecGrid SpecInterp SpecTemporal SpecRun SpecGradient SpecStability
  ProofsGridProps ProofsInterpProps ProofsInterpApi ProofsRun ProofsRunStep ProofsRunLine ProofsRunCases ProofsEnergy ProofsStability ProofsSegErr ProofsConverge.
Import ListNotations.
Open Scope R_scope.

Section Conv.
Variables (ov : ovmode) (n : vec3 Z) (bmin bmax : vec3 R) (g : grid R).
Hypothesis Hb : built ov 1 n 1 bmin bmax g.
Hypothesis Hbox : proper_box 1 bmin bmax.
Hypothesis Hdef : interp_defined ov 1.
Let h := spacing (vx bmin) (vx bmax) (vx n).
Variables (f f1 f2 f3 f4 : R -> R) (M : R).
Hypothesis HD : derivs (vx bmin - h / 2) (vx bmax + h / 2) f [f1; f2; f3; f4].
Hypothesis HM : forall t, vx bmin - h / 2 <= t <= vx bmax + h / 2 -> Rabs (f4 t) <= M.
Let x0 := vx bmin + h / 2.

Lemma nx_pos : (1 <= vx n)%Z.
Proof. destruct Hb as ((_ & _ & G & _) & _). pose proof (G AX) as GX. cbn in GX. lia. Qed.
Lemma hpos : 0 < h. Proof. apply (h0 ov n bmin bmax g Hb Hbox). Qed.
Lemma nh : IZR (vx n) * h = vx bmax - vx bmin.
Proof. unfold h, spacing. pose proof nx_pos. assert (1 <= IZR (vx n)) by (apply IZR_le; exact H). field. lra. Qed.
Lemma ends : x0 + IZR (-1) * h = vx bmin - h / 2 /\ x0 + IZR (vx n) * h = vx bmax + h / 2.
Proof. pose proof nh. unfold x0. split; lra. Qed.
Lemma at_node i p : (-1 <= i <= vx n)%Z -> node ov g i 0 0 = Ok p -> vx p = x0 + IZR i * h.
Proof.
  intros Hi Np. rewrite (node_centre ov 1 n bmin bmax g Hb i 0 0 p (line_cell n i Hi) Np). unfold centre_pos. cbn [vx used ccoord]. unfold centre, x0. cbn [vget]. fold h. lra.
Qed.

Lemma samples_at_line l P S : line ov (vx n) g l P S -> samples_line ov (vx n) g l f f1 ->
  forall i, (-1 <= i <= vx n)%Z -> P i = f (x0 + IZR i * h) /\ S i = f1 (x0 + IZR i * h).
Proof.
  intros HL HS i Hi. destruct (HL i Hi) as (A & y & B & C). destruct (HS i Hi) as (p & y' & Np & A' & B' & C').
  rewrite A in A'. rewrite B in B'. pose proof (Ok_inj _ _ A') as EA. pose proof (Ok_inj _ _ B') as EB. rewrite <- (at_node i p Hi Np).
  split; [exact EA|]. rewrite <- C, EB. exact C'.
Qed.

Lemma steps_close N : forall sched ds l P S m D, (m + length sched <= N)%nat -> levelset_on g l -> line ov (vx n) g l P S ->
  Forall2 (moves_by ov n g) sched ds -> Forall (within_a_cell 1 n bmin bmax) ds ->
  close f f1 x0 h M (vx n) N m D P S ->
  exists l' P' S', sl_steps ov g sched l = Ok l' /\ line ov (vx n) g l' P' S' /\
    close f f1 x0 h M (vx n) N (m + length sched) (vx (vtotal ds) + D) P' S'.
Proof.
  pose proof hpos as Hh. pose proof nx_pos as Hn. destruct ends as (E1 & E2).
  induction sched as [|s sched IH]; intros ds l P S m D Hm Hl HL H2 HF HC; inversion H2; subst.
  - exists l, P, S. split; [reflexivity|]. split; [exact HL|]. cbn [length]. rewrite Nat.add_0_r. cbn. rewrite Rplus_0_l. exact HC.
  - rename l' into ds. pose proof (Forall_inv HF) as Hw. pose proof (Forall_inv_tail HF) as HF'. cbn [length] in Hm.
    destruct (line_step ov n bmin bmax g Hb Hbox Hdef l P S s y Hl HL H1 Hw) as (l1 & P1 & S1 & o & u & X1 & Hl1 & HL1 & Ho & Hu & Eo & _ & A).
    fold h in Hu, Eo, A.
    assert (HC1 : close f f1 x0 h M (vx n) N (Datatypes.S m) (vx y + D) P1 S1).
    { apply (close_step f f1 f2 f3 f4 x0 h M (vx n) N Hh) with (P := P) (S := S) (o := o) (u := u).
      - rewrite E1, E2. exact HD.
      - rewrite E1, E2. exact HM.
      - exact Hn.
      - lia.
      - exact HC.
      - exact Ho.
      - exact Hu.
      - exact Eo.
      - exact A. }
    destruct (IH ds l1 P1 S1 (Datatypes.S m) (vx y + D) ltac:(lia) Hl1 HL1 H4 HF' HC1) as (l' & P' & S' & X' & HL' & C').
    exists l', P', S'. split; [unfold sl_steps; cbn [forM]; rewrite X1; cbn [bind]; exact X'|]. split; [exact HL'|].
    cbn [length]. replace (m + Datatypes.S (length sched))%nat with (Datatypes.S m + length sched)%nat by lia.
    replace (vx (vtotal (y :: ds)) + D) with (vx (vtotal ds) + (vx y + D)); [exact C'|]. change (vtotal (y :: ds)) with (vplus y (vtotal ds)). unfold vplus. cbn [vx]. lra.
Qed.

Lemma M_pos : 0 <= M.
Proof.
  eapply Rle_trans; [apply Rabs_pos|]. apply (HM (vx bmin)). pose proof hpos. pose proof nh. pose proof nx_pos. assert (1 <= IZR (vx n)) by (apply IZR_le; exact H1).
  assert (0 <= IZR (vx n) * h) by (apply Rmult_le_pos; lra). lra.
Qed.

(** the error after any number of steps *)
Lemma steps_error sched ds l : levelset_on g l -> samples_line ov (vx n) g l f f1 ->
  Forall2 (moves_by ov n g) sched ds -> Forall (within_a_cell 1 n bmin bmax) ds ->
  exists l', sl_steps ov g sched l = Ok l' /\
    let N := length sched in let q := sqrt (INR N * IZR (vx n + 1) / 18) in
    near_line ov g l' f f1 (vx (vtotal ds)) (Z.of_nat N - 1) (vx n - Z.of_nat N)
      (INR N * (h ^ 4 * M * (/ 384 + q / 8))) (INR N * (h ^ 3 * M * (/ 24 + q))).
Proof.
  intros Hl HS H2 HF. destruct (line_exists ov n bmin bmax g Hb l Hl) as (P & S & HL).
  assert (C0 : close f f1 x0 h M (vx n) (length sched) 0 0 P S).
  { apply (close_0 f f1 x0 h M (vx n) (length sched) hpos nx_pos). apply (samples_at_line l P S HL HS). }
  destruct (steps_close (length sched) sched ds l P S 0 0 ltac:(lia) Hl HL H2 HF C0) as (l' & P' & S' & X & HL' & [_ _ CV CS]).
  exists l'. split; [exact X|]. cbv zeta. cbn [Nat.add] in CV, CS. intros i Hi.
  assert (Hi' : (-1 <= i <= vx n)%Z) by lia. destruct (HL' i Hi') as (A & y & B & C).
  destruct (node_position _ _ _ _ _ _ _ _ _ _ Hb (line_cell n i Hi')) as (p & Np & _). exists p, (P' i), y.
  split; [exact Np|]. split; [exact A|]. split; [exact B|]. rewrite (at_node i p Hi' Np). rewrite C.
  specialize (CV i Hi). specialize (CS i Hi). rewrite Rplus_0_r in CV, CS. split; [exact CV|exact CS].
Qed.

(** it never exceeds these bounds *)
Lemma steps_converge sched ds l : levelset_on g l -> samples_line ov (vx n) g l f f1 ->
  Forall2 (moves_by ov n g) sched ds -> Forall (within_a_cell 1 n bmin bmax) ds ->
  exists l', sl_steps ov g sched l = Ok l' /\
    let N := length sched in let L := vx bmax - vx bmin in
    near_line ov g l' f f1 (vx (vtotal ds)) (Z.of_nat N - 1) (vx n - Z.of_nat N) (M * L ^ 2 * h ^ 2 / 22) (3 / 8 * M * L ^ 2 * h).
Proof.
  intros Hl HS H2 HF. destruct (steps_error sched ds l Hl HS H2 HF) as (l' & X & K). exists l'. split; [exact X|].
  cbv zeta in *. intros i Hi. destruct (K i Hi) as (p & v & y & Np & A & B & KV & KS). exists p, v, y.
  split; [exact Np|]. split; [exact A|]. split; [exact B|].
  pose proof nx_pos as Hn. pose proof hpos as Hh. pose proof nh as NH. pose proof M_pos as M0. set (N := length sched) in *. rewrite <- NH.
  assert (H2N : (2 * Z.of_nat N <= vx n + 1)%Z) by lia.
  assert (RN : 2 * INR N <= IZR (vx n) + 1). { rewrite INR_IZR_INZ. change 2 with (IZR 2). change 1 with (IZR 1). rewrite <- mult_IZR, <- plus_IZR. apply IZR_le. exact H2N. }
  assert (R1 : 1 <= IZR (vx n)) by (apply IZR_le; exact Hn). pose proof (pos_INR N) as R0.
  assert (Q : sqrt (INR N * IZR (vx n + 1) / 18) <= (IZR (vx n) + 1) / 6).
  { rewrite <- (sqrt_Rsqr ((IZR (vx n) + 1) / 6)) by lra. apply sqrt_le_1_alt. rewrite plus_IZR. unfold Rsqr.
    assert (INR N * (IZR (vx n) + 1) <= (IZR (vx n) + 1) / 2 * (IZR (vx n) + 1)) by (apply Rmult_le_compat_r; lra). lra. }
  set (q := sqrt _) in *. assert (0 <= q) by apply sqrt_pos. clearbody q.
  set (w := IZR (vx n)) in *. clearbody w. clearbody h. set (k := INR N) in *. clearbody k.
  assert (Kn : k <= w) by lra.
  assert (h4 : 0 <= h ^ 4 * M) by (apply Rmult_le_pos; [apply pow_le; lra|exact M0]).
  assert (h3 : 0 <= h ^ 3 * M) by (apply Rmult_le_pos; [apply pow_le; lra|exact M0]).
  split.
  - eapply Rle_trans; [exact KV|]. replace (M * (w * h) ^ 2 * h ^ 2 / 22) with (w * (h ^ 4 * M * (w / 22))) by field.
    apply Rmult_le_compat; [lra|apply Rmult_le_pos; [exact h4|lra]|exact Kn|]. apply Rmult_le_compat_l; [exact h4|]. lra.
  - eapply Rle_trans; [exact KS|]. replace (3 / 8 * M * (w * h) ^ 2 * h) with (w * (h ^ 3 * M * (w * (3 / 8)))) by field.
    apply Rmult_le_compat; [lra|apply Rmult_le_pos; [exact h3|lra]|exact Kn|]. apply Rmult_le_compat_l; [exact h3|]. lra.
Qed.
End Conv.

(** sin on a line of 5 cells, three steps *)
Lemma c120_case : exists g l lv,
  built Wrap 1 (V3 5 1 1)%Z 1 lo1 hi1 g /\ proper_box 1 lo1 hi1 /\ interp_defined Wrap 1 /\ levelset_on g l /\
  (let h := spacing (vx lo1) (vx hi1) 5 in
   derivs (vx lo1 - h / 2) (vx hi1 + h / 2) sin [cos; fun t => - sin t; fun t => - cos t; sin] /\
   forall t, vx lo1 - h / 2 <= t <= vx hi1 + h / 2 -> Rabs (sin t) <= 1) /\
  samples_line Wrap 5 g l sin cos /\
  let sched := [(1 / 7, lv); (- 1 / 9, lv); (1 / 5, lv)] in
  let ds := [V3 (1 / 7 * 2) (1 / 7 * 0) (1 / 7 * 0); V3 (- 1 / 9 * 2) (- 1 / 9 * 0) (- 1 / 9 * 0); V3 (1 / 5 * 2) (1 / 5 * 0) (1 / 5 * 0)] in
  Forall2 (moves_by Wrap (V3 5 1 1)%Z g) sched ds /\ Forall (within_a_cell 1 (V3 5 1 1)%Z lo1 hi1) ds /\
  (Z.of_nat (length sched) - 1 <= 2 <= 5 - Z.of_nat (length sched))%Z.
Proof.
  destruct (built_1d (T := R) Wrap lo1 hi1) as (g & Hb).
  destruct (current_exists _ _ _ _ _ _ g (fun b => let x := vx (centre_pos 1 (V3 5 1 1)%Z lo1 hi1 b) in CV (sin x) (cos x) 0 0 0 0 0 0) Hb) as (l & Hl & HS).
  destruct (uniform_exists _ _ _ _ _ _ g (V3 2 0 0) Hb) as (lv & HV).
  exists g, l, lv. split; [exact Hb|]. split; [apply unit_box|]. split; [left; reflexivity|]. split; [exact Hl|]. split.
  { cbv zeta. split.
    - cbn [derivs]. repeat split; intros t _.
      + apply derivable_pt_lim_sin.
      + apply derivable_pt_lim_cos.
      + apply derivable_pt_lim_opp. apply derivable_pt_lim_sin.
      + replace (sin t) with (- - sin t) by ring. apply derivable_pt_lim_opp. apply derivable_pt_lim_cos.
    - intros t _. apply Rabs_le. apply SIN_bound. }
  split.
  { intros i Hi. assert (Hp : padded_cell 1 (V3 5 1 1)%Z 1 (i, 0, 0)%Z) by (intros [| |]; cbn; lia).
    destruct (HS i 0%Z 0%Z Hp) as (A & B & _). rewrite keep_phi in A. rewrite keep_psi in B.
    destruct (node_position _ _ _ _ _ _ _ _ _ _ Hb Hp) as (p & Np & _). exists p.
    rewrite (node_centre Wrap 1 (V3 5 1 1)%Z lo1 hi1 g Hb i 0 0 p Hp Np).
    eexists. split; [rewrite <- (node_centre Wrap 1 (V3 5 1 1)%Z lo1 hi1 g Hb i 0 0 p Hp Np); exact Np|]. split; [exact A|]. split; [exact B|]. reflexivity. }
  cbv zeta. split; [constructor; [apply (HV (1 / 7))|constructor; [apply (HV (- 1 / 9))|constructor; [apply (HV (1 / 5))|constructor]]]|]. split; [|cbn; lia].
  apply Forall_cons; [|apply Forall_cons; [|apply Forall_cons; [|apply Forall_nil]]]; intros [| |] U; try discriminate; unfold spacing; cbn; lra.
Qed.
