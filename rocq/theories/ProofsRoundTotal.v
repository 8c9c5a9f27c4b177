(** Total error of the 1-D loop in double arithmetic. *)
From Coq Require Import ZArith List Bool Lia Reals Lra.
From Flocq Require Import Core BinarySingleNaN.
From Verif Require Import Base Num NumB64 ModelVec ModelGrid ModelArray ModelInterp ModelTemporal ModelRun
  SpecGrid SpecInterp SpecTemporal SpecRun SpecGradient SpecStability SpecB64 SpecRound SpecRoundRun
  ProofsBase ProofsGrid ProofsArray ProofsGridProps ProofsHermiteCell ProofsInterp ProofsInterpProps ProofsInterpApi ProofsTemporal ProofsRun ProofsRunStep ProofsRunLine ProofsRunCases
  ProofsB64 ProofsB64Ops ProofsB64Grid ProofsB64Interp ProofsB64Cases ProofsRound ProofsRoundInterp ProofsRoundStep ProofsRoundRest ProofsRoundCases ProofsConverge ProofsConvergeRun ProofsDrift ProofsRoundRun.
Import ListNotations.
Open Scope R_scope.

Lemma total_x ds : vx (vtotal (map (fun d => V3 d 0 0) ds)) = fold_right Rplus 0 ds.
Proof. induction ds as [|d ds IH]; [reflexivity|]. cbn [map fold_right]. change (vtotal (V3 d 0 0 :: map (fun d => V3 d 0 0) ds)) with (vplus (V3 d 0 0) (vtotal (map (fun d => V3 d 0 0) ds))). unfold vplus. cbn [vx]. rewrite IH. reflexivity. Qed.
Lemma Forall2_firstn {A B} (Q : A -> B -> Prop) k : forall l l', Forall2 Q l l' -> Forall2 Q (firstn k l) (firstn k l').
Proof. induction k as [|k IH]; intros l l' H; [constructor|]. destruct H; cbn; constructor; auto. Qed.
Lemma Forall_firstn {A} (Q : A -> Prop) k : forall l, Forall Q l -> Forall Q (firstn k l).
Proof. induction k as [|k IH]; intros l H; [constructor|]. destruct H; cbn; constructor; auto. Qed.
Lemma sum_bound b ds : Forall (fun d => Rabs d <= b) ds -> Rabs (fold_right Rplus 0 ds) <= INR (length ds) * b.
Proof.
  induction 1 as [|d ds Hd _ IH]; cbn [fold_right]; [rewrite Rabs_R0; cbn; lra|]. eapply Rle_trans; [apply Rabs_triang|]. cbn [length]. rewrite S_INR. lra.
Qed.
Lemma Forall2_length {A B} (Q : A -> B -> Prop) l l' : Forall2 Q l l' -> length l = length l'.
Proof. induction 1; cbn; congruence. Qed.

Section Total.
Variables (ov : ovmode) (n : vec3 Z) (bmin bmax : vec3 b64) (g : grid b64) (M rho : R).
Hypothesis Hb : built ov 1 n 1 bmin bmax g.
Hypothesis Hdef : interp_defined ov 1.
Hypothesis Hf : fine_box 1 rho n bmin bmax.
Hypothesis HM : moderate M.
Let h := spacing64 (vx bmin) (vx bmax) (vx n).
Let e := round_bound 1 rho * M.
Let lo := real (vx bmin) - h / 2.
Let hi := real (vx bmax) + h / 2.
Let L := real (vx bmax) - real (vx bmin).
Let X (i : Z) : R := real (vx bmin) + (IZR i + / 2) * h.
Variables (f f1 f2 f3 f4 : R -> R) (M4 F : R).
Hypothesis HD : derivs lo hi f [f1; f2; f3; f4].
Hypothesis H4 : forall t, lo <= t <= hi -> Rabs (f4 t) <= M4.
Hypothesis HF : forall t, lo <= t <= hi -> Rabs (f t) <= F /\ Rabs (f1 t) * h <= F.
Hypothesis HFM : F + 3 / 8 * M4 * L ^ 2 * h ^ 2 <= M / 2.

(** the exact loop from the exact samples: its sizes and its errors *)
Lemma smooth_exact sched ds : Forall2 (moves64 ov n bmin bmax g) sched ds ->
  let N := length sched in
  exists gR lR schedR, built ov 1 n 1 (reals bmin) (reals bmax) gR /\ levelset_on gR lR /\
    line ov (vx n) gR lR (fun i => f (X i)) (fun i => f1 (X i)) /\
    Forall2 (moves_by ov n gR) schedR (map (fun d => V3 d 0 0) ds) /\
    (forall k lk Pk Sk, (k < N)%nat -> sl_steps ov gR (firstn k schedR) lR = Ok lk -> line ov (vx n) gR lk Pk Sk ->
       forall i, (Z.of_nat k - 1 <= i <= vx n - Z.of_nat k)%Z -> Rabs (Pk i) <= M / 2 /\ Rabs (Sk i) * h <= M / 2) /\
    (forall lk P' S' i, sl_steps ov gR schedR lR = Ok lk -> line ov (vx n) gR lk P' S' -> (Z.of_nat N - 1 <= i <= vx n - Z.of_nat N)%Z ->
       let D := fold_right Rplus 0 ds in
       Rabs (P' i - f (X i - D)) <= M4 * L ^ 2 * h ^ 2 / 22 /\ Rabs (S' i - f1 (X i - D)) <= 3 / 8 * M4 * L ^ 2 * h).
Proof.
  intros H2 N. destruct Hb as (Hg & Ha & _). destruct (built_exists ov 1 n 1 (reals bmin) (reals bmax) Hg Ha) as (gR & HbR).
  pose proof (proper_reals 1 n bmin bmax rho Hf) as Hbox. pose proof (h64 n bmin bmax rho Hf) as Hh. fold h in Hh.
  pose proof (nx_pos ov n (reals bmin) (reals bmax) gR HbR) as Hn. pose proof (nh ov n (reals bmin) (reals bmax) gR HbR) as NH. cbv zeta in NH. rewrite hR in NH. fold h in NH.
  change (vx (reals bmax) - vx (reals bmin)) with L in NH.
  destruct (current_exists ov 1 n 1 (reals bmin) (reals bmax) gR (fun c => CV (f (X (ccoord c AX))) (f1 (X (ccoord c AX))) 0 0 0 0 0 0) HbR) as (lR & HlR & HSR).
  assert (LR : line ov (vx n) gR lR (fun i => f (X i)) (fun i => f1 (X i))).
  { intros i Hi. destruct (HSR i 0%Z 0%Z (line_cell n i Hi)) as (A & B & _). rewrite keep_phi in A. rewrite keep_psi in B. split; [exact A|]. eexists. split; [exact B|]. reflexivity. }
  assert (PX : forall i p, (-1 <= i <= vx n)%Z -> node ov gR i 0 0 = Ok p -> vx p = X i).
  { intros i p Hi Np. rewrite (at_node ov n (reals bmin) (reals bmax) gR HbR i p Hi Np). rewrite hR. unfold X, h, reals. cbn [vx]. field. }
  assert (SL : samples_line ov (vx n) gR lR f f1).
  { intros i Hi. destruct (LR i Hi) as (A & y & B & C). destruct (node_position _ _ _ _ _ _ _ _ _ _ HbR (line_cell n i Hi)) as (p & Np & _).
    exists p, y. rewrite (PX i p Hi Np). auto. }
  assert (SC : exists schedR, Forall2 (moves_by ov n gR) schedR (map (fun d => V3 d 0 0) ds)).
  { clear - H2 HbR Hf. induction H2 as [|s d sched ds Hs _ IH]; [exists []; constructor|]. destruct IH as (sR & IH).
    destruct (exact_velocity ov n bmin bmax g gR HbR s d Hs) as (lvR & _ & _ & MB). exists ((real (fst s), lvR) :: sR). cbn [map]. constructor; auto. }
  destruct SC as (schedR & H2R).
  assert (WI : Forall (within_a_cell 1 n (reals bmin) (reals bmax)) (map (fun d => V3 d 0 0) ds)).
  { clear - H2 Hf. induction H2 as [|s d sched ds Hs _ IH]; cbn [map]; constructor; auto. apply (moves_within ov n bmin bmax g rho Hf s d Hs). }
  assert (DB : Forall (fun d => Rabs d <= h) ds).
  { clear - H2 Hh. induction H2 as [|s d sched ds Hs _ IH]; constructor; auto. destruct Hs as (_ & _ & Hd & _). fold h in Hd. lra. }
  (* the exact loop after k steps *)
  assert (CONV : forall k, exists lk, sl_steps ov gR (firstn k schedR) lR = Ok lk /\
     let K := length (firstn k ds) in near_line ov gR lk f f1 (fold_right Rplus 0 (firstn k ds)) (Z.of_nat K - 1) (vx n - Z.of_nat K) (M4 * L ^ 2 * h ^ 2 / 22) (3 / 8 * M4 * L ^ 2 * h)).
  { intros k.
    destruct (steps_converge ov n (reals bmin) (reals bmax) gR HbR Hbox Hdef f f1 f2 f3 f4 M4 HD H4 (firstn k schedR) (firstn k (map (fun d => V3 d 0 0) ds)) lR HlR SL) as (lk & E & NL).
    - apply Forall2_firstn. exact H2R.
    - apply Forall_firstn. exact WI.
    - exists lk. split; [exact E|]. cbv zeta in *. rewrite firstn_map, total_x in NL.
      assert (LN : length (firstn k schedR) = length (firstn k ds)). { apply Forall2_length in H2R. rewrite map_length in H2R. rewrite !firstn_length, H2R. reflexivity. }
      rewrite LN in NL. exact NL. }
  assert (LN : length ds = N) by (unfold N; symmetry; eapply Forall2_length; exact H2).
  assert (LNR : length schedR = N) by (apply Forall2_length in H2R; rewrite map_length in H2R; congruence).
  assert (M40 : 0 <= M4).
  { eapply Rle_trans; [apply Rabs_pos|]. apply (H4 lo). split; [lra|]. unfold lo, hi. assert (real (vx bmin) < real (vx bmax)) by (apply (Hbox AX eq_refl)). lra. }
  assert (ML : 0 <= M4 * L ^ 2 * h ^ 2) by (apply Rmult_le_pos; [apply Rmult_le_pos; [exact M40|apply pow2_ge_0]|apply pow2_ge_0]).
  exists gR, lR, schedR. split; [exact HbR|]. split; [exact HlR|]. split; [exact LR|]. split; [exact H2R|]. split.
  - intros k lk Pk Sk Hk Ek HLk i Hi. destruct (CONV k) as (lk' & Ek' & NL). rewrite Ek in Ek'. apply Ok_inj in Ek'. subst lk'. cbv zeta in NL.
    assert (KL : length (firstn k ds) = k) by (rewrite firstn_length, LN; lia). rewrite KL in NL.
    destruct (NL i Hi) as (p & v & y & Np & A & B & C1 & C2). assert (Hi' : (-1 <= i <= vx n)%Z) by lia. rewrite (PX i p Hi' Np) in C1, C2.
    destruct (HLk i Hi') as (A' & y' & B' & C'). rewrite A in A'. rewrite B in B'. apply Ok_inj in A', B'. rewrite A' in C1. rewrite <- B', C' in C2 || (rewrite B', C' in C2).
    assert (DK : Rabs (fold_right Rplus 0 (firstn k ds)) <= INR k * h).
    { rewrite <- KL at 2. apply sum_bound. apply Forall_firstn. exact DB. }
    set (Dk := fold_right Rplus 0 (firstn k ds)) in *. clearbody Dk. apply abs_le in DK. rewrite INR_IZR_INZ in DK.
    assert (IN : lo <= X i - Dk <= hi).
    { assert (L1 : IZR (Z.of_nat k) - 1 <= IZR i) by (rewrite <- minus_IZR; apply IZR_le; lia).
      assert (L2 : IZR i <= IZR (vx n) - IZR (Z.of_nat k)) by (rewrite <- !minus_IZR; apply IZR_le; lia).
      unfold lo, hi, X. unfold L in NH. set (z := IZR i) in *. set (w := IZR (Z.of_nat k)) in *. set (m := IZR (vx n)) in *. clearbody z w m.
      assert (0 <= (z - (w - 1)) * h) by (apply Rmult_le_pos; lra). assert (0 <= (m - w - z) * h) by (apply Rmult_le_pos; lra). lra. }
    destruct (HF _ IN) as (F1 & F2). fold h. set (ff := f (X i - Dk)) in *. set (ff1 := f1 (X i - Dk)) in *. clearbody ff ff1. split.
    + replace (Pk i) with ((Pk i - ff) + ff) by ring. eapply Rle_trans; [apply Rabs_triang|]. lra.
    + replace (Sk i) with ((Sk i - ff1) + ff1) by ring. apply Rle_trans with ((Rabs (Sk i - ff1) + Rabs ff1) * h); [apply Rmult_le_compat_r; [lra|apply Rabs_triang]|].
      assert (Rabs (Sk i - ff1) * h <= 3 / 8 * M4 * L ^ 2 * h * h) by (apply Rmult_le_compat_r; lra). lra.
  - intros lk P' S' i ER HL' Hi D.
    destruct (CONV N) as (lk' & Ek & NL). rewrite firstn_all2 in Ek by lia. rewrite ER in Ek. apply Ok_inj in Ek. subst lk'. cbv zeta in NL.
    rewrite firstn_all2 in NL by lia. rewrite LN in NL. fold D in NL. destruct (NL i Hi) as (pp & v & yy & Np & A1 & B1 & C3 & C4). assert (Hi' : (-1 <= i <= vx n)%Z) by lia. rewrite (PX i pp Hi' Np) in C3, C4.
    destruct (HL' i Hi') as (A' & y' & B' & C'). rewrite A1 in A'. rewrite B1 in B'. apply Ok_inj in A', B'. subst v yy. rewrite C' in C4. auto.
Qed.

Lemma run_total sched ds l : levelset_on g l -> Forall2 (moves64 ov n bmin bmax g) sched ds ->
  near_line64 ov g l (fun i => f (X i)) (fun i => f1 (X i)) (-1) (vx n) e (8 * (e / h)) ->
  let N := length sched in let q := (INR N + 1) ^ 2 * sqrt (IZR (vx n + 1)) in let D := fold_right Rplus 0 ds in
  47 * q * round_bound 1 rho <= / 2 ->
  exists l', sl_steps ov g sched l = Ok l' /\
    near_line64 ov g l' (fun i => f (X i - D)) (fun i => f1 (X i - D)) (Z.of_nat N - 1) (vx n - Z.of_nat N)
      (M4 * L ^ 2 * h ^ 2 / 22 + 6 * q * e) (3 / 8 * M4 * L ^ 2 * h + 47 * q * (e / h)).
Proof.
  intros Hl H2 H0 N q D HQ. destruct (smooth_exact sched ds H2) as (gR & lR & schedR & HbR & HlR & LR & H2R & HZ & HE).
  destruct (run_rounding ov n bmin bmax g gR M rho Hb HbR Hdef Hf HM sched schedR ds l lR (fun i => f (X i)) (fun i => f1 (X i)) Hl HlR LR H2 H2R H0 HZ HQ) as (l' & lR' & P' & S' & E & ER & HL' & NR).
  exists l'. split; [exact E|]. fold N in NR. fold q in NR. fold e h in NR. intros i Hi. destruct (NR i Hi) as (p & y & A & B & F1 & F2 & C1 & C2). exists p, y. split; [exact A|]. split; [exact B|].
  split; [exact F1|]. split; [exact F2|]. destruct (HE lR' P' S' i ER HL' Hi) as (C3 & C4). fold D in C3, C4. split.
  - replace (real p - f (X i - D)) with ((real p - P' i) + (P' i - f (X i - D))) by ring. eapply Rle_trans; [apply Rabs_triang|]. lra.
  - replace (real (vx y) - f1 (X i - D)) with ((real (vx y) - S' i) + (S' i - f1 (X i - D))) by ring. eapply Rle_trans; [apply Rabs_triang|]. lra.
Qed.
End Total.

(** ** x^4 on (-5,5) in 5 cells, three steps: the samples are integers *)
Definition quart (t : R) : R := t ^ 4.
Definition quart1 (t : R) : R := 4 * t ^ 3.
Definition sched3 (g : grid b64) : list (b64 * ls_velocity b64) := [(b64_make 1 (-1), wind g); (b64_make (-1) (-2), wind g); (b64_make 1 0, wind g)].

Lemma quart_case : exists (g : grid b64) (l : levelset b64),
  built Wrap 1 five 1 (ivl (-5)) (ivl 5) g /\ interp_defined Wrap 1 /\ fine_box 1 (5 / 2) five (ivl (-5)) (ivl 5) /\ moderate 16384 /\
  let h := spacing64 (vx (ivl (-5))) (vx (ivl 5)) 5 in let lo := real (vx (ivl (-5))) - h / 2 in let hi := real (vx (ivl 5)) + h / 2 in
  let L := real (vx (ivl 5)) - real (vx (ivl (-5))) in let X i := real (vx (ivl (-5))) + (IZR i + / 2) * h in let e := round_bound 1 (5 / 2) * 16384 in
  derivs lo hi quart [quart1; fun t => 12 * t ^ 2; fun t => 24 * t; fun _ => 24] /\
  (forall t, lo <= t <= hi -> Rabs 24 <= 24) /\ (forall t, lo <= t <= hi -> Rabs (quart t) <= 1728 /\ Rabs (quart1 t) * h <= 1728) /\
  1728 + 3 / 8 * 24 * L ^ 2 * h ^ 2 <= 16384 / 2 /\
  levelset_on g l /\ Forall2 (moves64 Wrap five (ivl (-5)) (ivl 5) g) (sched3 g) [/ 2; - / 4; 1] /\
  near_line64 Wrap g l (fun i => quart (X i)) (fun i => quart1 (X i)) (-1) 5 e (8 * (e / h)) /\
  47 * ((INR (length (sched3 g)) + 1) ^ 2 * sqrt (IZR (5 + 1))) * round_bound 1 (5 / 2) <= / 2.
Proof.
  pose proof (grid5_built (-5) 5) as Hb. set (g := grid5 (-5) 5) in *.
  destruct (real_int 5) as (F5 & E5); [lia|]. destruct (real_int (-5)) as (Fm & Em); [lia|]. destruct (real_int 1) as (F1 & E1); [lia|]. destruct (real_int 0) as (F0 & E0); [lia|].
  assert (EH : spacing64 (vx (ivl (-5))) (vx (ivl 5)) 5 = 2) by (unfold spacing64, spacing, ivl; cbn [vx]; rewrite E5, Em; field).
  assert (Rb : round_bound 1 (5 / 2) = / 17179869184 * (5 / 2)).
  { unfold round_bound. change (4 * Z.of_nat 1 - 38)%Z with (-34)%Z. change (bpow radix2 (-34)) with (/ 17179869184). reflexivity. }
  pose proof (bf_ok _ _ _ _ _ _ _ (built_ok _ _ _ _ _ _ _ Hb)) as Hg.
  destruct (array_of Wrap g (fun c : cell => b64_make ((2 * ccoord c AX - 4) ^ 4) 0) Hg) as (ap & Sp & Vp & _).
  destruct (array_of Wrap g (fun c : cell => ivl (4 * (2 * ccoord c AX - 4) ^ 3)) Hg) as (as_ & Ss & Vs & _).
  destruct (fresh_levelset Wrap 1 five 1 _ _ g Hb) as [L1 L2 L3 L4 L5 L6 L7 L8 L9].
  exists g, (with_psi (with_phi (levelset_ctor g) ap) as_). split; [exact Hb|]. split; [left; reflexivity|]. split; [|split].
  { split; [change (bpow radix2 30) with 1073741824; lra|]. intros [| |] Hu; try discriminate. cbn [vget five vx].
    split; [exact Fm|]. split; [exact F5|]. split; [unfold ivl; cbn [vx]; rewrite E5, Em; lra|]. rewrite EH. split; [apply mod_half; lra|].
    unfold reach, ivl. cbn [vx]. rewrite E5, Em. unfold Rmax. destruct Rle_dec; unfold Rabs; destruct Rcase_abs; lra. }
  { split.
    - apply Rle_trans with (bpow radix2 0); [apply bpow_le; lia|]. change (bpow radix2 0) with 1. lra.
    - apply Rle_trans with (bpow radix2 14); [change (bpow radix2 14) with 16384; lra|apply bpow_le; lia]. }
  cbv zeta. rewrite EH. change (real (vx (ivl (-5)))) with (real (b64_make (-5) 0)). change (real (vx (ivl 5))) with (real (b64_make 5 0)). rewrite E5, Em.
  split.
  { cbn [derivs]. unfold quart, quart1. repeat split; intros t _.
    - replace (4 * t ^ 3) with (INR 4 * t ^ Nat.pred 4) by (cbn; ring). apply derivable_pt_lim_pow.
    - replace (12 * t ^ 2) with (4 * (INR 3 * t ^ Nat.pred 3)) by (cbn; ring). apply (derivable_pt_lim_scal (fun t => t ^ 3)). apply derivable_pt_lim_pow.
    - replace (24 * t) with (12 * (INR 2 * t ^ Nat.pred 2)) by (cbn; ring). apply (derivable_pt_lim_scal (fun t => t ^ 2)). apply derivable_pt_lim_pow.
    - pose proof (derivable_pt_lim_scal id 24 t 1 (derivable_pt_lim_id t)) as K. rewrite Rmult_1_r in K. exact K. }
  split; [intros t _; rewrite Rabs_pos_eq; lra|]. split.
  { intros t Ht. unfold quart, quart1. assert (HT : Rabs t <= 6) by (apply Rabs_le; lra). rewrite Rabs_mult, <- !RPow_abs. rewrite (Rabs_pos_eq 4) by lra.
    set (r := Rabs t) in *. assert (0 <= r) by apply Rabs_pos. assert (r ^ 4 <= 6 ^ 4) by (apply pow_incr; lra). assert (r ^ 3 <= 6 ^ 3) by (apply pow_incr; lra). lra. }
  split; [lra|]. split.
  { constructor; cbn; auto; eapply array_on_shaped; eauto. }
  split.
  { pose proof (fun A d => fresh_array (A := A) Wrap 1 five 1 _ _ g d Hb) as K.
    assert (W : forall dt d, is_finite dt = true -> real dt = d -> Rabs d <= 3 / 2 -> moves64 Wrap five (ivl (-5)) (ivl 5) g (dt, wind g) d).
    { intros dt d Fd Ed Bd. split; [split; apply K|]. split; [exact Fd|]. cbn [five vx fst snd]. rewrite EH. split; [lra|]. intros i j k Hc.
      assert (Hp : padded_cell 1 five 1 (i, j, k)) by (eapply interior_padded; [apply good_1d|exact Hc]).
      exists (ivl 1), mzero. split; [apply K; exact Hp|]. split; [apply K; exact Hp|]. split.
      - intros a b. replace (mget (mzero : mat3 b64) a b) with (b64_make 0 0) by (destruct a, b; reflexivity). split; [exact F0|exact E0].
      - split; [exact F1|]. change (real (vx (ivl 1))) with (real (b64_make 1 0)). rewrite E1, Ed. ring. }
    unfold sched3. constructor; [|constructor; [|constructor; [|constructor]]]; apply W; try reflexivity.
    - vm_compute. lra.
    - rewrite Rabs_pos_eq; lra.
    - vm_compute. lra.
    - rewrite Rabs_Ropp, Rabs_pos_eq; lra.
    - exact E1.
    - rewrite Rabs_pos_eq; lra. }
  split.
  { intros i Hi. assert (GC : gcell g (i, 0, 0)%Z) by (apply (built_gcell _ _ _ _ _ _ _ _ Hb); apply (line_cell five); exact Hi).
    exists (b64_make ((2 * i - 4) ^ 4) 0), (ivl (4 * (2 * i - 4) ^ 3)). cbn [with_psi with_phi ls_phi ls_psi]. rewrite !(aget_peek_c Wrap) by auto.
    rewrite (Vp _ GC), (Vs _ GC). cbn [ccoord].
    assert (HZ : (Z.abs (2 * i - 4) <= 6)%Z) by lia. set (z := (2 * i - 4)%Z) in *.
    assert (EX : -5 + (IZR i + / 2) * 2 = IZR z) by (unfold z; rewrite minus_IZR, mult_IZR; field). rewrite EX. clearbody z.
    assert (Z4 : (0 <= z ^ 4 <= 1296)%Z). { replace (z ^ 4)%Z with (z * z * (z * z))%Z by ring. assert (0 <= z * z <= 36)%Z by nia. nia. }
    assert (Z3 : (Z.abs (4 * z ^ 3) <= 864)%Z). { replace (z ^ 3)%Z with (z * z * z)%Z by ring. assert (0 <= z * z <= 36)%Z by nia. nia. }
    destruct (real_int (z ^ 4)) as (G1 & G2); [lia|]. destruct (real_int (4 * z ^ 3)) as (G3 & G4); [lia|].
    split; [reflexivity|]. split; [reflexivity|]. split; [exact G1|]. split; [exact G3|]. change (real (vx (ivl (4 * z ^ 3)))) with (real (b64_make (4 * z ^ 3) 0)).
    rewrite G2, G4. unfold quart, quart1.
    replace (IZR (z ^ 4)) with (IZR z ^ 4) by (rewrite pow_IZR; reflexivity). replace (IZR (4 * z ^ 3)) with (4 * IZR z ^ 3) by (rewrite mult_IZR, pow_IZR; reflexivity).
    rewrite !Rminus_eq_0, Rabs_R0, Rb. lra. }
  cbn [sched3 length]. rewrite Rb. assert (S6 : sqrt (IZR (5 + 1)) <= 3). { rewrite <- (sqrt_Rsqr 3) by lra. apply sqrt_le_1_alt. unfold Rsqr. cbn. lra. }
  pose proof (sqrt_pos (IZR (5 + 1))). set (s := sqrt _) in *. clearbody s. cbn [INR]. lra.
Qed.
