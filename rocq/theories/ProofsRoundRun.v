(** The 1-D loop in double arithmetic against the loop in exact arithmetic. *)
From Coq Require Import ZArith List Bool Lia Reals Lra.
From Flocq Require Import Core BinarySingleNaN.
From Verif Require Import Base Num NumB64 ModelVec ModelGrid ModelArray ModelInterp ModelTemporal ModelRun
  SpecGrid SpecInterp SpecTemporal SpecRun SpecStability SpecB64 SpecRound SpecRoundRun
  ProofsBase ProofsGrid ProofsArray ProofsGridProps ProofsHermiteCell ProofsInterp ProofsInterpProps ProofsInterpApi ProofsTemporal ProofsRun ProofsRunStep ProofsRunLine ProofsRunCases
  ProofsB64 ProofsB64Ops ProofsB64Grid ProofsB64Interp ProofsB64Cases ProofsRound ProofsRoundInterp ProofsRoundStep ProofsRoundRest ProofsConverge ProofsDrift.
Import ListNotations.
Open Scope R_scope.

Lemma foot_unique h d o u o' u' : 0 < h -> (o = -1 \/ o = 0)%Z -> 0 <= u < h -> - d = IZR o * h + u ->
  (o' = -1 \/ o' = 0)%Z -> 0 <= u' < h -> - d = IZR o' * h + u' -> o' = o /\ u' = u.
Proof.
  intros Hh [-> | ->] Hu E [-> | ->] Hu' E'; (split; [reflexivity|lra]) || (exfalso; lra).
Qed.

Section Run64.
Variables (ov : ovmode) (n : vec3 Z) (bmin bmax : vec3 b64) (g : grid b64) (gR : grid R) (M rho : R).
Hypothesis Hb : built ov 1 n 1 bmin bmax g.
Hypothesis HbR : built ov 1 n 1 (reals bmin) (reals bmax) gR.
Hypothesis Hdef : interp_defined ov 1.
Hypothesis Hf : fine_box 1 rho n bmin bmax.
Hypothesis HM : moderate M.
Let h := spacing64 (vx bmin) (vx bmax) (vx n).
Let e := round_bound 1 rho * M.

(** what the line of cells holds *)
Definition phi64 (l : levelset b64) (i : Z) : b64 := match aget ov g (ls_phi l) i 0 0 with Ok p => p | _ => nofZ 0 end.
Definition psi64 (l : levelset b64) (i : Z) : b64 := match aget ov g (ls_psi l) i 0 0 with Ok y => vx y | _ => nofZ 0 end.
Lemma line64 l i : levelset_on g l -> (-1 <= i <= vx n)%Z ->
  aget ov g (ls_phi l) i 0 0 = Ok (phi64 l i) /\ exists y, aget ov g (ls_psi l) i 0 0 = Ok y /\ vx y = psi64 l i.
Proof.
  intros Hl Hi. pose proof (built_ok _ _ _ _ _ _ _ Hb) as F. pose proof (bf_ok _ _ _ _ _ _ _ F) as Hg.
  assert (HG : gcell g (i, 0, 0)%Z) by (apply (built_gcell _ _ _ _ _ _ _ _ Hb); apply line_cell; exact Hi).
  pose proof (fun A a => proj1 (array_on_shaped (A := A) _ _ _ _ _ _ _ a Hb)) as K. unfold phi64, psi64.
  rewrite !(aget_peek_c ov) by auto.
  destruct (peek_ok ov g _ _ Hg (K _ _ (on_phi _ _ Hl)) HG) as (p & ->).
  destruct (peek_ok ov g _ _ Hg (K _ _ (on_psi _ _ Hl)) HG) as (s & ->). split; [reflexivity|]. exists s. auto.
Qed.
Lemma no_mix l i j k : levelset_on g l -> padded_cell 1 n 1 (i, j, k) -> aget ov g (ls_mix_prev l) i j k = Ok [].
Proof.
  intros Hl Hp. pose proof (built_ok _ _ _ _ _ _ _ Hb) as F. pose proof (bf_ok _ _ _ _ _ _ _ F) as Hg.
  assert (HG : gcell g (i, j, k)) by (apply (built_gcell _ _ _ _ _ _ _ _ Hb); exact Hp).
  pose proof (fun A a => proj1 (array_on_shaped (A := A) _ _ _ _ _ _ _ a Hb)) as K.
  rewrite !(aget_peek_c ov) by auto.
  destruct (peek_ok ov g _ _ Hg (K _ _ (on_mix_prev _ _ Hl)) HG) as (m & Em). rewrite Em.
  pose proof (on_mix_len _ _ Hl) as HLn. rewrite Forall_forall in HLn.
  assert (In m (a_data (ls_mix_prev l))) as Hin.
  { unfold peek in Em. eapply vread_In. exact Em. }
  apply HLn in Hin. rewrite (bf_dim _ _ _ _ _ _ _ F) in Hin. cbn in Hin. destruct m; [reflexivity|discriminate].
Qed.

Lemma h64 : 0 < h.
Proof. destruct (proj2 Hf AX eq_refl) as (_ & _ & _ & [D1 _] & _). pose proof (bpow_gt_0 radix2 (-200)). cbn [vget] in D1. fold h in D1. lra. Qed.
Lemma hR : spacing (vx (reals bmin)) (vx (reals bmax)) (vx n) = h. Proof. reflexivity. Qed.

(** the step in exact arithmetic *)
Lemma exact_velocity s d : moves64 ov n bmin bmax g s d -> exists lvR, velocity_on gR lvR /\
  same_velocity ov 1 n bmin bmax (fst s) g (snd s) gR lvR /\ moves_by ov n gR (real (fst s), lvR) (V3 d 0 0).
Proof.
  intros (Hv & Fdt & Hd & HV). pose proof (bf_ok _ _ _ _ _ _ _ (built_ok _ _ _ _ _ _ _ HbR)) as HgR.
  destruct (array_of ov gR (fun c => match c with (i, j, k) => match aget ov g (lv_vel (snd s)) i j k with Ok v => V3 (real (vx v)) 0 0 | _ => V3 0 0 0 end end) HgR) as (av & Av & Vv & _).
  destruct (array_of ov gR (fun c => match c with (i, j, k) => match aget ov g (lv_grad (snd s)) i j k with Ok m => mreals m | _ => mzero end end) HgR) as (am & Am & Vm & _).
  exists (mkLV av am).
  assert (GC : forall i j k, interior_cell n (i, j, k) -> gcell gR (i, j, k)).
  { intros i j k Hc. apply (built_gcell _ _ _ _ _ _ _ _ HbR). eapply interior_padded; [apply HbR|exact Hc]. }
  assert (VO : velocity_on gR (mkLV av am)).
  { split; cbn; eapply array_on_shaped; eauto. }
  assert (R1 : forall i j k v, interior_cell n (i, j, k) -> aget ov g (lv_vel (snd s)) i j k = Ok v -> aget ov gR av i j k = Ok (V3 (real (vx v)) 0 0)).
  { intros i j k v Hc Ev. rewrite (aget_peek_c ov) by auto. rewrite (Vv _ (GC _ _ _ Hc)), Ev. reflexivity. }
  assert (R2 : forall i j k m, interior_cell n (i, j, k) -> aget ov g (lv_grad (snd s)) i j k = Ok m -> aget ov gR am i j k = Ok (mreals m)).
  { intros i j k v Hc Ev. rewrite (aget_peek_c ov) by auto. rewrite (Vm _ (GC _ _ _ Hc)), Ev. reflexivity. }
  split; [exact VO|]. split.
  - intros i j k Hc. destruct (HV i j k Hc) as (v & m & Ev & Em & Zm & Fv & Ed). split.
    + exists v, (V3 (real (vx v)) 0 0). split; [exact Ev|]. split; [apply R1; auto|]. split.
      * intros a Hu. destruct a; try discriminate. cbn [vget]. split; [exact Fv|]. split; [exact Fdt|]. rewrite Ed. exact Hd.
      * intros a Hu. destruct a; try discriminate. reflexivity.
    + exists m. split; [exact Em|]. split; [apply R2; auto|]. intros a b. destruct (Zm a b) as (F & Z). split; [exact F|]. rewrite Z, Rmult_0_l, Rabs_R0. lra.
  - split; [exact VO|]. intros i j k Hc. destruct (HV i j k Hc) as (v & m & Ev & Em & Zm & Fv & Ed). exists (V3 (real (vx v)) 0 0), (mreals m). cbn [fst snd lv_vel lv_grad].
    split; [apply R1; auto|]. split; [apply R2; auto|]. split.
    + intros r a. destruct (Zm r a) as (_ & Z). rewrite <- Z. destruct r, a; reflexivity.
    + intros [| |]; cbn [vget vx vy vz]; [rewrite <- Ed; ring|ring|ring].
Qed.

Lemma moves_within s d : moves64 ov n bmin bmax g s d -> within_a_cell 1 n (reals bmin) (reals bmax) (V3 d 0 0).
Proof.
  intros (_ & _ & Hd & _) a Hu. destruct a; try discriminate. cbn [vget vx]. rewrite hR. pose proof h64. fold h in Hd. apply abs_le in Hd. lra.
Qed.

Lemma step64_line l s d a b : levelset_on g l -> moves64 ov n bmin bmax g s d -> (-1 <= a)%Z -> (b <= vx n)%Z ->
  (forall i, (a <= i <= b)%Z -> is_finite (phi64 l i) = true /\ is_finite (psi64 l i) = true /\ Rabs (real (phi64 l i)) <= M /\ Rabs (real (psi64 l i)) * h <= M) ->
  exists l' o u, sl_step ov g l s = Ok l' /\ levelset_on g l' /\ (o = -1 \/ o = 0)%Z /\ 0 <= u < h /\ - d = IZR o * h + u /\
    let P i := real (phi64 l i) in let S i := real (psi64 l i) in
    forall i, (a + 1 <= i <= b - 1)%Z -> is_finite (phi64 l' i) = true /\ is_finite (psi64 l' i) = true /\
      Rabs (real (phi64 l' i) - seg (P (i + o)%Z) (S (i + o)%Z) (P (i + o + 1)%Z) (S (i + o + 1)%Z) h u) <= e /\
      Rabs (real (psi64 l' i) - seg' (P (i + o)%Z) (S (i + o)%Z) (P (i + o + 1)%Z) (S (i + o + 1)%Z) h u) <= 8 * (e / h).
Proof.
  intros Hl Hs Ha Hbn HD. destruct (exact_velocity s d Hs) as (lvR & HvR & SV & MB). pose proof (moves_within s d Hs) as WI. pose proof h64 as Hh.
  destruct (current_exists ov 1 n 1 (reals bmin) (reals bmax) gR (fun c => CV (real (phi64 l (ccoord c AX))) (real (psi64 l (ccoord c AX))) 0 0 0 0 0 0) HbR) as (lD & HlD & HSD).
  set (S := fun c : cell => CV (real (phi64 l (ccoord c AX))) (real (psi64 l (ccoord c AX))) 0 0 0 0 0 0) in *.
  pose proof (proper_reals 1 n bmin bmax rho Hf) as Hbox.
  (* the exact step on the same data *)
  assert (LD : line ov (vx n) gR lD (fun i => real (phi64 l i)) (fun i => real (psi64 l i))).
  { intros i Hi. destruct (HSD i 0%Z 0%Z (line_cell n i Hi)) as (A & B & _). rewrite keep_phi in A. rewrite keep_psi in B. split; [exact A|]. eexists. split; [exact B|]. reflexivity. }
  destruct (line_step ov n (reals bmin) (reals bmax) gR HbR Hbox Hdef lD _ _ _ _ HlD LD MB WI) as (lD' & PD & SD & o & u & ED & HlD' & LD' & Ho & Hu & Eo & _ & AD).
  rewrite hR in Hu, Eo, AD. cbn [vx] in Eo.
  set (good := fun c : cell => (a <= ccoord c AX <= b)%Z).
  assert (CELL : forall c, padded_cell 1 n 1 c -> exists i, c = (i, 0, 0)%Z /\ (-1 <= i <= vx n)%Z).
  { intros [[i j] k] Hp. pose proof (Hp AX) as HX. pose proof (Hp AY) as HY. pose proof (Hp AZ) as HZ. cbn in HX, HY, HZ. exists i. subst j k. split; [reflexivity|lia]. }
  assert (HS : forall i j k, padded_cell 1 n 1 (i, j, k) -> good (i, j, k) -> stores64_at ov 1 g (keep_prev l) S i j k).
  { intros i j k Hp Hgd. destruct (CELL _ Hp) as (i' & E & Hi). injection E as <- -> ->. unfold stores64_at. destruct (line64 l i Hl Hi) as (A & y & B & C).
    destruct (HD i Hgd) as (F1 & F2 & _). split; [|split].
    - eexists. split; [rewrite keep_phi; exact A|]. split; [exact F1|reflexivity].
    - exists y. split; [rewrite keep_psi; exact B|]. rewrite C. split; [split; [exact F2|reflexivity]|]. split; discriminate.
    - exists []. split; [rewrite keep_mix; apply no_mix; auto|]. constructor. }
  assert (HZ : forall c, padded_cell 1 n 1 c -> good c -> sized_at 1 (hs n (reals bmin) (reals bmax)) M (S c)).
  { intros c Hp Hgd. destruct (CELL _ Hp) as (i & -> & Hi). destruct (HD i Hgd) as (_ & _ & B1 & B2). unfold sized_at, S. cbn [cv cv_x ccoord].
    change (vx (hs n (reals bmin) (reals bmax))) with h. split; [exact B1|]. split; [exact B2|]. split; discriminate. }
  assert (Hhm : moderate h) by (apply (proj2 Hf AX eq_refl)).
  destruct (step_bound_at ov 1 n bmin bmax g (keep_prev l) gR (keep_prev lD) S M rho good Hb HbR (keep_on _ _ Hl) (keep_on _ _ HlD) Hdef Hf HS HSD HM HZ
     (snd s) lvR (fst s) h (proj1 Hs) HvR SV Hhm) as (l' & lR' & El & ElR & OI & BB).
  { intros [| |] U; try discriminate. right. reflexivity. }
  assert (Hl' : levelset_on g l') by (eapply only_on; [apply keep_on; exact Hl|exact OI]).
  assert (lR' = lD'). { unfold sl_step in ED. cbn [fst snd] in ED. rewrite ElR in ED. apply Ok_inj in ED. exact ED. } subst lR'.
  exists l', o, u. split; [exact El|]. split; [exact Hl'|]. split; [exact Ho|]. split; [exact Hu|]. split; [exact Eo|]. cbv zeta. intros i Hi.
  assert (Hi' : (0 <= i < vx n)%Z) by lia.
  destruct (BB i 0%Z 0%Z (line_interior ov n (reals bmin) (reals bmax) gR HbR i Hi')) as ((p & pR & P1 & P2 & P3 & P4) & (y & yR & Q1 & Q2 & Q3)).
  { intros c Hp HA. destruct (CELL _ Hp) as (i2 & -> & Hi2). specialize (HA AX eq_refl). unfold good. cbn [ccoord] in *. lia. }
  destruct (line64 l' i Hl' ltac:(lia)) as (A & z & B & C). destruct (LD' i ltac:(lia)) as (A' & z' & B' & C').
  rewrite A in P1. rewrite B in Q1. rewrite A' in P2. rewrite B' in Q2. apply Ok_inj in P1, P2, Q1, Q2. subst y yR p pR.
  destruct (Q3 AX eq_refl) as (Q4 & Q5). cbn [vget] in Q4, Q5. rewrite C in Q4, Q5. rewrite C' in Q5.
  destruct (AD i Hi') as (AD1 & AD2). rewrite AD1 in P4. rewrite AD2 in Q5. split; [exact P3|]. split; [exact Q4|]. split; [exact P4|].
  replace (8 * (e / h)) with (8 * round_bound 1 rho * (M / h)) by (unfold e; field; lra). exact Q5.
Qed.

(** the two loops side by side *)
Section Loop.
Variable N : nat.
Let nn := vx n.
Hypothesis HV : (INR N + 1) * vdrift e nn N <= M / 2.
Hypothesis HSl : (INR N + 1) * sdrift h e nn N * h <= M / 2.

Lemma n1 : (1 <= nn)%Z.
Proof. destruct Hb as ((_ & _ & G & _) & _). pose proof (G AX) as GX. unfold nn. cbn in GX. lia. Qed.
Lemma e_pos : 0 <= e.
Proof.
  unfold e. pose proof (rho_pos ov 1 n bmin bmax g rho Hb Hf). destruct HM as [M1 _]. pose proof (bpow_gt_0 radix2 (-200)).
  apply Rmult_le_pos; [|lra]. unfold round_bound. apply Rmult_le_pos; [apply bpow_ge_0|exact H].
Qed.

(** both states after m steps *)
Definition both (m : nat) (l : levelset b64) (P S : Z -> R) : Prop :=
  drift h e nn N m (fun i => real (phi64 l i) - P i) (fun i => real (psi64 l i) - S i) /\
  forall i, (Z.of_nat m - 1 <= i <= nn - Z.of_nat m)%Z -> is_finite (phi64 l i) = true /\ is_finite (psi64 l i) = true.

Lemma loop64 : forall sched schedR ds l lR P S m, (m + length sched <= N)%nat -> levelset_on g l -> levelset_on gR lR -> line ov nn gR lR P S ->
  Forall2 (moves64 ov n bmin bmax g) sched ds -> Forall2 (moves_by ov n gR) schedR (map (fun d => V3 d 0 0) ds) ->
  (forall k lk Pk Sk, (k < length sched)%nat -> sl_steps ov gR (firstn k schedR) lR = Ok lk -> line ov nn gR lk Pk Sk ->
     forall i, (Z.of_nat (m + k) - 1 <= i <= nn - Z.of_nat (m + k))%Z -> Rabs (Pk i) <= M / 2 /\ Rabs (Sk i) * h <= M / 2) ->
  both m l P S ->
  exists l' lR' P' S', sl_steps ov g sched l = Ok l' /\ sl_steps ov gR schedR lR = Ok lR' /\ levelset_on g l' /\ line ov nn gR lR' P' S' /\
    both (m + length sched) l' P' S'.
Proof.
  pose proof h64 as Hh. pose proof n1 as Hn. pose proof e_pos as He. pose proof (proper_reals 1 n bmin bmax rho Hf) as Hbox.
  induction sched as [|s sched IH]; intros schedR ds l lR P S m Hm Hl HlR HL H2 H2R HZ HB; inversion H2; subst; cbn [map] in H2R; inversion H2R; subst.
  - exists l, lR, P, S. split; [reflexivity|]. split; [reflexivity|]. split; [exact Hl|]. split; [exact HL|]. cbn [length]. rewrite Nat.add_0_r. exact HB.
  - rename l' into ds, l0 into schedR, x into sR, y into d. cbn [length] in Hm, HZ.
    match goal with H : moves64 _ _ _ _ _ s d |- _ => rename H into Hs end.
    match goal with H : moves_by _ _ _ sR _ |- _ => rename H into HsR end.
    match goal with H : Forall2 (moves64 _ _ _ _ _) sched ds |- _ => rename H into T2 end.
    match goal with H : Forall2 (moves_by _ _ _) schedR _ |- _ => rename H into T2R end.
    destruct HB as ([DE DV DS] & FN).
    destruct (line_step ov n (reals bmin) (reals bmax) gR HbR Hbox Hdef lR P S sR (V3 d 0 0) HlR HL HsR (moves_within s d Hs)) as (lR1 & P1 & S1 & o & u & ER & HlR1 & HL1 & Ho & Hu & Eo & _ & A).
    rewrite hR in Hu, Eo, A. cbn [vx] in Eo. fold nn in A.
    assert (Mm : INR (Datatypes.S m) <= INR N + 1) by (rewrite <- S_INR; apply le_INR; lia).
    pose proof (pos_INR (Datatypes.S m)) as Pm.
    assert (Zm : forall i, (Z.of_nat m - 1 <= i <= nn - Z.of_nat m)%Z -> Rabs (real (phi64 l i)) <= M /\ Rabs (real (psi64 l i)) * h <= M).
    { intros i Hi. destruct (HZ 0%nat lR P S ltac:(lia) eq_refl HL i) as (Z1 & Z2); [rewrite Nat.add_0_r; exact Hi|].
      specialize (DV i Hi). specialize (DS i Hi). cbv beta in DV, DS. split.
      - replace (real (phi64 l i)) with ((real (phi64 l i) - P i) + P i) by ring. eapply Rle_trans; [apply Rabs_triang|].
        assert (0 <= vdrift e nn N). { unfold vdrift. apply Rmult_le_pos; [exact He|]. pose proof (Nq_pos nn N). lra. }
        assert (INR (Datatypes.S m) * vdrift e nn N <= (INR N + 1) * vdrift e nn N) by (apply Rmult_le_compat_r; auto). lra.
      - replace (real (psi64 l i)) with ((real (psi64 l i) - S i) + S i) by ring.
        apply Rle_trans with ((Rabs (real (psi64 l i) - S i) + Rabs (S i)) * h); [apply Rmult_le_compat_r; [lra|apply Rabs_triang]|].
        assert (0 <= sdrift h e nn N). { unfold sdrift. apply Rmult_le_pos; [apply ah_pos; auto|]. pose proof (Nq_pos nn N). lra. }
        assert (Rabs (real (psi64 l i) - S i) * h <= (INR N + 1) * sdrift h e nn N * h).
        { apply Rmult_le_compat_r; [lra|]. eapply Rle_trans; [exact DS|]. apply Rmult_le_compat_r; auto. }
        lra. }
    destruct (step64_line l s d (Z.of_nat m - 1) (nn - Z.of_nat m) Hl Hs) as (l1 & o' & u' & El & Hl1 & Ho' & Hu' & Eo' & BB).
    { lia. } { unfold nn. lia. }
    { intros i Hi. destruct (FN i Hi) as (F1 & F2). destruct (Zm i Hi) as (Z1 & Z2). auto. }
    destruct (foot_unique h d o u o' u' Hh Ho Hu Eo Ho' Hu' Eo') as (-> & ->). cbv zeta in BB.
    assert (HB1 : both (Datatypes.S m) l1 P1 S1).
    { split.
      - apply (drift_step h e nn N Hh He Hn m (fun i => real (phi64 l i) - P i) (fun i => real (psi64 l i) - S i) _ _ o u); [lia|constructor; auto|exact Ho|exact Hu|].
        intros i Hi. destruct (BB i ltac:(lia)) as (_ & _ & B1 & B2). destruct (A i ltac:(lia)) as (A1 & A2).
        set (p0 := real (phi64 l (i + o)%Z)) in *. set (p1 := real (phi64 l (i + o + 1)%Z)) in *. set (s0 := real (psi64 l (i + o)%Z)) in *. set (s1 := real (psi64 l (i + o + 1)%Z)) in *.
        set (q0 := P (i + o)%Z) in *. set (q1 := P (i + o + 1)%Z) in *. set (r0 := S (i + o)%Z) in *. set (r1 := S (i + o + 1)%Z) in *.
        assert (LV : seg p0 s0 p1 s1 h u = seg (p0 - q0) (s0 - r0) (p1 - q1) (s1 - r1) h u + seg q0 r0 q1 r1 h u).
        { rewrite <- seg_plus by lra. f_equal; ring. }
        assert (LS : seg' p0 s0 p1 s1 h u = seg' (p0 - q0) (s0 - r0) (p1 - q1) (s1 - r1) h u + seg' q0 r0 q1 r1 h u).
        { rewrite <- seg'_plus by lra. f_equal; ring. }
        rewrite LV, <- A1 in B1. rewrite LS, <- A2 in B2. clearbody p0 p1 s0 s1 q0 q1 r0 r1. split.
        + eapply Rle_trans; [|exact B1]. right. f_equal. ring.
        + eapply Rle_trans; [|exact B2]. right. f_equal. ring.
      - intros i Hi. destruct (BB i ltac:(lia)) as (F1 & F2 & _). auto. }
    destruct (IH schedR ds l1 lR1 P1 S1 (Datatypes.S m) ltac:(lia) Hl1 HlR1 HL1 T2 T2R) as (l' & lR' & P' & S' & E' & ER' & Hl' & HL' & B').
    { intros k lk Pk Sk Hk Ek HLk i Hi. apply (HZ (Datatypes.S k) lk Pk Sk); [lia| |exact HLk|].
      - cbn [firstn]. unfold sl_steps in *. cbn [forM]. rewrite ER. cbn [bind]. exact Ek.
      - replace (m + Datatypes.S k)%nat with (Datatypes.S m + k)%nat by lia. exact Hi. }
    { exact HB1. }
    exists l', lR', P', S'. split; [unfold sl_steps in *; cbn [forM]; rewrite El; cbn [bind]; exact E'|]. split; [unfold sl_steps in *; cbn [forM]; rewrite ER; cbn [bind]; exact ER'|].
    split; [exact Hl'|]. split; [exact HL'|]. cbn [length]. replace (m + Datatypes.S (length sched))%nat with (Datatypes.S m + length sched)%nat by lia. exact B'.
Qed.
End Loop.

(** ** The theorem *)
Lemma drift_bounds N : let q := (INR N + 1) ^ 2 * sqrt (IZR (vx n + 1)) in
  (INR N + 1) * vdrift e (vx n) N <= 6 * q * e /\ (INR N + 1) * sdrift h e (vx n) N <= 47 * q * (e / h).
Proof.
  intros q. pose proof e_pos as He. pose proof h64 as Hh. pose proof n1 as Hn. pose proof (pos_INR N) as PN. pose proof (ah_pos h e Hh He) as AH.
  assert (Q1 : 1 <= sqrt (IZR (vx n + 1))). { rewrite <- sqrt_1. apply sqrt_le_1_alt. apply IZR_le. lia. }
  set (k := INR N + 1) in *. assert (K1 : 1 <= k) by (unfold k; lra). unfold vdrift, sdrift. fold k. unfold q. set (r := sqrt _) in *. clearbody r k.
  assert (KR : k <= k ^ 2 * r). { assert (1 * k <= k * k) by (apply Rmult_le_compat_r; lra). assert (k * k * 1 <= k * k * r) by (apply Rmult_le_compat_l; [|lra]; apply Rmult_le_pos; lra). lra. }
  split.
  - replace (k * (e * (1 + 5 * k * r))) with (k * e + 5 * (k ^ 2 * r) * e) by ring. assert (k * e <= k ^ 2 * r * e) by (apply Rmult_le_compat_r; lra). lra.
  - set (b := e / h) in *. replace (k * (b * (8 + 39 * k * r))) with (8 * (k * b) + 39 * (k ^ 2 * r) * b) by ring. assert (k * b <= k ^ 2 * r * b) by (apply Rmult_le_compat_r; lra). lra.
Qed.

Lemma run_rounding sched schedR ds l lR P S : levelset_on g l -> levelset_on gR lR -> line ov (vx n) gR lR P S ->
  Forall2 (moves64 ov n bmin bmax g) sched ds -> Forall2 (moves_by ov n gR) schedR (map (fun d => V3 d 0 0) ds) ->
  near_line64 ov g l P S (-1) (vx n) e (8 * (e / h)) ->
  let N := length sched in let q := (INR N + 1) ^ 2 * sqrt (IZR (vx n + 1)) in
  (forall k lk Pk Sk, (k < N)%nat -> sl_steps ov gR (firstn k schedR) lR = Ok lk -> line ov (vx n) gR lk Pk Sk ->
     forall i, (Z.of_nat k - 1 <= i <= vx n - Z.of_nat k)%Z -> Rabs (Pk i) <= M / 2 /\ Rabs (Sk i) * h <= M / 2) ->
  47 * q * round_bound 1 rho <= / 2 ->
  exists l' lR' P' S', sl_steps ov g sched l = Ok l' /\ sl_steps ov gR schedR lR = Ok lR' /\ line ov (vx n) gR lR' P' S' /\
    near_line64 ov g l' P' S' (Z.of_nat N - 1) (vx n - Z.of_nat N) (6 * q * e) (47 * q * (e / h)).
Proof.
  intros Hl HlR HL H2 H2R H0 N q HZ HQ. pose proof h64 as Hh. pose proof n1 as Hn. pose proof e_pos as He. destruct (drift_bounds N) as (B1 & B2). cbv zeta in B1, B2. fold q in B1, B2.
  assert (Mp : 0 < M) by (destruct HM as [M1 _]; pose proof (bpow_gt_0 radix2 (-200)); lra).
  assert (q0 : 0 <= q) by (apply Rmult_le_pos; [apply pow2_ge_0|apply sqrt_pos]).
  assert (QE : 47 * q * e <= M / 2). { unfold e. replace (47 * q * (round_bound 1 rho * M)) with (47 * q * round_bound 1 rho * M) by ring. assert (47 * q * round_bound 1 rho * M <= / 2 * M) by (apply Rmult_le_compat_r; lra). lra. }
  assert (qe : 0 <= q * e) by (apply Rmult_le_pos; lra).
  destruct (loop64 N) with (sched := sched) (schedR := schedR) (ds := ds) (l := l) (lR := lR) (P := P) (S := S) (m := 0%nat) as (l' & lR' & P' & S' & E & ER & Hl' & HL' & [DE DV DS] & FN); auto.
  - lra.
  - apply Rle_trans with (47 * q * (e / h) * h); [apply Rmult_le_compat_r; lra|]. replace (47 * q * (e / h) * h) with (47 * q * e) by (field; lra). exact QE.
  - assert (K0 : forall i, (-1 <= i <= vx n)%Z -> is_finite (phi64 l i) = true /\ is_finite (psi64 l i) = true /\ Rabs (real (phi64 l i) - P i) <= e /\ Rabs (real (psi64 l i) - S i) <= 8 * (e / h)).
    { intros i Hi. destruct (H0 i Hi) as (p & y & A & B & F1 & F2 & C1 & C2). destruct (line64 l i Hl Hi) as (A' & y' & B' & C'). rewrite A in A'. rewrite B in B'. apply Ok_inj in A', B'. subst p y. rewrite C' in *. auto. }
    split.
    + apply drift_0; auto. intros i Hi. destruct (K0 i Hi) as (_ & _ & C1 & C2). auto.
    + intros i Hi. destruct (K0 i ltac:(lia)) as (F1 & F2 & _). auto.
  - exists l', lR', P', S'. split; [exact E|]. split; [exact ER|]. split; [exact HL'|]. cbn [Nat.add] in *. fold N in DV, DS, FN. intros i Hi.
    destruct (line64 l' i Hl' ltac:(lia)) as (A & y & B & C). exists (phi64 l' i), y. rewrite C. destruct (FN i Hi) as (F1 & F2).
    split; [exact A|]. split; [exact B|]. split; [exact F1|]. split; [exact F2|]. rewrite S_INR in DV, DS. split.
    + eapply Rle_trans; [exact (DV i Hi)|exact B1].
    + eapply Rle_trans; [exact (DS i Hi)|exact B2].
Qed.
End Run64.
