(** The loop in 1-D, on the line of cells. *)
From Coq Require Import ZArith List Bool Lia Reals Lra.
From Verif Require Import Base Num ModelVec ModelGrid ModelArray ModelInterp ModelTemporal ModelRun SpecGrid SpecInterp SpecTemporal SpecRun SpecStability
  ProofsBase ProofsGrid ProofsArray ProofsGridProps ProofsHermite ProofsHermiteCell ProofsHermiteExact ProofsInterp ProofsInterpProps ProofsInterpApi
  ProofsTemporal ProofsTemporalCases ProofsRun ProofsRunStep.
Import ListNotations.
Open Scope R_scope.

Lemma Ok_inj {A} (x y : A) : Ok x = Ok y -> x = y.
Proof. intros H. injection H as ->. reflexivity. Qed.
Lemma Hw_seg p0 s0 p1 s1 h e : h <> 0 -> Hw (wts false e) p0 s0 p1 s1 h = seg p0 s0 p1 s1 h (e * h).
Proof. intros H. unfold_bern. unfold seg, co2, co3. field. exact H. Qed.
Lemma Hw_seg' p0 s0 p1 s1 h e : h <> 0 -> Hw (wts true e) p0 s0 p1 s1 h * / h = seg' p0 s0 p1 s1 h (e * h).
Proof. intros H. unfold_bern. unfold seg', co2, co3. field. exact H. Qed.

(** the new values of cell i come from the segment between cells i+o and i+o+1, at distance u from its start *)
Definition advected (h : R) (o : Z) (u : R) (P S P' S' : Z -> R) (i : Z) : Prop :=
  P' i = seg (P (i + o)%Z) (S (i + o)%Z) (P (i + o + 1)%Z) (S (i + o + 1)%Z) h u /\
  S' i = seg' (P (i + o)%Z) (S (i + o)%Z) (P (i + o + 1)%Z) (S (i + o + 1)%Z) h u.

Section Line.
Variables (ov : ovmode) (n : vec3 Z) (bmin bmax : vec3 R) (g : grid R).
Hypothesis Hb : built ov 1 n 1 bmin bmax g.
Hypothesis Hbox : proper_box 1 bmin bmax.
Hypothesis Hdef : interp_defined ov 1.
Let h := spacing (vx bmin) (vx bmax) (vx n).

Lemma h0 : 0 < h.
Proof. apply (h_pos ov 1 n 1 bmin bmax g Hb Hbox AX eq_refl). Qed.

Lemma line_cell i : (-1 <= i <= vx n)%Z -> padded_cell 1 n 1 (i, 0, 0)%Z.
Proof. intros H [| |]; cbn; lia. Qed.
Lemma line_interior i : (0 <= i < vx n)%Z -> interior_cell n (i, 0, 0)%Z.
Proof.
  intros H a. destruct Hb as ((_ & _ & G & _) & _). pose proof (G AY) as GY. pose proof (G AZ) as GZ. cbn in GY, GZ.
  destruct a; cbn; lia.
Qed.

Lemma line_exists l : levelset_on g l -> exists P S, line ov (vx n) g l P S.
Proof.
  intros Hl. pose proof (stores_any ov 1 n 1 bmin bmax g (keep_prev l) Hb (keep_on _ _ Hl)) as HS. set (s := S_of g (keep_prev l)) in *.
  exists (fun i => cv (s (i, 0, 0)%Z)), (fun i => cv_x (s (i, 0, 0)%Z)). intros i Hi.
  destruct (HS i 0%Z 0%Z (line_cell i Hi)) as (A & B & _). split; [exact A|]. eexists. split; [exact B|]. reflexivity.
Qed.

Lemma line_step l P S s d : levelset_on g l -> line ov (vx n) g l P S -> moves_by ov n g s d -> within_a_cell 1 n bmin bmax d ->
  exists l' P' S' o u, sl_step ov g l s = Ok l' /\ levelset_on g l' /\ line ov (vx n) g l' P' S' /\
    (o = -1 \/ o = 0)%Z /\ 0 <= u < h /\ - vx d = IZR o * h + u /\
    (P' (-1)%Z = P (-1)%Z /\ S' (-1)%Z = S (-1)%Z /\ P' (vx n) = P (vx n) /\ S' (vx n) = S (vx n)) /\
    forall i, (0 <= i < vx n)%Z -> advected h o u P S P' S' i.
Proof.
  intros Hl HL Hm Hw. pose proof h0 as Hh.
  destruct (step_HD ov 1 n bmin bmax g Hb Hbox Hdef l s d Hl Hm Hw) as (l' & E & Hl' & _ & HG & HI).
  destruct (line_exists l' Hl') as (P' & S' & HL').
  pose proof (Hw AX eq_refl) as HX. cbv zeta in HX. cbn [vget] in HX. fold h in HX.
  set (up := fun _ : axis => if Rlt_dec 0 (vx d) then true else false).
  exists l', P', S', (if Rlt_dec 0 (vx d) then -1 else 0)%Z, (if Rlt_dec 0 (vx d) then h - vx d else - vx d).
  split; [exact E|]. split; [exact Hl'|]. split; [exact HL'|].
  split; [destruct (Rlt_dec 0 (vx d)); auto|]. split; [destruct (Rlt_dec 0 (vx d)); lra|].
  split; [destruct (Rlt_dec 0 (vx d)); lra|].
  assert (N1 : (1 <= vx n)%Z) by (destruct Hb as ((_ & _ & G & _) & _); apply (G AX)).
  split.
  { assert (GH : forall i, (-1 <= i <= vx n)%Z -> ~ (0 <= i < vx n)%Z -> P' i = P i /\ S' i = S i).
    { intros i Hi Hn. destruct (HG i 0%Z 0%Z (line_cell i Hi)) as (A & B); [intros C; apply Hn; apply (C AX)|].
      destruct (HL i Hi) as (L1 & y & L2 & L3). destruct (HL' i Hi) as (L1' & y' & L2' & L3').
      rewrite L1, L1' in A. injection A as ->. rewrite L2, L2' in B. injection B as ->. split; congruence. }
    destruct (GH (-1)%Z) as (A & B); [lia|lia|]. destruct (GH (vx n)) as (C & D); [lia|lia|]. auto. }
  intros i Hi. destruct (HI i 0%Z 0%Z (line_interior i Hi)) as (A & y & B & C). clear HI.
  destruct (back_loc ov 1 n bmin bmax g Hb Hbox i 0%Z 0%Z d up) as (X1 & X2); [apply line_cell; lia| |].
  { intros [| |] U; try discriminate. cbv zeta. cbn [vget]. fold h. unfold up. destruct (Rlt_dec 0 (vx d)); lra. }
  cbn [used Nat.leb andb] in X1.
  rewrite X1 in A. rewrite X1 in X2. specialize (C AX). rewrite X1 in C. specialize (X2 AX). cbn [used Nat.leb vget] in X2.
  destruct (HL' i ltac:(lia)) as (L1' & y' & L2' & L3'). rewrite A in L1'. apply Ok_inj in L1'. rename L1' into EP. rewrite B in L2'. apply Ok_inj in L2'. subst y'.
  unfold up in *. clear up X1.
  assert (R1 : forall j, (-1 <= j <= vx n)%Z -> q_phi (cell_data g (keep_prev l) (j, 0, 0)%Z) = P j /\ vx (q_psi (cell_data g (keep_prev l) (j, 0, 0)%Z)) = S j).
  { intros j Hj. destruct (HL j Hj) as (L1 & z & L2 & L3). rewrite (read_phi ov 1 n bmin bmax g Hb l j 0%Z 0%Z (P j) Hl (line_cell j Hj) L1).
    rewrite (read_psi ov 1 n bmin bmax g Hb l j 0%Z 0%Z z Hl (line_cell j Hj) L2). auto. }
  set (o := (if Rlt_dec 0 (vx d) then -1 else 0)%Z). set (u := if Rlt_dec 0 (vx d) then h - vx d else - vx d).
  assert (EB : (if if Rlt_dec 0 (vx d) then true else false then (i - 1)%Z else i) = (i + o)%Z) by (unfold o; destruct (Rlt_dec 0 (vx d)); lia).
  assert (HO : (o = -1 \/ o = 0)%Z) by (unfold o; destruct (Rlt_dec 0 (vx d)); auto).
  rewrite EB in *. clear EB.
  assert (EU : vget (loc 1 n bmin bmax (i + o, 0, 0)%Z (back d (centre_pos 1 n bmin bmax (i, 0, 0)%Z))) AX * h = u).
  { cbn [vget]. rewrite X2. fold h. unfold u. destruct (Rlt_dec 0 (vx d)); field; lra. }
  clearbody o u. clear X2.
  destruct (R1 (i + o)%Z ltac:(lia)) as (Q1 & Q2). destruct (R1 (i + o + 1)%Z ltac:(lia)) as (Q3 & Q4).
  unfold HD, Wt in EP. cbn [cstep flag] in EP. unfold hpsi, HD, Wt in C. cbn [cstep flag used Nat.leb axis_eqb] in C.
  rewrite Q1, Q2, Q3, Q4 in EP. rewrite Q1, Q2, Q3, Q4 in C. rewrite os_get in C. change (vget (hs n bmin bmax) AX) with h in C.
  change (vx (hs n bmin bmax)) with h in EP. change (vx (hs n bmin bmax)) with h in C.
  rewrite Hw_seg in EP by lra. rewrite Hw_seg' in C by lra. rewrite EU in EP. rewrite EU in C. cbn [vget] in C.
  split; [symmetry; exact EP|]. rewrite <- L3'. exact C.
Qed.
End Line.
