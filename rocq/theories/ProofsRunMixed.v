(** The stored mixed derivatives are never transported: the second step loses the exactness of the first. *)
From Coq Require Import ZArith List Bool Lia Reals Lra.
From Verif Require Import Base Num ModelVec ModelGrid ModelArray ModelInterp ModelTemporal ModelRun SpecGrid SpecInterp SpecTemporal SpecRun SpecStability
  ProofsBase ProofsGrid ProofsArray ProofsGridProps ProofsHermite ProofsHermiteCell ProofsHermiteExact ProofsInterp ProofsInterpProps ProofsInterpApi
  ProofsTemporal ProofsTemporalCases ProofsRun ProofsRunStep ProofsRunLine ProofsRunCases.
Import ListNotations.
Open Scope R_scope.

(** x^2 y *)
Definition xxy (i j k : nat) : R := match i, j, k with 2%nat, 1%nat, 0%nat => 1 | _, _, _ => 0 end.
Lemma xxy_poly p : poly xxy p = (vx p) ^ 2 * vy p.
Proof. unfold poly, tricubic, P1, cubic. cbn [xxy]. ring. Qed.
Lemma xxy_y p : dpoly AY xxy p = (vx p) ^ 2.
Proof. unfold dpoly, tricubic, P1, cubic, cubic'. cbn [xxy]. ring. Qed.
Lemma xxy_m p : tricubic true true false xxy p = 2 * vx p.
Proof. unfold tricubic, P1, cubic, cubic'. cbn [xxy]. ring. Qed.

Notation N := (V3 4 3 1)%Z.
Lemma c118_mixed : exists g l lv l' y,
  built Wrap 2 N 1 lo1 hi1 g /\ levelset_on g l /\
  sampled Wrap 2 N 1 lo1 hi1 g (keep_prev l) xxy /\
  moves_by Wrap N g (1 / 8, lv) (V3 (1 / 8) 0 0) /\ within_a_cell 2 N lo1 hi1 (V3 (1 / 8) 0 0) /\
  sl_steps Wrap g [(1 / 8, lv); (1 / 8, lv)] l = Ok l' /\ depth 2 N 2 (2, 1, 0)%Z /\
  node Wrap g 2 1 0 = Ok (V3 (1 / 4) 0 0) /\
  dpoly AY xxy (flat 2 (back (vtotal [V3 (1 / 8) 0 0; V3 (1 / 8) 0 0]) (V3 (1 / 4) 0 0))) = 0 /\
  aget Wrap g (ls_psi l') 2 1 0 = Ok y /\ vy y = - 3 / 256.
Proof.
  destruct (built_2d (T := R) Wrap lo1 hi1) as (g & Hb).
  destruct (current_sampled _ _ _ _ _ g xxy Hb) as (l & Hl & HS). destruct (uniform_exists _ _ _ _ _ _ g (V3 1 0 0) Hb) as (lv & HV).
  assert (HM : moves_by Wrap N g (1 / 8, lv) (V3 (1 / 8) 0 0)).
  { specialize (HV (1 / 8)). cbn [vx vy vz] in HV. replace (V3 (1 / 8) 0 0) with (V3 (1 / 8 * 1) (1 / 8 * 0) (1 / 8 * 0)) by (f_equal; lra). exact HV. }
  assert (HW : within_a_cell 2 N lo1 hi1 (V3 (1 / 8) 0 0)) by (intros [| |] U; try discriminate; unfold spacing; cbn; lra).
  pose proof (unit_box 2) as Hbox. assert (Hdef : interp_defined Wrap 2) by (left; reflexivity).
  assert (Hx : spacing (-1) 1 4 = 1 / 2) by (unfold spacing; lra). assert (Hy : spacing (-1) 1 3 = 2 / 3) by (unfold spacing; lra).
  assert (Cn : forall i j, centre_pos 2 N lo1 hi1 (i, j, 0)%Z = V3 (-1 + (IZR i + / 2) * (1 / 2)) (-1 + (IZR j + / 2) * (2 / 3)) 0).
  { intros i j. unfold centre_pos, centre. cbn [vget vx vy vz lo1 hi1 used Nat.leb ccoord]. rewrite Hx, Hy. reflexivity. }
  (* first step: exact *)
  destruct (step_HD Wrap 2 N lo1 hi1 g Hb Hbox Hdef l _ _ Hl HM HW) as (l1 & E1 & Hl1 & MX & _ & _).
  assert (V1 : forall i j, (0 <= i < 4)%Z -> (0 <= j < 3)%Z -> exists y, aget Wrap g (ls_psi l1) i j 0 = Ok y /\ vy y = (-1 + (IZR i + / 2) * (1 / 2) - 1 / 8) ^ 2).
  { assert (HN : sampled_nodes Wrap 2 N 1 g (keep_prev l) xxy).
    { intros i j k Hp. destruct (node_at_centre_pad1 _ _ _ _ _ _ _ _ _ Hb Hp) as (p & Np & _). exists p. split; [exact Np|].
      rewrite (node_centre _ _ _ _ _ _ Hb _ _ _ _ Hp Np), flat_centre. apply (HS i j k Hp). }
    destruct HM as (Hv & HV1).
    destruct (sl_translate Wrap 2 N 1 lo1 hi1 g (1 / 8) lv (keep_prev l) (V3 1 0 0) xxy Hb ltac:(lia) (keep_on _ _ Hl) Hv Hbox Hdef HN) as (l1' & E1' & _ & K).
    - intros i j k Hi. destruct (HV1 i j k Hi) as (v & m & A & B & C & D). split; [|exists m; auto].
      cbn [snd] in A. rewrite A. f_equal. apply vec_ext. intros a. specialize (D a). cbn [fst] in D. destruct a; cbn [vget vx vy vz] in *; lra.
    - intros i j k p Hi Np. assert (EF : foot (1 / 8) (V3 1 0 0) p = back (V3 (1 / 8) 0 0) p) by (unfold foot, back; cbn; f_equal; lra).
      rewrite EF. eapply (foot_lattice Wrap 2 N lo1 hi1 g Hb Hbox i j k p _ 0); [lia|apply (interior_depth _ _ _ _ _ _ Hb); exact Hi|exact Np|exact HW].
    - unfold sl_step in E1. cbn [fst snd] in E1. rewrite E1 in E1'. injection E1' as <-. intros i j Hi Hj.
      assert (HI : interior_cell N (i, j, 0)%Z) by (intros [| |]; cbn; lia).
      destruct (K i j 0%Z HI) as (p & y & Np & _ & A & B). exists y. split; [exact A|]. change (vy y) with (vget y AY). rewrite B. cbn [used Nat.leb].
      assert (Hp : padded_cell 2 N 1 (i, j, 0)%Z) by (intros [| |]; cbn; lia).
      rewrite xxy_y, (node_centre _ _ _ _ _ _ Hb _ _ _ _ Hp Np), Cn. cbn [flat foot vx vy vz]. ring. }
  (* second step *)
  destruct (step_HD Wrap 2 N lo1 hi1 g Hb Hbox Hdef l1 _ _ Hl1 HM HW) as (l2 & E2 & Hl2 & _ & _ & K).
  assert (HI : interior_cell N (2, 1, 0)%Z) by (intros [| |]; cbn; lia).
  assert (Hp : padded_cell 2 N 1 (2, 1, 0)%Z) by (intros [| |]; cbn; lia).
  destruct (K 2%Z 1%Z 0%Z HI) as (_ & y & A & B). clear K. specialize (B AY).
  destruct (back_loc Wrap 2 N lo1 hi1 g Hb Hbox 2%Z 1%Z 0%Z (V3 (1 / 8) 0 0) (fun a => match a with AX => true | _ => false end) Hp) as (X1 & X2).
  { intros [| |] U; try discriminate; cbv zeta; cbn [vget vx vy vz lo1 hi1]; rewrite ?Hx, ?Hy; lra. }
  cbn [used Nat.leb andb] in X1. change (2 - 1)%Z with 1%Z in X1.
  rewrite X1 in B. rewrite X1 in X2. pose proof (X2 AX) as XX. pose proof (X2 AY) as XY. cbn [used Nat.leb vget vx vy vz lo1 hi1] in XX, XY. rewrite Hx in XX. rewrite Hy in XY.
  set (e := loc 2 N lo1 hi1 (1, 1, 0)%Z (back (V3 (1 / 8) 0 0) (centre_pos 2 N lo1 hi1 (2, 1, 0)%Z))) in *. clearbody e. clear X1 X2.
  unfold hpsi, HD, Wt in B. cbn [used Nat.leb flag axis_eqb vget cstep] in B. unfold H2w in B.
  assert (XX' : vx e = 3 / 4) by lra. assert (XY' : vy e = 0) by lra. rewrite XX', XY', !Hw_at0 in B.
  cbn [Z.add Pos.add] in B. change (1 + 1)%Z with 2%Z in B.
  assert (RY : forall i, (0 <= i < 4)%Z -> vy (q_psi (cell_data g (keep_prev l1) (i, 1, 0)%Z)) = (-1 + (IZR i + / 2) * (1 / 2) - 1 / 8) ^ 2).
  { intros i Hi. destruct (V1 i 1%Z Hi ltac:(lia)) as (z & Z1 & Z2). rewrite (read_psi Wrap 2 N lo1 hi1 g Hb l1 i 1%Z 0%Z z Hl1); auto. intros [| |]; cbn; lia. }
  assert (RM : forall i, (0 <= i < 4)%Z -> q_m0 (cell_data g (keep_prev l1) (i, 1, 0)%Z) = 2 * (-1 + (IZR i + / 2) * (1 / 2))).
  { intros i Hi. assert (Hq : padded_cell 2 N 1 (i, 1, 0)%Z) by (intros [| |]; cbn; lia). destruct (HS i 1%Z 0%Z Hq) as (_ & _ & Z). rewrite keep_mix in Z.
    rewrite <- MX in Z. rewrite (read_mix Wrap 2 N lo1 hi1 g Hb l1 i 1%Z 0%Z _ Hl1 Hq Z). cbn [nth]. rewrite xxy_m, Cn. reflexivity. }
  rewrite !RY, !RM in B by lia. unfold os, hs in B. cbn [vget vx vy vz lo1 hi1] in B. rewrite Hx, Hy in B.
  exists g, l, lv, l2, y. split; [exact Hb|]. split; [exact Hl|]. split; [exact HS|]. split; [exact HM|]. split; [exact HW|]. split.
  { unfold sl_steps. cbn [forM]. rewrite E1. cbn [bind forM]. rewrite E2. reflexivity. }
  split; [intros [| |]; cbn; lia|]. split.
  { destruct (node_at_centre_pad1 _ _ _ _ _ _ _ _ _ Hb Hp) as (p & Np & _). rewrite Np, (node_centre _ _ _ _ _ _ Hb _ _ _ _ Hp Np), Cn. f_equal. f_equal; lra. }
  split; [rewrite xxy_y; unfold flat, back, vtotal, vplus; cbn; lra|]. split; [exact A|]. cbn [vget] in B. rewrite B. unfold_bern. lra.
Qed.
