(** The translation theorem of the loop, its concrete case, and what it cannot say. *)
From Coq Require Import ZArith List Bool Lia Reals Lra.
From Verif Require Import Base Num ModelVec ModelGrid ModelArray ModelInterp ModelTemporal ModelRun SpecGrid SpecInterp SpecTemporal SpecRun SpecStability
  ProofsBase ProofsGrid ProofsArray ProofsGridProps ProofsHermite ProofsHermiteCell ProofsHermiteExact ProofsInterp ProofsInterpProps ProofsInterpApi
  ProofsTemporal ProofsTemporalCases ProofsRun ProofsRunStep ProofsRunLine.
Import ListNotations.
Open Scope R_scope.

Lemma steps_translate ov dim n bmin bmax (g : grid R) l c sched ds :
  built ov dim n 1 bmin bmax g -> levelset_on g l -> proper_box dim bmin bmax -> interp_defined ov dim ->
  sampled ov dim n 1 bmin bmax g (keep_prev l) c -> uniform_mixed dim c ->
  Forall2 (moves_by ov n g) sched ds -> Forall (within_a_cell dim n bmin bmax) ds ->
  exists l', sl_steps ov g sched l = Ok l' /\
    forall i j k, depth dim n (Z.of_nat (length sched)) (i, j, k) -> exists p y, node ov g i j k = Ok p /\
      aget ov g (ls_phi l') i j k = Ok (poly c (flat dim (back (vtotal ds) p))) /\ aget ov g (ls_psi l') i j k = Ok y /\
      forall a, used dim a = true -> vget y a = dpoly a c (flat dim (back (vtotal ds) p)).
Proof.
  intros Hb Hl Hbox Hdef HS Hmix H2 HF.
  assert (B0 : forall p, back (V3 0 0 0) p = p) by (intros [x y z]; unfold back; cbn; f_equal; ring).
  assert (M0 : moved ov dim n bmin bmax g c 0 (V3 0 0 0) l).
  { constructor; [exact Hl| | |]; intros i j k Hp.
    - apply (depth_padded dim n 0) in Hp; [|lia]. destruct (HS i j k Hp) as (A & _). rewrite keep_phi in A. rewrite B0, flat_centre. exact A.
    - apply (depth_padded dim n 0) in Hp; [|lia]. destruct (HS i j k Hp) as (_ & B & _). rewrite keep_psi in B. rewrite B0, flat_centre. exact B.
    - destruct (HS i j k Hp) as (_ & _ & C). rewrite keep_mix in C. rewrite C, flat_centre. reflexivity. }
  destruct (moved_steps ov dim n bmin bmax g c Hb Hbox Hdef Hmix sched ds 0%Z (V3 0 0 0) l ltac:(lia) M0 H2 HF) as (l' & E & M').
  exists l'. split; [exact E|]. intros i j k Hd.
  assert (EL : length ds = length sched) by (clear - H2; induction H2; cbn; congruence). rewrite EL in M'. cbn [Z.add] in M'.
  assert (Hp : padded_cell dim n 1 (i, j, k)) by (eapply (depth_padded dim n); [|exact Hd]; lia).
  destruct (node_at_centre_pad1 _ _ _ _ _ _ _ _ _ Hb Hp) as (p & Np & _). pose proof (node_centre ov dim n bmin bmax g Hb i j k p Hp Np) as EP.
  destruct (mv_psi _ _ _ _ _ _ _ _ _ _ M' i j k Hd) as (y & A & B). exists p, y. split; [exact Np|].
  assert (EV : vplus (vtotal ds) (V3 0 0 0) = vtotal ds) by (unfold vplus; destruct (vtotal ds); cbn; f_equal; ring).
  rewrite EV, <- EP in B. split; [|split; [exact A|exact B]].
  rewrite (mv_phi _ _ _ _ _ _ _ _ _ _ M' i j k Hd), EV, EP. reflexivity.
Qed.

(** current fields with given contents *)
Lemma current_exists ov dim n pad bmin bmax (g : grid R) (S : cell -> cell_values) : built ov dim n pad bmin bmax g ->
  exists l, levelset_on g l /\ stores ov dim n pad g (keep_prev l) S.
Proof.
  intros Hb. destruct (stores_exists ov dim n pad bmin bmax g S Hb) as (l & [H1 H2 H3 H4 H5 H6 H7 H8 H9] & HS).
  exists (with_psi (with_phi l (ls_phi_prev l)) (ls_psi_prev l)). split; [constructor; auto|].
  intros i j k Hp. apply (HS i j k Hp).
Qed.
Lemma current_sampled ov dim n bmin bmax (g : grid R) c : built ov dim n 1 bmin bmax g ->
  exists l, levelset_on g l /\ sampled ov dim n 1 bmin bmax g (keep_prev l) c.
Proof.
  intros Hb. destruct (current_exists ov dim n 1 bmin bmax g (fun b => samples_at c (centre_pos dim n bmin bmax b)) Hb) as (l & Hl & HS).
  exists l. split; [exact Hl|]. intros i j k Hp. destruct (HS i j k Hp) as (A & B & C). cbv zeta. split; [exact A|]. split; [|exact C].
  eexists. split; [exact B|]. intros [| |] _; reflexivity.
Qed.
(** a uniform velocity *)
Lemma uniform_exists ov dim n pad bmin bmax (g : grid R) v : built ov dim n pad bmin bmax g ->
  exists lv, forall dt, moves_by ov n g (dt, lv) (V3 (dt * vx v) (dt * vy v) (dt * vz v)).
Proof.
  intros Hb. destruct (velocity_exists _ _ _ _ _ _ g (fun _ => v) (fun _ => M3 (V3 0 0 0) (V3 0 0 0) (V3 0 0 0)) Hb) as (lv & Hv & V).
  exists lv. intros dt. split; [exact Hv|]. intros i j k Hi. assert (Hp : padded_cell dim n pad (i, j, k)) by (eapply interior_padded; [apply Hb|exact Hi]).
  destruct (node_position _ _ _ _ _ _ _ _ _ _ Hb Hp) as (p & Np & _). destruct (V i j k p Hp Np) as (V1 & V2).
  eexists. eexists. split; [exact V1|]. split; [exact V2|]. split; [intros [| |] [| |]; reflexivity|intros [| |]; reflexivity].
Qed.

(** x^3 + 2 x y + y^2: not linear, mixed derivative 2 *)
Definition mixed2 (i j k : nat) : R :=
  match i, j, k with 3%nat, 0%nat, 0%nat => 1 | 1%nat, 1%nat, 0%nat => 2 | 0%nat, 2%nat, 0%nat => 1 | _, _, _ => 0 end.
Lemma mixed2_uniform : uniform_mixed 2 mixed2.
Proof. intros p q. cbv zeta. split; intros H; [|lia]. unfold tricubic, P1, cubic, cubic'. cbn. ring. Qed.

Lemma c118_case : exists g l lv,
  built Wrap 2 (V3 4 3 1)%Z 1 lo1 hi1 g /\ levelset_on g l /\ proper_box 2 lo1 hi1 /\ interp_defined Wrap 2 /\
  sampled Wrap 2 (V3 4 3 1)%Z 1 lo1 hi1 g (keep_prev l) mixed2 /\ uniform_mixed 2 mixed2 /\
  let sched := [(1 / 10, lv); (- 1 / 5, lv)] in let ds := [V3 (1 / 10 * 1) (1 / 10 * - 2) (1 / 10 * 0); V3 (- 1 / 5 * 1) (- 1 / 5 * - 2) (- 1 / 5 * 0)] in
  Forall2 (moves_by Wrap (V3 4 3 1)%Z g) sched ds /\ Forall (within_a_cell 2 (V3 4 3 1)%Z lo1 hi1) ds /\
  depth 2 (V3 4 3 1)%Z (Z.of_nat (length sched)) (2, 1, 0)%Z.
Proof.
  destruct (built_2d (T := R) Wrap lo1 hi1) as (g & Hb).
  destruct (current_sampled _ _ _ _ _ g mixed2 Hb) as (l & Hl & HS). destruct (uniform_exists _ _ _ _ _ _ g (V3 1 (-2) 0) Hb) as (lv & HV).
  exists g, l, lv. split; [exact Hb|]. split; [exact Hl|]. split; [apply unit_box|]. split; [left; reflexivity|]. split; [exact HS|].
  split; [apply mixed2_uniform|]. cbv zeta. split; [constructor; [apply (HV (1 / 10))|constructor; [apply (HV (- 1 / 5))|constructor]]|]. split.
  - apply Forall_cons; [|apply Forall_cons; [|apply Forall_nil]]; intros [| |] U; try discriminate; unfold spacing; cbn; lra.
  - intros [| |]; cbn; lia.
Qed.

(** *** The first cell after two steps: ghost cells are never refilled *)
Definition ident (i j k : nat) : R := match i, j, k with 1%nat, 0%nat, 0%nat => 1 | _, _, _ => 0 end.
Lemma c118_boundary : exists g l lv l',
  built Wrap 1 (V3 5 1 1)%Z 1 lo1 hi1 g /\ levelset_on g l /\
  sampled Wrap 1 (V3 5 1 1)%Z 1 lo1 hi1 g (keep_prev l) ident /\ uniform_mixed 1 ident /\
  moves_by Wrap (V3 5 1 1)%Z g (1 / 5, lv) (V3 (1 / 5) 0 0) /\ within_a_cell 1 (V3 5 1 1)%Z lo1 hi1 (V3 (1 / 5) 0 0) /\
  sl_steps Wrap g [(1 / 5, lv); (1 / 5, lv)] l = Ok l' /\
  node Wrap g 0 0 0 = Ok (V3 (- 4 / 5) 0 0) /\
  poly ident (flat 1 (back (vtotal [V3 (1 / 5) 0 0; V3 (1 / 5) 0 0]) (V3 (- 4 / 5) 0 0))) = - 12 / 10 /\
  aget Wrap g (ls_phi l') 0 0 0 = Ok (- 11 / 10).
Proof.
  destruct (built_1d (T := R) Wrap lo1 hi1) as (g & Hb).
  destruct (current_sampled _ _ _ _ _ g ident Hb) as (l & Hl & HS). destruct (uniform_exists _ _ _ _ _ _ g (V3 1 0 0) Hb) as (lv & HV).
  assert (HM : moves_by Wrap (V3 5 1 1)%Z g (1 / 5, lv) (V3 (1 / 5) 0 0)).
  { specialize (HV (1 / 5)). cbn [vx vy vz] in HV. replace (V3 (1 / 5) 0 0) with (V3 (1 / 5 * 1) (1 / 5 * 0) (1 / 5 * 0)) by (f_equal; lra). exact HV. }
  assert (HW : within_a_cell 1 (V3 5 1 1)%Z lo1 hi1 (V3 (1 / 5) 0 0)) by (intros [| |] U; try discriminate; unfold spacing; cbn; lra).
  pose proof (unit_box 1) as Hbox. assert (Hdef : interp_defined Wrap 1) by (left; reflexivity).
  assert (Hh : spacing (vx lo1) (vx hi1) (vx (V3 5 1 1)%Z) = 2 / 5) by (unfold spacing; cbn; lra).
  assert (HL : line Wrap 5 g l (fun i => - 1 + (IZR i + / 2) * (2 / 5)) (fun _ => 1)).
  { intros i Hi. assert (Hp : padded_cell 1 (V3 5 1 1)%Z 1 (i, 0, 0)%Z) by (intros [| |]; cbn; lia).
    destruct (HS i 0%Z 0%Z Hp) as (A & (y & B & C) & _). rewrite keep_phi in A. rewrite keep_psi in B. split.
    - rewrite A. f_equal. unfold poly, tricubic, P1, cubic, centre_pos, centre. cbn [vget vx vy vz lo1 hi1 used Nat.leb ccoord ident].
      replace (spacing (-1) 1 5) with (2 / 5) by (unfold spacing; lra). ring.
    - exists y. split; [exact B|]. change (vx y) with (vget y AX). rewrite (C AX eq_refl). unfold dpoly, tricubic, P1, cubic, cubic'. cbn [ident]. ring. }
  destruct (line_step Wrap (V3 5 1 1)%Z lo1 hi1 g Hb Hbox Hdef l _ _ _ _ Hl HL HM HW) as (l1 & Pa & Sa & o & u & E1 & Hl1 & HL1 & Ho & Hu & Ed & (G1 & G2 & _) & A1).
  destruct (line_step Wrap (V3 5 1 1)%Z lo1 hi1 g Hb Hbox Hdef l1 _ _ _ _ Hl1 HL1 HM HW) as (l2 & Pb & Sb & o2 & u2 & E2 & Hl2 & HL2 & Ho2 & Hu2 & Ed2 & _ & A2).
  rewrite Hh in *. cbn [vx] in *.
  assert ((o = -1)%Z /\ u = 1 / 5) as (-> & ->) by (destruct Ho as [-> | ->]; [split; [reflexivity|lra]|exfalso; lra]).
  assert ((o2 = -1)%Z /\ u2 = 1 / 5) as (-> & ->) by (destruct Ho2 as [-> | ->]; [split; [reflexivity|lra]|exfalso; lra]).
  destruct (A1 0%Z ltac:(lia)) as (X1 & X2). destruct (A2 0%Z ltac:(lia)) as (Y1 & _). cbn in X1, X2, Y1, G1, G2.
  rewrite G1, G2, X1, X2 in Y1.
  exists g, l, lv, l2. split; [exact Hb|]. split; [exact Hl|]. split; [exact HS|].
  split; [intros p q; cbv zeta; split; intros; lia|]. split; [exact HM|]. split; [exact HW|]. split.
  { unfold sl_steps. cbn [forM]. rewrite E1. cbn [bind forM]. rewrite E2. reflexivity. }
  assert (Hp : padded_cell 1 (V3 5 1 1)%Z 1 (0, 0, 0)%Z) by (intros [| |]; cbn; lia). split.
  { destruct (node_at_centre_pad1 _ _ _ _ _ _ _ _ _ Hb Hp) as (p & Np & _). rewrite Np, (node_centre _ _ _ _ _ _ Hb _ _ _ _ Hp Np). f_equal.
    unfold centre_pos, centre. cbn [vget vx vy vz lo1 hi1 used Nat.leb ccoord]. replace (spacing (-1) 1 5) with (2 / 5) by (unfold spacing; lra). f_equal. lra. }
  split.
  { unfold poly, tricubic, P1, cubic, back, vtotal, flat. cbn. lra. }
  destruct (HL2 0%Z ltac:(cbn; lia)) as (Z1 & _). rewrite Z1, Y1. f_equal. unfold seg, seg', co2, co3. lra.
Qed.

Lemma c118_rest_case (S : cell -> cell_values) : exists g l lv,
  built Trap 3 (V3 2 3 4)%Z 1 lo1 hi1 g /\ proper_box 3 lo1 hi1 /\ interp_defined Trap 3 /\ levelset_on g l /\
  stores Trap 3 (V3 2 3 4)%Z 1 g (keep_prev l) S /\ Forall (at_rest Trap (V3 2 3 4)%Z g) [(1 / 2, lv); (3, lv); (0, lv)].
Proof.
  destruct (built_3d1 (T := R) Trap lo1 hi1) as (g & Hb).
  destruct (velocity_exists _ _ _ _ _ _ g (fun _ => V3 0 0 0) (fun _ => M3 (V3 0 0 0) (V3 0 0 0) (V3 0 0 0)) Hb) as (lv & Hv & V).
  destruct (current_exists _ _ _ _ _ _ g S Hb) as (l & Hl & HS).
  exists g, l, lv. split; [exact Hb|]. split; [apply unit_box|]. split; [right; reflexivity|]. split; [exact Hl|]. split; [exact HS|].
  assert (A : forall dt, at_rest Trap (V3 2 3 4)%Z g (dt, lv)).
  { intros dt. split; [exact Hv|]. right. intros i j k Hi. assert (Hp : padded_cell 3 (V3 2 3 4)%Z 1 (i, j, k)) by (eapply interior_padded; [apply Hb|exact Hi]).
    destruct (node_position _ _ _ _ _ _ _ _ _ _ Hb Hp) as (p & Np & _). destruct (V i j k p Hp Np) as (V1 & V2). split; [exact V1|].
    eexists. split; [exact V2|]. intros [| |] [| |]; reflexivity. }
  apply Forall_cons; [apply A|apply Forall_cons; [apply A|apply Forall_cons; [apply A|apply Forall_nil]]].
Qed.
