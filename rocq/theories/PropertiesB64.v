(** C101-C104: grids, interpolation and time steps in double arithmetic. *)
From Coq Require Import ZArith List Bool Lia Reals Lra.
From Flocq Require Import Core BinarySingleNaN.
From Verif Require Import Base Num NumB64 ModelVec ModelGrid ModelArray ModelInterp ModelTemporal SpecGrid SpecInterp SpecTemporal SpecB64
  ProofsB64Interp ProofsB64Cases.
Open Scope R_scope.

(** C101: with double arithmetic every position a grid generates, ghost cells included, is finite and differs from
    the exact cell centre by at most 2^-47 times the distance of the box from the origin. *)
Theorem C101_positions ov dim n bmin bmax (g : grid b64) i j k :
  built ov dim n 1 bmin bmax g -> sane_box dim n bmin bmax -> padded_cell dim n 1 (i, j, k) ->
  exists p, node ov g i j k = Ok p /\
    forall a, used dim a = true -> is_finite (vget p a) = true /\
      Rabs (real (vget p a) - centre64 (vget bmin a) (vget bmax a) (vget n a) (ccoord (i, j, k) a))
        <= bpow radix2 (-47) * reach (vget bmin a) (vget bmax a).
Proof. intros Hb Hs. exact (position64 ov dim n bmin bmax g Hb Hs i j k). Qed.
Print Assumptions C101_positions.

Example C101_case : exists g, built Wrap 1 five 1 (ivl (-1)) (ivl 1) g /\ sane_box 1 five (ivl (-1)) (ivl 1) /\ padded_cell 1 five 1 (3, 0, 0)%Z.
Proof.
  exists (grid5 (-1) 1). split; [apply grid5_built|]. split; [apply ivl_sane; lia|].
  intros a. destruct a; cbn; lia.
Qed.

(** Far from the origin two different cells can have the same position. *)
Theorem C101_distinct_refuted : ~ (forall ov dim n bmin bmax (g : grid b64) i j k i' j' k' p q,
  built ov dim n 1 bmin bmax g -> sane_box dim n bmin bmax -> interior_cell n (i, j, k) -> interior_cell n (i', j', k') ->
  node ov g i j k = Ok p -> node ov g i' j' k' = Ok q -> (i, j, k) <> (i', j', k') ->
  exists a, used dim a = true /\ real (vget p a) <> real (vget q a)).
Proof.
  intros H. destruct same_position as (p & q & Ep & Eq & E).
  destruct (H Wrap 1%nat five (ivl far) (ivl (far + 2)) (grid5 far (far + 2)) 1%Z 0%Z 0%Z 2%Z 0%Z 0%Z p q) as (a & Hu & Hne); auto.
  - apply grid5_built.
  - apply ivl_sane; unfold far; lia.
  - intros a; destruct a; cbn; lia.
  - intros a; destruct a; cbn; lia.
  - discriminate.
  - destruct a; try discriminate. apply Hne. exact E.
Qed.
Print Assumptions C101_distinct_refuted.

(** C102: on a resolved grid the base node of a generated interior position is, on every axis, the cell itself or the
    one below. *)
Theorem C102_own_base ov dim n bmin bmax (g : grid b64) i j k :
  built ov dim n 1 bmin bmax g -> sane_box dim n bmin bmax -> resolved dim n bmin bmax -> interior_cell n (i, j, k) ->
  exists p b, node ov g i j k = Ok p /\ baseNodeId g p = Ok b /\
    forall a, used dim a = true -> vget b a = ccoord (i, j, k) a \/ vget b a = (ccoord (i, j, k) a - 1)%Z.
Proof. intros Hb Hs Hr Hc. exact (own_base64 ov dim n bmin bmax g Hb Hs i j k Hc Hr). Qed.
Print Assumptions C102_own_base.

Example C102_case : exists g, built Wrap 1 five 1 (ivl (-1)) (ivl 1) g /\ sane_box 1 five (ivl (-1)) (ivl 1) /\
  resolved 1 five (ivl (-1)) (ivl 1) /\ interior_cell five (3, 0, 0)%Z.
Proof.
  exists (grid5 (-1) 1). split; [apply grid5_built|]. split; [apply ivl_sane; lia|]. split; [apply ivl_resolved|].
  intros a. destruct a; cbn; lia.
Qed.

(** It is not always the cell itself: on (-1,1) in 5 cells the first cell has base node -1. *)
Theorem C102_exact_refuted : ~ (forall ov dim n bmin bmax (g : grid b64) i j k p b,
  built ov dim n 1 bmin bmax g -> sane_box dim n bmin bmax -> resolved dim n bmin bmax -> interior_cell n (i, j, k) ->
  node ov g i j k = Ok p -> baseNodeId g p = Ok b -> forall a, used dim a = true -> vget b a = ccoord (i, j, k) a).
Proof.
  intros H. destruct base_below as (p & b & Ep & Eb & E).
  assert (K := H Wrap 1%nat five (ivl (-1)) (ivl 1) (grid5 (-1) 1) 0%Z 0%Z 0%Z p b (grid5_built _ _) (ivl_sane (-1) 1 ltac:(lia) ltac:(lia)) ivl_resolved
    ltac:(intros a; destruct a; cbn; lia) Ep Eb AX eq_refl).
  cbn [vget ccoord] in K. lia.
Qed.
Print Assumptions C102_exact_refuted.

(** C103: interpolation in double arithmetic at any finite position of the box, or outside it by at most three eighths
    of a cell, reads only existing nodes and returns a result, whatever the rounding errors. *)
Theorem C103_interp_defined ov dim n pad bmin bmax (g : grid b64) l x lim :
  built ov dim n pad bmin bmax g -> (1 <= pad)%Z -> sane_box dim n bmin bmax -> levelset_on g l -> interp_defined ov dim ->
  near_box dim n bmin bmax x -> exists f, interpolate ov g x l lim = Ok f.
Proof. exact (interp64 ov dim n pad bmin bmax g l x lim). Qed.
Print Assumptions C103_interp_defined.

Example C103_case : exists g, built Wrap 1 five 1 (ivl (-1)) (ivl 1) g /\ sane_box 1 five (ivl (-1)) (ivl 1) /\
  levelset_on g (levelset_ctor g) /\ interp_defined Wrap 1 /\ near_box 1 five (ivl (-1)) (ivl 1) (ivl 1).
Proof.
  exists (grid5 (-1) 1). split; [apply grid5_built|]. split; [apply ivl_sane; lia|].
  split; [eapply fresh_levelset, grid5_built|]. split; [left; reflexivity|].
  intros a Hu. destruct a; try discriminate. cbv zeta. cbn [vget ivl vx five]. unfold spacing64, spacing.
  destruct (real_int (-1)) as (_ & ->); [lia|]. destruct (real_int 1) as (F & ->); [lia|]. split; [exact F|lra].
Qed.

(** C104: a semi-Lagrangian step in double arithmetic that moves no particle by more than three quarters of a cell
    completes, and writes only interior nodes. *)
Theorem C104_step_defined ov dim n bmin bmax (g : grid b64) dt lv l :
  built ov dim n 1 bmin bmax g -> sane_box dim n bmin bmax -> resolved dim n bmin bmax -> interp_defined ov dim ->
  levelset_on g l -> velocity_on g lv ->
  (forall i j k v, interior_cell n (i, j, k) -> aget ov g (lv_vel lv) i j k = Ok v -> slow dim n bmin bmax dt v) ->
  exists l', sl_compute ov g dt lv l = Ok l' /\ only_interior ov dim n 1 g l l'.
Proof. intros Hb Hs Hr Hd. exact (step64 ov dim n bmin bmax g Hb Hs dt lv l Hd Hr). Qed.
Print Assumptions C104_step_defined.

Example C104_case : exists g dt lv, built Wrap 1 five 1 (ivl (-1)) (ivl 1) g /\ sane_box 1 five (ivl (-1)) (ivl 1) /\
  resolved 1 five (ivl (-1)) (ivl 1) /\ levelset_on g (levelset_ctor g) /\ velocity_on g lv /\
  (forall i j k v, interior_cell five (i, j, k) -> aget Wrap g (lv_vel lv) i j k = Ok v -> slow 1 five (ivl (-1)) (ivl 1) dt v /\ real (vx v) = 1) /\ 0 < real dt.
Proof.
  assert (Q : is_finite (b64_make 1 (-2)) = true /\ real (b64_make 1 (-2)) = / 4) by (split; [reflexivity|vm_compute; lra]).
  exists (grid5 (-1) 1), (b64_make 1 (-2)), (wind (grid5 (-1) 1)). split; [apply grid5_built|]. split; [apply ivl_sane; lia|]. split; [apply ivl_resolved|].
  split; [eapply fresh_levelset, grid5_built|]. split; [apply wind_on|]. destruct (real_int 1) as (F & E1); [lia|]. destruct (real_int (-1)) as (_ & E2); [lia|]. split.
  - intros i j k v Hc Ev. rewrite (proj2 (wind_on (-1) 1) i j k v Hc Ev). split; [|exact E1]. intros a Hu. destruct a; try discriminate.
    cbn [vget ivl vx five]. unfold spacing64, spacing. rewrite E1, E2. destruct Q as (Q1 & Q2). rewrite Q2. split; [exact F|]. split; [exact Q1|]. rewrite Rabs_pos_eq; lra.
  - destruct Q as (_ & ->). lra.
Qed.

(** With exact arithmetic moving by a whole cell is allowed (the ghost layer is one cell wide). With double arithmetic
    it is not: the step can read outside the stored nodes. *)
Theorem C104_full_cell_refuted : ~ (forall ov dim n bmin bmax (g : grid b64) dt lv l,
  built ov dim n 1 bmin bmax g -> sane_box dim n bmin bmax -> resolved dim n bmin bmax -> interp_defined ov dim ->
  levelset_on g l -> velocity_on g lv ->
  (forall i j k v, interior_cell n (i, j, k) -> aget ov g (lv_vel lv) i j k = Ok v ->
     forall a, used dim a = true -> Rabs (real (vget v a) * real dt) <= spacing64 (vget bmin a) (vget bmax a) (vget n a)) ->
  exists l', sl_compute ov g dt lv l = Ok l').
Proof.
  intros H. destruct (H Wrap 1%nat five (ivl (-1)) (ivl 1) (grid5 (-1) 1) dt25 (wind (grid5 (-1) 1)) (levelset_ctor (grid5 (-1) 1))) as (l' & E).
  - apply grid5_built.
  - apply ivl_sane; lia.
  - apply ivl_resolved.
  - left; reflexivity.
  - eapply fresh_levelset, grid5_built.
  - apply wind_on.
  - intros i j k v Hc Ev a Hu. rewrite (proj2 (wind_on (-1) 1) i j k v Hc Ev). destruct a; try discriminate.
    cbn [vget ivl vx five]. unfold spacing64, spacing. destruct (real_int 1) as (_ & ->); [lia|]. destruct (real_int (-1)) as (_ & ->); [lia|].
    destruct dt25_real as (_ & B). rewrite Rmult_1_l, Rabs_pos_eq by lra. lra.
  - rewrite full_cell in E. discriminate.
Qed.
Print Assumptions C104_full_cell_refuted.
