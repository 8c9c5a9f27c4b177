(** How far interpolation and the semi-Lagrangian step in double arithmetic are from the same
    program run in exact arithmetic. *)
From Coq Require Import ZArith List Bool Lia Reals Lra.
From Flocq Require Import Core BinarySingleNaN.
From Verif Require Import Base Num NumB64 ModelVec ModelGrid ModelArray ModelInterp ModelTemporal SpecGrid SpecInterp SpecTemporal SpecB64 SpecRound
  ProofsArray ProofsGridProps ProofsB64Interp ProofsB64Cases ProofsRoundStep ProofsRoundRest ProofsRoundCases.
Open Scope R_scope.

(** C115: run interpolation in double on finite data, and the same program with real arithmetic on the same box,
    with the same data, at the same position or one within rounding error of it. Both return, the result in double
    is finite, and value and gradient differ from the exact ones by at most rho 2^(4 dim - 38) M, respectively
    rho 2^(4 dim - 38) M / h, where M bounds the data (derivatives multiplied by the spacings) and rho is the
    distance of the box from the origin in cells. *)
Theorem C115_interp_rounding ov dim n bmin bmax (g : grid b64) l (gR : grid R) lR S M rho x xR :
  built ov dim n 1 bmin bmax g -> levelset_on g l -> stores64 ov dim n 1 g l S ->
  built ov dim n 1 (reals bmin) (reals bmax) gR -> levelset_on gR lR -> stores ov dim n 1 gR lR S ->
  interp_defined ov dim -> fine_box dim rho n bmin bmax -> moderate M ->
  sized dim n 1 (spacings n (reals bmin) (reals bmax)) M S ->
  near_box dim n bmin bmax x -> near_point dim bmin bmax x xR ->
  exists f fR, interpolate ov g x l false = Ok f /\ interpolate ov gR xR lR false = Ok fR /\
    is_finite (f_phi f) = true /\ Rabs (real (f_phi f) - f_phi fR) <= round_bound dim rho * M /\
    forall a, used dim a = true -> is_finite (vget (f_psi f) a) = true /\
      Rabs (real (vget (f_psi f) a) - vget (f_psi fR) a)
        <= round_bound dim rho * (M / vget (spacings n (reals bmin) (reals bmax)) a).
Proof. exact (fun Hb Hl HS HbR HlR HSR Hd Hf HM Hz => interp_bound ov dim n bmin bmax g l gR lR S M rho Hb HbR Hl HlR Hd Hf HS HSR HM Hz x xR). Qed.
Print Assumptions C115_interp_rounding.

Example C115_case : exists (g : grid b64) l (gR : grid R) lR x,
  built Wrap 1 five 1 (ivl (-1)) (ivl 1) g /\ levelset_on g l /\ stores64 Wrap 1 five 1 g l ones /\
  built Wrap 1 five 1 (reals (ivl (-1))) (reals (ivl 1)) gR /\ levelset_on gR lR /\ stores Wrap 1 five 1 gR lR ones /\
  interp_defined Wrap 1 /\ fine_box 1 (5 / 2) five (ivl (-1)) (ivl 1) /\ moderate 1 /\
  sized 1 five 1 (spacings five (reals (ivl (-1))) (reals (ivl 1))) 1 ones /\
  near_box 1 five (ivl (-1)) (ivl 1) x /\ near_point 1 (ivl (-1)) (ivl 1) x (V3 1 0 0).
Proof.
  destruct ones_case as (g & l & gR & lR & H1 & H2 & H3 & H4 & H5 & H6 & H7 & H8 & H9). exists g, l, gR, lR, (ivl 1).
  repeat (split; [assumption|]). split; [left; reflexivity|]. repeat (split; [assumption|]).
  destruct (real_int 1) as (F1 & E1); [lia|]. destruct (real_int (-1)) as (F2 & E2); [lia|]. split.
  - intros [| |] Hu; try discriminate. cbv zeta. cbn [vget five vx]. rewrite unit_spacing. unfold ivl. cbn [vx]. rewrite E1, E2. split; [exact F1|lra].
  - intros [| |] Hu; try discriminate. cbn [vget vx ivl]. rewrite E1, E2 || rewrite E1. replace (1 - 1) with 0 by ring. rewrite Rabs_R0.
    apply Rmult_le_pos; [apply bpow_ge_0|]. destruct (reach_ok (b64_make (-1) 0) (b64_make 1 0)) as (K & _). pose proof (Rabs_pos (B2R (b64_make (-1) 0))). lra.
Qed.

(** C116: one semi-Lagrangian step in double and in exact arithmetic, with the same data and the same velocity, no
    particle moving by more than three quarters of a cell. Both complete; in every interior cell the new value in
    double is finite and within rho 2^(4 dim - 38) M of the exact one, and each component of the new gradient within
    8 rho 2^(4 dim - 38) M / hm, where hm is at most the spacing on every used axis. *)
Theorem C116_step_rounding ov dim n bmin bmax (g : grid b64) l (gR : grid R) lR S M rho lv lvR dt hm :
  built ov dim n 1 bmin bmax g -> levelset_on g l -> stores64 ov dim n 1 g l S ->
  built ov dim n 1 (reals bmin) (reals bmax) gR -> levelset_on gR lR -> stores ov dim n 1 gR lR S ->
  interp_defined ov dim -> fine_box dim rho n bmin bmax -> moderate M ->
  sized dim n 1 (spacings n (reals bmin) (reals bmax)) M S ->
  velocity_on g lv -> velocity_on gR lvR -> same_velocity ov dim n bmin bmax dt g lv gR lvR ->
  moderate hm -> (forall a, used dim a = true -> hm <= vget (spacings n (reals bmin) (reals bmax)) a) ->
  exists l' lR', sl_compute ov g dt lv l = Ok l' /\ sl_compute ov gR (real dt) lvR lR = Ok lR' /\
    forall i j k, interior_cell n (i, j, k) ->
      (exists p pR, aget ov g (ls_phi l') i j k = Ok p /\ aget ov gR (ls_phi lR') i j k = Ok pR /\
         is_finite p = true /\ Rabs (real p - pR) <= round_bound dim rho * M) /\
      (exists s sR, aget ov g (ls_psi l') i j k = Ok s /\ aget ov gR (ls_psi lR') i j k = Ok sR /\
         forall a, used dim a = true -> is_finite (vget s a) = true /\
           Rabs (real (vget s a) - vget sR a) <= 8 * round_bound dim rho * (M / hm)).
Proof. exact (fun Hb Hl HS HbR HlR HSR Hd Hf HM Hz => step_bound ov dim n bmin bmax g l gR lR S M rho Hb HbR Hl HlR Hd Hf HS HSR HM Hz lv lvR dt hm). Qed.
Print Assumptions C116_step_rounding.

Example C116_case : exists (g : grid b64) l (gR : grid R) lR lv lvR dt,
  built Wrap 1 five 1 (ivl (-1)) (ivl 1) g /\ levelset_on g l /\ stores64 Wrap 1 five 1 g l ones /\
  built Wrap 1 five 1 (reals (ivl (-1))) (reals (ivl 1)) gR /\ levelset_on gR lR /\ stores Wrap 1 five 1 gR lR ones /\
  interp_defined Wrap 1 /\ fine_box 1 (5 / 2) five (ivl (-1)) (ivl 1) /\ moderate 1 /\
  sized 1 five 1 (spacings five (reals (ivl (-1))) (reals (ivl 1))) 1 ones /\
  velocity_on g lv /\ velocity_on gR lvR /\ same_velocity Wrap 1 five (ivl (-1)) (ivl 1) dt g lv gR lvR /\
  moderate (2 / 5) /\ (forall a, used 1 a = true -> 2 / 5 <= vget (spacings five (reals (ivl (-1))) (reals (ivl 1))) a) /\
  (forall v, aget Wrap g (lv_vel lv) 2 0 0 = Ok v -> real (vx v) * real dt = / 4).
Proof.
  destruct ones_case as (g & l & gR & lR & H1 & H2 & H3 & H4 & H5 & H6 & H7 & H8 & H9).
  assert (Q : is_finite (b64_make 1 (-2)) = true /\ real (b64_make 1 (-2)) = / 4) by (split; [reflexivity|vm_compute; lra]). destruct Q as (Q1 & Q2).
  destruct (real_int 1) as (F1 & E1); [lia|]. destruct (real_int (-1)) as (F2 & E2); [lia|]. destruct (real_int 0) as (F0 & E0); [lia|].
  pose proof (fun A d => fresh_array (A := A) _ _ _ _ _ _ g d H1) as K. pose proof (fun A d => fresh_array (A := A) _ _ _ _ _ _ gR d H4) as KR.
  exists g, l, gR, lR, (mkLV (array_ctor g (ivl 1)) (array_ctor g mzero)), (mkLV (array_ctor gR (reals (ivl 1))) (array_ctor gR (mreals mzero))), (b64_make 1 (-2)).
  repeat (split; [assumption|]). split; [left; reflexivity|]. repeat (split; [assumption|]).
  split; [split; apply K|]. split; [split; apply KR|]. split.
  { intros i j k Hc. assert (Hp : padded_cell 1 five 1 (i, j, k)) by (eapply interior_padded; [apply good_1d|exact Hc]).
    cbn [lv_vel lv_grad]. split.
    - exists (ivl 1), (reals (ivl 1)). split; [apply K; exact Hp|]. split; [apply KR; exact Hp|]. split; [|intros [| |] _; reflexivity].
      intros [| |] Hu; try discriminate. cbn [vget five vx]. rewrite unit_spacing. unfold ivl. cbn [vx]. rewrite E1, Q2. split; [exact F1|]. split; [exact Q1|]. rewrite Rabs_pos_eq; lra.
    - exists mzero. split; [apply K; exact Hp|]. split; [apply KR; exact Hp|]. intros a b.
      assert (E : mget (mzero : mat3 b64) a b = b64_make 0 0) by (destruct a, b; reflexivity). rewrite E. split; [exact F0|]. rewrite E0, Rmult_0_l, Rabs_R0. lra. }
  split; [apply mod_half; lra|]. split.
  { intros [| |] Hu; try discriminate. cbn [vget]. change (vx (spacings five (reals (ivl (-1))) (reals (ivl 1)))) with (spacing64 (vx (ivl (-1))) (vx (ivl 1)) 5). rewrite unit_spacing. lra. }
  intros v Ev. cbn [lv_vel] in Ev. rewrite (proj2 (K _ (ivl 1))) in Ev.
  - replace v with (ivl 1) by congruence. unfold ivl. cbn [vx]. rewrite E1, Q2. lra.
  - intros a. destruct a; cbn; lia.
Qed.

(** C117: a step in double in a fluid at rest changes the value at an interior node by at most rho 2^(4 dim - 38) M and
    the gradient by at most 8 rho 2^(4 dim - 38) M / hm. The full statement, that it changes nothing as with exact
    arithmetic, is false: see C117_rest_refuted. *)
Theorem C117_rest_partial ov dim n bmin bmax (g : grid b64) l S M rho lv dt hm :
  built ov dim n 1 bmin bmax g -> levelset_on g l -> stores64 ov dim n 1 g l S -> interp_defined ov dim ->
  fine_box dim rho n bmin bmax -> moderate M -> sized dim n 1 (spacings n (reals bmin) (reals bmax)) M S ->
  velocity_on g lv -> is_finite dt = true ->
  (forall i j k, interior_cell n (i, j, k) -> aget ov g (lv_vel lv) i j k = Ok vzero /\ aget ov g (lv_grad lv) i j k = Ok mzero) ->
  moderate hm -> (forall a, used dim a = true -> hm <= vget (spacings n (reals bmin) (reals bmax)) a) ->
  exists l', sl_compute ov g dt lv l = Ok l' /\
    forall i j k, interior_cell n (i, j, k) ->
      (exists p0 p, aget ov g (ls_phi_prev l) i j k = Ok p0 /\ aget ov g (ls_phi l') i j k = Ok p /\
         Rabs (real p - real p0) <= round_bound dim rho * M) /\
      (exists s0 s, aget ov g (ls_psi_prev l) i j k = Ok s0 /\ aget ov g (ls_psi l') i j k = Ok s /\
         forall a, used dim a = true -> Rabs (real (vget s a) - real (vget s0 a)) <= 8 * round_bound dim rho * (M / hm)).
Proof. exact (rest_bound ov dim n bmin bmax g l S M rho lv dt hm). Qed.
Print Assumptions C117_rest_partial.

Example C117_case : exists (g : grid b64) l lv (dt : b64),
  built Wrap 1 five 1 (ivl (-1)) (ivl 1) g /\ levelset_on g l /\ stores64 Wrap 1 five 1 g l ones /\ interp_defined Wrap 1 /\
  fine_box 1 (5 / 2) five (ivl (-1)) (ivl 1) /\ moderate 1 /\
  sized 1 five 1 (spacings five (reals (ivl (-1))) (reals (ivl 1))) 1 ones /\ velocity_on g lv /\ is_finite dt = true /\
  (forall i j k, interior_cell five (i, j, k) -> aget Wrap g (lv_vel lv) i j k = Ok vzero /\ aget Wrap g (lv_grad lv) i j k = Ok mzero) /\
  moderate (2 / 5) /\ (forall a, used 1 a = true -> 2 / 5 <= vget (spacings five (reals (ivl (-1))) (reals (ivl 1))) a).
Proof.
  destruct ones_case as (g & l & gR & lR & H1 & H2 & H3 & H4 & H5 & H6 & H7 & H8 & H9). exists g, l, (still g), (b64_make 1 0).
  pose proof (fun A d => fresh_array (A := A) _ _ _ _ _ _ g d H1) as K.
  repeat (split; [assumption|]). split; [left; reflexivity|]. repeat (split; [assumption|]).
  split; [split; apply K|]. split; [apply real_int; lia|]. split.
  { intros i j k Hc. assert (Hp : padded_cell 1 five 1 (i, j, k)) by (eapply interior_padded; [apply good_1d|exact Hc]). split; apply K; exact Hp. }
  split; [apply mod_half; lra|].
  intros [| |] Hu; try discriminate. cbn [vget]. change (vx (spacings five (reals (ivl (-1))) (reals (ivl 1)))) with (spacing64 (vx (ivl (-1))) (vx (ivl 1)) 5). rewrite unit_spacing. lra.
Qed.

(** In double a step at rest can lose the whole gradient: value 1 and slope 2^-60 everywhere, and after the step the
    slope at an interior node is 0. *)
Theorem C117_rest_refuted : ~ (forall ov dim n bmin bmax (g : grid b64) dt lv l l' i j k s s',
  built ov dim n 1 bmin bmax g -> sane_box dim n bmin bmax -> resolved dim n bmin bmax -> interp_defined ov dim ->
  levelset_on g l -> velocity_on g lv ->
  (forall c v, aget ov g (lv_vel lv) (fst (fst c)) (snd (fst c)) (snd c) = Ok v -> v = vzero) ->
  (forall c m, aget ov g (lv_grad lv) (fst (fst c)) (snd (fst c)) (snd c) = Ok m -> m = mzero) ->
  sl_compute ov g dt lv l = Ok l' -> interior_cell n (i, j, k) ->
  aget ov g (ls_psi_prev l) i j k = Ok s -> aget ov g (ls_psi l') i j k = Ok s' -> real (vx s') = real (vx s)).
Proof. exact rest_refuted. Qed.
Print Assumptions C117_rest_refuted.
