(** Concrete level sets of doubles. *)
From Coq Require Import ZArith List Bool Lia Reals Lra.
From Flocq Require Import Core BinarySingleNaN.
From Verif Require Import Base Num NumB64 ModelVec ModelGrid ModelArray ModelInterp ModelTemporal SpecGrid SpecInterp SpecTemporal SpecB64 SpecRound
  ProofsBase ProofsArray ProofsGridProps ProofsB64 ProofsB64Ops ProofsB64Grid ProofsB64Interp ProofsB64Cases ProofsInterpApi.
Import ListNotations.
Open Scope R_scope.

(** the same value and gradient in every cell of a 1-D grid *)
Definition flat_ls {T} {NT : Num T} (g : grid T) (p : T) (s : vec3 T) : levelset T :=
  mkLS (array_ctor g p) (array_ctor g s) (array_ctor g []) (array_ctor g p) (array_ctor g s) (array_ctor g [])
    (array_ctor g p) (array_ctor g s).
Lemma flat_ls_on {T} {NT : Num T} ov n bmin bmax (g : grid T) p s : built ov 1 n 1 bmin bmax g -> levelset_on g (flat_ls g p s) /\
  forall i j k, padded_cell 1 n 1 (i, j, k) -> aget ov g (ls_phi_prev (flat_ls g p s)) i j k = Ok p /\
    aget ov g (ls_psi_prev (flat_ls g p s)) i j k = Ok s /\ aget ov g (ls_mix_prev (flat_ls g p s)) i j k = Ok [].
Proof.
  intros Hb. pose proof (fun A d => fresh_array (A := A) ov 1 n 1 bmin bmax g d Hb) as K. split.
  - split; try apply K. apply Forall_forall. intros m Hm. unfold flat_ls in Hm. cbn [ls_mix_prev array_ctor a_data] in Hm.
    apply repeat_spec in Hm. subst m. rewrite (bf_dim _ _ _ _ _ _ _ (built_ok _ _ _ _ _ _ _ Hb)). reflexivity.
  - intros i j k Hc. split; [|split]; apply K; exact Hc.
Qed.

(** value 1 and slope 1 on (-1,1) in 5 cells *)
Definition ones : cell -> cell_values := fun _ => CV 1 1 0 0 0 0 0 0.
Lemma ivl_reals z : (Z.abs z <= 2 ^ 53)%Z -> vget (reals (ivl z)) AX = IZR z.
Proof. intros H. apply real_int. exact H. Qed.
Lemma unit_spacing : spacing64 (vx (ivl (-1))) (vx (ivl 1)) 5 = 2 / 5.
Proof. unfold spacing64, spacing, ivl. cbn [vx]. destruct (real_int (-1)) as (_ & ->); [lia|]. destruct (real_int 1) as (_ & ->); [lia|]. field. Qed.
Lemma mod_half r : / 4 <= r <= 4 -> moderate r.
Proof.
  intros H. split.
  - apply Rle_trans with (bpow radix2 (-2)); [apply bpow_le; lia|]. change (bpow radix2 (-2)) with (/ 4). lra.
  - apply Rle_trans with (bpow radix2 2); [change (bpow radix2 2) with 4; lra|apply bpow_le; lia].
Qed.

Lemma ones_case : exists (g : grid b64) (l : levelset b64) (gR : grid R) (lR : levelset R),
  built Wrap 1 five 1 (ivl (-1)) (ivl 1) g /\ levelset_on g l /\ stores64 Wrap 1 five 1 g l ones /\
  built Wrap 1 five 1 (reals (ivl (-1))) (reals (ivl 1)) gR /\ levelset_on gR lR /\ stores Wrap 1 five 1 gR lR ones /\
  fine_box 1 (5 / 2) five (ivl (-1)) (ivl 1) /\ moderate 1 /\ sized 1 five 1 (spacings five (reals (ivl (-1))) (reals (ivl 1))) 1 ones.
Proof.
  pose proof (grid5_built (-1) 1) as Hb. destruct (built_1d (T := R) Wrap (reals (ivl (-1))) (reals (ivl 1))) as (gR & HbR). change (V3 5 1 1)%Z with five in HbR.
  destruct (stores_exists Wrap 1 five 1 _ _ gR ones HbR) as (lR & HlR & HSR).
  destruct (flat_ls_on Wrap five _ _ (grid5 (-1) 1) (b64_make 1 0) (ivl 1) Hb) as (Hl & Hg).
  destruct (real_int 1) as (F1 & E1); [lia|]. destruct (real_int (-1)) as (F2 & E2); [lia|].
  exists (grid5 (-1) 1), (flat_ls (grid5 (-1) 1) (b64_make 1 0) (ivl 1)), gR, lR.
  split; [exact Hb|]. split; [exact Hl|]. split.
  { intros i j k Hc. destruct (Hg i j k Hc) as (G1 & G2 & G3). cbv zeta. rewrite G1, G2, G3. split; [|split].
    - eexists. split; [reflexivity|]. split; [exact F1|exact E1].
    - eexists. split; [reflexivity|]. split; [split; [exact F1|exact E1]|]. split; discriminate.
    - eexists. split; [reflexivity|]. constructor. }
  split; [exact HbR|]. split; [exact HlR|]. split; [exact HSR|]. split.
  { split; [change (bpow radix2 30) with 1073741824; lra|]. intros [| |] Hu; try discriminate. cbn [vget five vx].
    split; [exact F2|]. split; [exact F1|]. split; [unfold ivl; cbn [vx]; rewrite E1, E2; lra|]. rewrite unit_spacing. split; [apply mod_half; lra|].
    unfold reach, ivl. cbn [vx]. rewrite E1, E2. unfold Rmax. destruct Rle_dec; unfold Rabs; destruct Rcase_abs; lra. }
  split; [apply mod_half; lra|].
  intros c Hc. cbn [ones cv cv_x]. rewrite Rabs_R1. split; [lra|]. split; [|split; discriminate].
  change (vx (spacings five (reals (ivl (-1))) (reals (ivl 1)))) with (spacing64 (vx (ivl (-1))) (vx (ivl 1)) 5). rewrite unit_spacing. lra.
Qed.

(** a step at rest loses a small gradient *)
Definition tiny : b64 := b64_make 1 (-60).
Definition still (g : grid b64) : ls_velocity b64 := mkLV (array_ctor g vzero) (array_ctor g mzero).
Definition tilt : levelset b64 := flat_ls (grid5 0 5) (b64_make 1 0) (V3 tiny (b64_make 0 0) (b64_make 0 0)).
Definition psi_sf (o : outcome (levelset b64)) : option SpecFloat.spec_float :=
  match o with Ok l => match aget Wrap (grid5 0 5) (ls_psi l) 2 0 0 with Ok s => Some (B2SF (vx s)) | _ => None end | _ => None end.
Lemma rest_loses : psi_sf (sl_compute Wrap (grid5 0 5) (b64_make 1 0) (still (grid5 0 5)) tilt) = Some (SpecFloat.S754_zero false).
Proof. vm_compute. reflexivity. Qed.

Lemma ctor_reads {A} ov (g : grid b64) (d : A) i j k x : aget ov g (array_ctor g d) i j k = Ok x -> x = d.
Proof.
  unfold aget. destruct (index ov g i j k) as [z| | |]; cbn [bind]; try discriminate. unfold array_ctor. cbn [a_data].
  unfold vread. destruct (Z.leb 0 z); try discriminate. destruct (nth_error _ (Z.to_nat z)) as [y|] eqn:E; try discriminate.
  intros H. assert (y = x) by congruence. subst y. apply nth_error_In, repeat_spec in E. exact E.
Qed.
Lemma rest_refuted : ~ (forall ov dim n bmin bmax (g : grid b64) dt lv l l' i j k s s',
  built ov dim n 1 bmin bmax g -> sane_box dim n bmin bmax -> resolved dim n bmin bmax -> interp_defined ov dim ->
  levelset_on g l -> velocity_on g lv ->
  (forall c v, aget ov g (lv_vel lv) (fst (fst c)) (snd (fst c)) (snd c) = Ok v -> v = vzero) ->
  (forall c m, aget ov g (lv_grad lv) (fst (fst c)) (snd (fst c)) (snd c) = Ok m -> m = mzero) ->
  sl_compute ov g dt lv l = Ok l' -> interior_cell n (i, j, k) ->
  aget ov g (ls_psi_prev l) i j k = Ok s -> aget ov g (ls_psi l') i j k = Ok s' -> real (vx s') = real (vx s)).
Proof.
  intros H.
  destruct (real_int 0) as (F0 & E0); [lia|]. destruct (real_int 5) as (F5 & E5); [lia|].
  assert (HS : sane_box 1 five (ivl 0) (ivl 5)) by (apply ivl_sane; lia).
  assert (HR : resolved 1 five (ivl 0) (ivl 5)).
  { intros [| |] Hu; try discriminate. cbn [vget five vx]. unfold reach, spacing64, spacing, ivl. cbn [vx]. rewrite E0, E5. rewrite Rabs_R0, Rabs_pos_eq by lra.
    unfold Rmax. change (bpow radix2 43) with 8796093022208. destruct Rle_dec; lra. }
  pose proof rest_loses as E. unfold psi_sf, tilt in E. pose proof (grid5_built 0 5) as Hb. set (g := grid5 0 5) in *. clearbody g.
  set (lo := ivl 0) in *. set (hi := ivl 5) in *. clearbody lo hi.
  assert (T : B2R tiny = bpow radix2 (-60)).
  { rewrite <- SF2R_B2SF. replace (B2SF tiny) with (SpecFloat.S754_finite false 4503599627370496 (-112)) by (vm_compute; reflexivity).
    unfold SF2R, F2R. cbn [Fnum Fexp cond_Zopp]. change 4503599627370496%Z with (2 ^ 52)%Z. rewrite (IZR_Zpower radix2) by lia. rewrite <- bpow_plus. reflexivity. }
  set (t := tiny) in *. set (one := b64_make 1 0) in *. set (o := b64_make 0 0) in *. clearbody t one o.
  destruct (sl_compute Wrap g one (still g) (flat_ls g one (V3 t o o))) as [l'| | |] eqn:El; try discriminate.
  destruct (aget Wrap g (ls_psi l') 2 0 0) as [s'| | |] eqn:Es; try discriminate.
  assert (E' : B2SF (vx s') = SpecFloat.S754_zero false) by congruence. clear E.
  destruct (flat_ls_on Wrap five _ _ g one (V3 t o o) Hb) as (Hl & Hg).
  pose proof (fun A d => fresh_array (A := A) Wrap 1 five 1 lo hi _ d Hb) as K.
  assert (R : real (vx s') = real t).
  { apply (H Wrap 1%nat five lo hi g one (still g) (flat_ls g one (V3 t o o)) l' 2%Z 0%Z 0%Z (V3 t o o) s' Hb HS HR); [left; reflexivity|exact Hl|..|exact El| | |exact Es].
    - split; apply K.
    - intros [[i j] k] v Ev. eapply ctor_reads; exact Ev.
    - intros [[i j] k] v Ev. eapply ctor_reads; exact Ev.
    - intros a. destruct a; cbn; lia.
    - apply Hg. intros a. destruct a; cbn; lia. }
  unfold real in R. rewrite <- (SF2R_B2SF _ _ (vx s')), E' in R. cbn [SF2R] in R.
  rewrite T in R. pose proof (bpow_gt_0 radix2 (-60)). lra.
Qed.
