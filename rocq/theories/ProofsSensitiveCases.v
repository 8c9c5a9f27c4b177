(** A case: samples of a product of sines in three dimensions, stored to twelve decimals, and a uniform wind. *)
From Coq Require Import ZArith List Reals Lra Lia Bool.
From Flocq Require Import Core BinarySingleNaN.
From Verif Require Import Base Num NumB64 ModelVec ModelGrid ModelArray ModelInterp ModelTemporal SpecGrid SpecInterp SpecGradient SpecTemporal SpecAccuracy SpecB64 SpecRound SpecSensitive
  ProofsBase ProofsGrid ProofsArray ProofsGridProps ProofsInterp ProofsInterpProps ProofsInterpApi ProofsTemporal ProofsAccuracy ProofsAccuracyStep
  ProofsB64 ProofsB64Ops ProofsB64Cases ProofsRoundCases ProofsRoundInterp ProofsRoundStep ProofsSensitive ProofsSensitiveStep.
Open Scope R_scope.

Definition near64 (r : R) : b64 := b64_make (ZnearestE (r * bpow radix2 40)) (-40).
Lemma near64_ok r : Rabs r <= 1 -> is_finite (near64 r) = true /\ Rabs (real (near64 r) - r) <= bpow radix2 (-41).
Proof.
  intros Hr. unfold near64. set (z := ZnearestE (r * bpow radix2 40)).
  assert (Z1 : Rabs (IZR z - r * bpow radix2 40) <= / 2) by (rewrite Rabs_minus_sym; apply Znearest_half).
  assert (B40 : bpow radix2 40 = 1099511627776) by reflexivity.
  assert (Zb : (Z.abs z < 2 ^ 53)%Z).
  { apply lt_IZR. rewrite abs_IZR. apply Rle_lt_trans with (Rabs (r * bpow radix2 40) + / 2).
    - replace (IZR z) with ((IZR z - r * bpow radix2 40) + r * bpow radix2 40) by ring. eapply Rle_trans; [apply Rabs_triang|]. lra.
    - rewrite Rabs_mult, (Rabs_pos_eq (bpow radix2 40)), B40 by apply bpow_ge_0. change (IZR (2 ^ 53)) with 9007199254740992. lra. }
  pose proof (binary_normalize_correct 53 1024 prec53 emax1024 mode_NE z (-40) false) as C. cbv zeta in C. cbn [round_mode] in C.
  assert (G : generic_format radix2 fe (F2R (Float radix2 z (-40)))).
  { apply (generic_format_FLT radix2 (-1074) 53). exists (Float radix2 z (-40)); [reflexivity|cbn [Fnum]; change (Zaux.radix_val radix2) with 2%Z; lia|cbn; lia]. }
  rewrite (RN_id _ G) in C.
  assert (EF : F2R (Float radix2 z (-40)) = IZR z * / 1099511627776) by reflexivity.
  assert (D : Rabs (F2R (Float radix2 z (-40)) - r) <= bpow radix2 (-41)).
  { rewrite EF. replace (IZR z * / 1099511627776 - r) with ((IZR z - r * bpow radix2 40) * / 1099511627776) by (rewrite B40; field).
    rewrite Rabs_mult, (Rabs_pos_eq (/ 1099511627776)) by lra. change (bpow radix2 (-41)) with (/ 2199023255552). lra. }
  rewrite Rlt_bool_true in C.
  - destruct C as (C1 & C2 & _). split; [exact C2|]. unfold real. change (B2R (b64_make z (-40))) with (B2R (binary_normalize 53 1024 prec53 emax1024 mode_NE z (-40) false)). rewrite C1. exact D.
  - apply Rle_lt_trans with 2; [|change 2 with (bpow radix2 1); apply bpow_lt; lia].
    replace (F2R (Float radix2 z (-40))) with ((F2R (Float radix2 z (-40)) - r) + r) by ring. eapply Rle_trans; [apply Rabs_triang|].
    change (bpow radix2 (-41)) with (/ 2199023255552) in D. lra.
Qed.
(** every entry of a cell stored this way *)
Definition cv_map (f : R -> R) (s : cell_values) : cell_values :=
  CV (f (cv s)) (f (cv_x s)) (f (cv_y s)) (f (cv_z s)) (f (cv_xy s)) (f (cv_yz s)) (f (cv_zx s)) (f (cv_xyz s)).
Definition cv_all (P : R -> Prop) (s : cell_values) : Prop :=
  P (cv s) /\ P (cv_x s) /\ P (cv_y s) /\ P (cv_z s) /\ P (cv_xy s) /\ P (cv_yz s) /\ P (cv_zx s) /\ P (cv_xyz s).
Definition held (r : R) : R := real (near64 r).

Lemma held_exists ov n bmin bmax (g : grid b64) (S : cell -> cell_values) : built ov 3 n 1 bmin bmax g ->
  (forall c, cv_all (fun r => Rabs r <= 1) (S c)) -> exists l, levelset_on g l /\ stores64 ov 3 n 1 g l (fun c => cv_map held (S c)).
Proof.
  intros Hb HS. pose proof (built_ok _ _ _ _ _ _ _ Hb) as F. pose proof (bf_ok _ _ _ _ _ _ _ F) as Hg.
  destruct (array_of ov g (fun c => near64 (cv (S c))) Hg) as (a1 & S1 & P1 & _).
  destruct (array_of ov g (fun c => V3 (near64 (cv_x (S c))) (near64 (cv_y (S c))) (near64 (cv_z (S c)))) Hg) as (a2 & S2 & P2 & _).
  destruct (array_of ov g (fun c => map near64 [cv_xy (S c); cv_yz (S c); cv_zx (S c); cv_xyz (S c)]) Hg) as (a3 & S3 & P3 & F3).
  exists (mkLS a1 a2 a3 a1 a2 a3 a1 a2). split.
  - pose proof (fun A a => proj2 (array_on_shaped (A := A) _ _ _ _ _ _ _ a Hb)) as K.
    split; cbn [ls_phi ls_psi ls_mix ls_phi_prev ls_psi_prev ls_mix_prev ls_phi_interp ls_psi_interp]; auto.
    eapply Forall_impl; [|exact F3]. intros x (c & ->). rewrite (bf_dim _ _ _ _ _ _ _ F). reflexivity.
  - intros i j k Hp. cbv zeta. cbn [ls_phi_prev ls_psi_prev ls_mix_prev].
    assert (Hc : gcell g (i, j, k)) by (apply (built_gcell _ _ _ _ _ _ _ _ Hb); exact Hp).
    rewrite !(aget_peek_c ov) by auto. rewrite P1, P2, P3 by auto. destruct (HS (i, j, k)) as (B1 & B2 & B3 & B4 & B5 & B6 & B7 & B8).
    assert (I : forall r, Rabs r <= 1 -> is_real (near64 r) (held r)) by (intros r Hr; split; [apply near64_ok; exact Hr|reflexivity]).
    cbn [cv_map cv cv_x cv_y cv_z cv_xy cv_yz cv_zx cv_xyz]. split; [|split].
    + eexists. split; [reflexivity|]. apply I; assumption.
    + eexists. split; [reflexivity|]. cbn [vx vy vz]. split; [apply I; assumption|]. split; intros _; apply I; assumption.
    + eexists. split; [reflexivity|]. cbn [map]. repeat (constructor; [apply I; assumption|]). constructor.
Qed.

Definition n234 : vec3 Z := (V3 2 3 4)%Z.
Definition cube64 (z : Z) : vec3 b64 := V3 (b64_make z 0) (b64_make z 0) (b64_make z 0).
Definition breeze : vec3 b64 := V3 (b64_make 1 (-3)) (b64_make 1 (-3)) (b64_make 1 (-3)).
Definition still_air : mat3 b64 := mzero.
Definition glide (c : cell) (a : axis) (t : R) : R := vget (centre_pos 3 n234 (reals (cube64 (-1))) (reals (cube64 1)) c) a - (1 - t) / 8.

Lemma cubes : reals (cube64 1) = V3 1 1 1 /\ reals (cube64 (-1)) = V3 (-1) (-1) (-1).
Proof. destruct (real_int 1) as (F1 & E1); [lia|]. destruct (real_int (-1)) as (F2 & E2); [lia|]. unfold reals, cube64. cbn [vx vy vz]. rewrite E1, E2. auto. Qed.
Lemma cube_spacings : spacings n234 (reals (cube64 (-1))) (reals (cube64 1)) = V3 1 (2 / 3) (/ 2).
Proof. destruct cubes as (-> & ->). unfold spacings, spacing, n234. cbn [vx vy vz]. f_equal; field. Qed.
Lemma cube_fine : fine_box 3 2 n234 (cube64 (-1)) (cube64 1).
Proof.
  destruct (real_int 1) as (F1 & E1); [lia|]. destruct (real_int (-1)) as (F2 & E2); [lia|].
  split; [change (bpow radix2 30) with 1073741824; lra|]. intros a _.
  assert (EH : spacing64 (vget (cube64 (-1)) a) (vget (cube64 1) a) (vget n234 a) = vget (V3 1 (2 / 3) (/ 2)) a).
  { unfold spacing64, spacing. destruct a; cbn [vget cube64 n234 vx vy vz]; rewrite E1, E2; field. }
  assert (EA : vget (cube64 (-1)) a = b64_make (-1) 0 /\ vget (cube64 1) a = b64_make 1 0) by (destruct a; auto). destruct EA as (EA1 & EA2).
  assert (EB : / 2 <= vget (V3 1 (2 / 3) (/ 2)) a <= 1) by (destruct a; cbn [vget vx vy vz]; lra).
  unfold fine_axis. rewrite EH. rewrite EA1, EA2. split; [exact F2|]. split; [exact F1|]. split; [rewrite E1, E2; lra|]. split.
  - split.
    + apply Rle_trans with (bpow radix2 (-1)); [apply bpow_le; lia|]. change (bpow radix2 (-1)) with (/ 2). lra.
    + apply Rle_trans with (bpow radix2 0); [change (bpow radix2 0) with 1; lra|apply bpow_le; lia].
  - unfold reach. rewrite E1, E2. unfold Rmax. destruct Rle_dec; unfold Rabs; destruct Rcase_abs; lra.
Qed.
Lemma good_234 : good_sizes 3 n234 1. Proof. exact good_3d1. Qed.

Lemma jet_one c : cv_all (fun r => Rabs r <= 1) (jet sin3 c).
Proof. unfold cv_all, jet. cbn [cv cv_x cv_y cv_z cv_xy cv_yz cv_zx cv_xyz]. repeat split; apply sin3_bound. Qed.

Lemma sized_all h A S n pad : 0 <= A -> vx h = 1 -> vy h = 2 / 3 -> vz h = / 2 -> (forall c, cv_all (fun r => Rabs r <= A) (S c)) -> sized 3 n pad h A S.
Proof.
  intros HA E1 E2 E3 H c _. destruct (H c) as (B1 & B2 & B3 & B4 & B5 & B6 & B7 & B8). rewrite E1, E2, E3.
  assert (K : forall r w, Rabs r <= A -> 0 <= w <= 1 -> Rabs r * w <= A).
  { intros r w Hr Hw. replace A with (A * 1) by ring. apply Rmult_le_compat; [apply Rabs_pos| | |]; lra. }
  cbv zeta. repeat split; intros; try (apply K; [assumption|lra]); assumption.
Qed.

Lemma sin_case : exists (g : grid b64) (l : levelset b64) (lv : ls_velocity b64),
  let lo := reals (cube64 (-1)) in let hi := reals (cube64 1) in let h := spacings n234 lo hi in
  let pos := centre_pos 3 n234 lo hi in let S c := cv_map held (jet sin3 (pos c)) in let dt := b64_make 1 0 in
  built Wrap 3 n234 1 (cube64 (-1)) (cube64 1) g /\ levelset_on g l /\ stores64 Wrap 3 n234 1 g l S /\
  interp_defined Wrap 3 /\ fine_box 3 2 n234 (cube64 (-1)) (cube64 1) /\ moderate 2 /\ sized 3 n234 1 h 2 S /\
  smooth sin3 /\ (forall i j k p, (i <= 4)%nat -> (j <= 4)%nat -> (k <= 4)%nat -> centre_box 3 n234 lo hi p -> Rabs (sin3 i j k (vx p) (vy p) (vz p)) <= 1) /\
  sized 3 n234 1 h (bpow radix2 (-41)) (fun c => cv_minus (S c) (jet sin3 (pos c))) /\
  velocity_on g lv /\ slow_flow Wrap 3 n234 (cube64 (-1)) (cube64 1) dt g lv /\ moderate (/ 2) /\ (forall a, used 3 a = true -> / 2 <= vget h a) /\ 0 <= real dt /\
  (forall i j k v, interior_cell n234 (i, j, k) -> aget Wrap g (lv_vel lv) i j k = Ok v ->
     arrives 3 (real dt) (glide (i, j, k)) (fun _ _ => / 8) (fun _ _ => 0) (pos (i, j, k)) (reals v) 0 /\ centre_box 3 n234 lo hi (start 3 (glide (i, j, k)))).
Proof.
  destruct (built_exists (T := b64) Wrap 3 n234 1 (cube64 (-1)) (cube64 1) good_234 I) as (g & Hb).
  destruct (held_exists Wrap n234 _ _ g (fun c => jet sin3 (centre_pos 3 n234 (reals (cube64 (-1))) (reals (cube64 1)) c)) Hb (fun c => jet_one _)) as (l & Hl & HS).
  pose proof (fun A d => fresh_array (A := A) _ _ _ _ _ _ g d Hb) as K.
  exists g, l, (mkLV (array_ctor g breeze) (array_ctor g still_air)). cbv zeta.
  destruct (real_int 1) as (F1 & E1); [lia|]. destruct (real_int 0) as (F0 & E0); [lia|].
  assert (BV : is_finite (b64_make 1 (-3)) = true /\ real (b64_make 1 (-3)) = / 8) by (split; [reflexivity|vm_compute; lra]). destruct BV as (FB & EB).
  assert (PAD : forall c, interior_cell n234 c -> padded_cell 3 n234 1 c) by (intros c Hc; eapply interior_padded; [exact good_234|exact Hc]).
  assert (HH : forall r, Rabs r <= 1 -> Rabs (held r - r) <= bpow radix2 (-41)) by (intros r Hr; apply near64_ok; exact Hr).
  assert (MO : forall r, / 2 <= r <= 2 -> moderate r).
  { intros r Hr. split.
    - apply Rle_trans with (bpow radix2 (-1)); [apply bpow_le; lia|]. change (bpow radix2 (-1)) with (/ 2). lra.
    - apply Rle_trans with (bpow radix2 1); [change (bpow radix2 1) with 2; lra|apply bpow_le; lia]. }
  split; [exact Hb|]. split; [exact Hl|]. split; [exact HS|]. split; [left; reflexivity|]. split; [exact cube_fine|]. split; [apply MO; lra|].
  rewrite cube_spacings. split; [|split; [exact sin3_smooth|split; [intros; apply sin3_bound|split]]].
  { apply sized_all; try reflexivity; [lra|]. intros c. destruct (jet_one (centre_pos 3 n234 (reals (cube64 (-1))) (reals (cube64 1)) c)) as (B1 & B2 & B3 & B4 & B5 & B6 & B7 & B8).
    assert (Q : forall r, Rabs r <= 1 -> Rabs (held r) <= 2).
    { intros r Hr. pose proof (HH r Hr) as Hq. change (bpow radix2 (-41)) with (/ 2199023255552) in Hq. replace (held r) with ((held r - r) + r) by ring. eapply Rle_trans; [apply Rabs_triang|]. lra. }
    unfold cv_all. cbn [cv_map cv cv_x cv_y cv_z cv_xy cv_yz cv_zx cv_xyz]. repeat split; apply Q; assumption. }
  { apply sized_all; try reflexivity; [apply bpow_ge_0|]. intros c. destruct (jet_one (centre_pos 3 n234 (reals (cube64 (-1))) (reals (cube64 1)) c)) as (B1 & B2 & B3 & B4 & B5 & B6 & B7 & B8).
    unfold cv_all. cbn [cv_minus cv_map cv cv_x cv_y cv_z cv_xy cv_yz cv_zx cv_xyz]. repeat split; apply HH; assumption. }
  split; [split; apply K|]. split; [|split; [apply MO; lra|split; [intros [| |] _; cbn [vget vx vy vz]; lra|split; [rewrite E1; lra|]]]].
  { intros i j k Hi. exists breeze, still_air. cbn [lv_vel lv_grad]. split; [apply K, PAD, Hi|]. split; [apply K, PAD, Hi|]. split.
    - intros a _. replace (vget breeze a) with (b64_make 1 (-3)) by (destruct a; reflexivity). split; [exact FB|]. split; [exact F1|]. rewrite EB, E1.
      replace (spacing64 (vget (cube64 (-1)) a) (vget (cube64 1) a) (vget n234 a)) with (vget (spacings n234 (reals (cube64 (-1))) (reals (cube64 1))) a) by (destruct a; reflexivity).
      rewrite cube_spacings, Rabs_pos_eq by lra. destruct a; cbn [vget vx vy vz]; lra.
    - intros a b. replace (mget still_air a b) with (b64_make 0 0) by (destruct a, b; reflexivity). split; [exact F0|]. rewrite E0, Rmult_0_l, Rabs_R0. lra. }
  intros i j k v Hi Ev. cbn [lv_vel] in Ev. rewrite (proj2 (K _ breeze) i j k (PAD _ Hi)) in Ev. assert (v = breeze) by congruence. subst v. split.
  - intros a _. replace (vget (reals breeze) a) with (/ 8) by (destruct a; cbn [vget reals breeze vx vy vz]; rewrite EB; reflexivity). split; [|split; [unfold glide; rewrite E1; field|reflexivity]].
    intros t _. split; [|split; [apply derivable_pt_lim_const|rewrite Rabs_R0; lra]].
    unfold glide. set (z := vget (centre_pos 3 n234 (reals (cube64 (-1))) (reals (cube64 1)) (i, j, k)) a). clearbody z.
    apply derivable_pt_lim_ext with (f := fun s => / 8 * s + (z - / 8)); [intros; field|].
    assert (D : derivable_pt_lim (fun s => / 8 * s + (z - / 8)) t (/ 8 * 1 + 0)).
    { apply (derivable_pt_lim_plus (fun s => / 8 * s) (fun _ => z - / 8)); [apply (derivable_pt_lim_scal id), derivable_pt_lim_id|apply derivable_pt_lim_const]. }
    replace (/ 8 * 1 + 0) with (/ 8) in D by ring. exact D.
  - intros a. cbv zeta. replace (used 3 a) with true by (destruct a; reflexivity).
    replace (vget (start 3 (glide (i, j, k))) a) with (glide (i, j, k) a 0) by (destruct a; reflexivity). unfold glide. rewrite centre_coord.
    replace (used 3 a) with true by (destruct a; reflexivity). unfold centre.
    replace (spacing (vget (reals (cube64 (-1))) a) (vget (reals (cube64 1)) a) (vget n234 a)) with (vget (spacings n234 (reals (cube64 (-1))) (reals (cube64 1))) a) by (destruct a; reflexivity).
    rewrite cube_spacings. destruct cubes as (-> & ->). specialize (Hi a). cbv zeta in Hi.
    assert (L1 : 0 <= IZR (ccoord (i, j, k) a)) by (apply IZR_le; lia).
    assert (L2 : IZR (ccoord (i, j, k) a) + 1 <= IZR (vget n234 a)) by (rewrite <- plus_IZR; apply IZR_le; lia).
    destruct a; cbn [vget vx vy vz n234] in *; lra.
Qed.

(** the same field with one added to every value *)
Definition raised (s : cell_values) : cell_values := CV (cv s + 1) (cv_x s) (cv_y s) (cv_z s) (cv_xy s) (cv_yz s) (cv_zx s) (cv_xyz s).
Lemma raised_case : exists (g : grid R) (l l' : levelset R) (lv : ls_velocity R),
  let n := (V3 4 3 1)%Z in let S c := jet sin3 (centre_pos 2 n lo1 hi1 c) in
  built Wrap 2 n 1 lo1 hi1 g /\ levelset_on g l /\ levelset_on g l' /\ velocity_on g lv /\ proper_box 2 lo1 hi1 /\ interp_defined Wrap 2 /\
  stores Wrap 2 n 1 g l S /\ stores Wrap 2 n 1 g l' (fun c => raised (S c)) /\
  sized 2 n 1 (spacings n lo1 hi1) 1 (fun c => cv_minus (raised (S c)) (S c)) /\
  (forall i j k p v, interior_cell n (i, j, k) -> node Wrap g i j k = Ok p -> aget Wrap g (lv_vel lv) i j k = Ok v -> in_lattice 2 n lo1 hi1 (foot (/ 10) v p)).
Proof.
  destruct c99_case as (g & lv & l & X & X1 & X2 & Hb & Hl & Hv & Hp & Hd & _ & _ & HS & HX).
  destruct (stores_exists _ _ _ _ _ _ g (fun c => raised (jet sin3 (centre_pos 2 (V3 4 3 1)%Z lo1 hi1 c))) Hb) as (l' & Hl' & HS').
  exists g, l, l', lv. cbv zeta. repeat (split; [assumption|]). split; [|intros i j k p v Hi Np Ev; exact (proj1 (HX i j k p v Hi Np Ev))].
  intros c _. cbv zeta. cbn [cv_minus raised cv cv_x cv_y cv_z cv_xy cv_yz cv_zx cv_xyz].
  assert (Z : forall r w, Rabs (r - r) * w <= 1) by (intros r w; rewrite Rminus_diag_eq, Rabs_R0, Rmult_0_l by reflexivity; lra).
  split; [|split; [apply Z|split; [intros _; split; apply Z|intros _; repeat split; apply Z]]].
  match goal with |- Rabs ?e <= 1 => replace e with 1 by ring end. rewrite Rabs_R1. lra.
Qed.
