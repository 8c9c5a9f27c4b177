(** Concrete grids in double arithmetic. *)
From Coq Require Import ZArith List Bool Lia Reals Lra.
From Flocq Require Import Core BinarySingleNaN.
From Verif Require Import Base Num NumB64 ModelVec ModelGrid ModelArray ModelInterp ModelTemporal SpecGrid SpecInterp SpecTemporal SpecB64
  ProofsBase ProofsGrid ProofsArray ProofsGridProps ProofsInterp ProofsInterpMore ProofsB64 ProofsB64Ops ProofsB64Grid ProofsB64Interp.
Open Scope R_scope.

(** an interval with integer bounds, cut into 5 cells; other axes unused *)
Definition ivl (z : Z) : vec3 b64 := V3 (b64_make z 0) (b64_make 0 0) (b64_make 0 0).
Definition five : vec3 Z := (V3 5 1 1)%Z.
Definition dummy : grid b64 := mkGrid 1 five 1 0 (ivl 0) (ivl 0) (ivl 0) (ivl 0) [].
Definition grid5 (lo hi : Z) : grid b64 := match make_grid Wrap 1 five 1 (ivl lo) (ivl hi) with Ok g => g | _ => dummy end.

Lemma grid5_built lo hi : built Wrap 1 five 1 (ivl lo) (ivl hi) (grid5 lo hi).
Proof.
  split; [apply good_1d|]. split; [exact I|]. unfold grid5.
  destruct (built_1d (T := b64) Wrap (ivl lo) (ivl hi)) as (g & _ & _ & E). unfold five. rewrite E. reflexivity.
Qed.

Lemma real_int z : (Z.abs z <= 2 ^ 53)%Z -> is_finite (b64_make z 0) = true /\ real (b64_make z 0) = IZR z.
Proof. intros H. destruct (int64 z H). auto. Qed.

Lemma ivl_sane lo hi : (- 2 ^ 53 <= lo < hi)%Z -> (hi <= 2 ^ 53)%Z -> sane_box 1 five (ivl lo) (ivl hi).
Proof.
  intros H1 H2 a Hu. destruct a; try discriminate. cbn [vget ivl vx five].
  destruct (real_int lo) as (F1 & E1); [lia|]. destruct (real_int hi) as (F2 & E2); [lia|].
  unfold sane_axis, spacing64, spacing, reach. rewrite E1, E2. split; [exact F1|]. split; [exact F2|].
  assert (IZR lo + 1 <= IZR hi) by (rewrite <- plus_IZR; apply IZR_le; lia).
  split; [lra|].
  assert (B : bpow radix2 53 <= bpow radix2 1000) by (apply bpow_le; lia).
  assert (B1 : - bpow radix2 53 <= IZR lo) by (change (bpow radix2 53) with (IZR (2 ^ 53)); rewrite <- opp_IZR; apply IZR_le; lia).
  assert (B2 : IZR hi <= bpow radix2 53) by (change (bpow radix2 53) with (IZR (2 ^ 53)); apply IZR_le; lia).
  split.
  - apply Rmax_lub; apply Rabs_le; lra.
  - assert (bpow radix2 (-900) <= / 8) by (change (/ 8) with (bpow radix2 (-3)); apply bpow_le; lia). lra.
Qed.

Lemma ivl_resolved : resolved 1 five (ivl (-1)) (ivl 1).
Proof.
  intros a Hu. destruct a; try discriminate. cbn [vget ivl vx five].
  destruct (real_int (-1)) as (_ & E1); [lia|]. destruct (real_int 1) as (_ & E2); [lia|].
  unfold spacing64, spacing, reach. rewrite E1, E2.
  assert (8 <= bpow radix2 43) by (change 8 with (bpow radix2 3); apply bpow_le; lia).
  apply Rmax_lub; apply Rabs_le; split; lra.
Qed.

(** far from the origin the positions of different cells coincide *)
Definition far : Z := (- 2 ^ 53)%Z.
Definition sf (o : outcome (vec3 b64)) : option SpecFloat.spec_float := match o with Ok p => Some (B2SF (vx p)) | _ => None end.
Lemma sf_real o o' : (exists s, sf o = Some s) -> sf o = sf o' -> exists p q, o = Ok p /\ o' = Ok q /\ real (vx p) = real (vx q).
Proof.
  intros (s & E) H. destruct o as [p| | |]; try discriminate. rewrite E in H. destruct o' as [q| | |]; try discriminate.
  cbn [sf] in *. exists p, q. split; [reflexivity|]. split; [reflexivity|]. unfold real. rewrite <- !SF2R_B2SF. congruence.
Qed.
Lemma same_position : exists p q, node Wrap (grid5 far (far + 2)) 1 0 0 = Ok p /\ node Wrap (grid5 far (far + 2)) 2 0 0 = Ok q /\ real (vx p) = real (vx q).
Proof. apply sf_real; [eexists|]; vm_compute; reflexivity. Qed.

(** the first cell of (-1,1) in 5 cells is not the base node of its own position *)
Definition bx (o : outcome (vec3 Z)) : option Z := match o with Ok b => Some (vx b) | _ => None end.
Lemma base_below : exists p b, node Wrap (grid5 (-1) 1) 0 0 0 = Ok p /\ baseNodeId (grid5 (-1) 1) p = Ok b /\ vx b = (-1)%Z.
Proof.
  assert (H : match node Wrap (grid5 (-1) 1) 0 0 0 with Ok p => bx (baseNodeId (grid5 (-1) 1) p) | _ => None end = Some (-1)%Z) by (vm_compute; reflexivity).
  destruct (node Wrap (grid5 (-1) 1) 0 0 0) as [p| | |]; try discriminate. destruct (baseNodeId (grid5 (-1) 1) p) as [b| | |] eqn:E; try discriminate.
  exists p, b. split; [reflexivity|]. split; [exact E|]. injection H as H. exact H.
Qed.

(** fields: velocity 1 along x everywhere *)
Definition wind (g : grid b64) : ls_velocity b64 := mkLV (array_ctor g (ivl 1)) (array_ctor g mzero).
(** the largest double not above 2/5 *)
Definition dt25 : b64 := b64_make 7205759403792793 (-54).
Lemma dt25_real : is_finite dt25 = true /\ 0 < real dt25 <= 2 / 5.
Proof.
  split; [reflexivity|]. unfold real. rewrite <- SF2R_B2SF. replace (B2SF dt25) with (SpecFloat.S754_finite false 7205759403792793 (-54)) by (vm_compute; reflexivity).
  unfold SF2R, F2R. cbn [Fnum Fexp cond_Zopp]. change (bpow radix2 (-54)) with (/ 18014398509481984). lra.
Qed.
Definition oval {A} (d : A) (o : outcome A) : A := match o with Ok a => a | _ => d end.
Definition isok {A} (o : outcome A) : bool := match o with Ok _ => true | _ => false end.
Lemma isok_val {A} (d : A) o : isok o = true -> o = Ok (oval d o).
Proof. destruct o; try discriminate. reflexivity. Qed.
Lemma full_cell : sl_compute Wrap (grid5 (-1) 1) dt25 (wind (grid5 (-1) 1)) (levelset_ctor (grid5 (-1) 1)) = UB OutOfBounds.
Proof.
  set (g := grid5 (-1) 1). set (lv := wind g). set (l := levelset_ctor g).
  assert (E1 : sl_root Wrap g dt25 lv = Ok (oval (array_ctor g vzero) (sl_root Wrap g dt25 lv))) by (apply isok_val; vm_compute; reflexivity).
  set (xr := oval _ _) in E1.
  assert (E2 : interior (array_cells xr) = (0, 0, 0)%Z :: tl (interior (array_cells xr))) by (vm_compute; reflexivity).
  assert (E3 : aget Wrap g xr 0 0 0 = Ok (oval vzero (aget Wrap g xr 0 0 0))) by (apply isok_val; vm_compute; reflexivity).
  set (x := oval _ _) in E3.
  assert (E4 : baseNodeId g x = Ok (V3 (-2) INT_MAX INT_MAX)%Z) by (vm_compute; reflexivity).
  assert (E5 : index Wrap g (-2) INT_MAX INT_MAX = Ok 18446744073709551615%Z) by (vm_compute; reflexivity).
  assert (E6 : Z.of_nat (length (g_nodes g)) = 7%Z) by (vm_compute; reflexivity).
  assert (E7 : g_dim g = 1%nat) by (vm_compute; reflexivity).
  unfold sl_compute. rewrite E1. cbn [bind]. unfold hermite_compute. rewrite E2. cbn [forM]. unfold hermite_body at 1. rewrite E3. cbn [bind].
  unfold interpolate. rewrite E7. unfold interpolate1. rewrite E4. cbn [bind vx]. change (succ_id Wrap (-2)) with (Ok (-1)%Z). cbn [bind].
  unfold node_v, node. cbn [vx vy vz]. rewrite E5. cbn [bind]. rewrite vread_oob by (rewrite E6; lia). reflexivity.
Qed.

Lemma fresh_levelset {T} {NT : Num T} ov dim n pad (bmin bmax : vec3 T) g : built ov dim n pad bmin bmax g -> levelset_on g (levelset_ctor g).
Proof.
  intros Hb. pose proof (fun A d => proj1 (fresh_array (A := A) ov dim n pad bmin bmax g d Hb)) as K.
  split; try apply K. apply Forall_forall. intros m Hm. unfold levelset_ctor in Hm. cbn [ls_mix_prev] in Hm. unfold array_ctor in Hm. cbn [a_data] in Hm.
  apply repeat_spec in Hm. subst m. unfold vecN_zero. rewrite repeat_length.
  rewrite (bf_dim _ _ _ _ _ _ _ (built_ok _ _ _ _ _ _ _ Hb)). destruct Hb as ((Hd & _) & _). dim_cases Hd; reflexivity.
Qed.
Lemma wind_on lo hi : velocity_on (grid5 lo hi) (wind (grid5 lo hi)) /\
  forall i j k v, interior_cell five (i, j, k) -> aget Wrap (grid5 lo hi) (lv_vel (wind (grid5 lo hi))) i j k = Ok v -> v = ivl 1.
Proof.
  pose proof (fun A d => fresh_array (A := A) Wrap 1 five 1 (ivl lo) (ivl hi) _ d (grid5_built lo hi)) as K. split.
  - split; apply K.
  - intros i j k v Hc E. unfold wind in E. cbn [lv_vel] in E. rewrite (proj2 (K _ (ivl 1))) in E; [congruence|].
    eapply interior_padded; [apply good_1d|exact Hc].
Qed.
