(** The analytical fields run on arrays of doubles. *)
From Coq Require Import ZArith List Bool String Lia Reals Lra.
From Flocq Require Import Core BinarySingleNaN.
From Verif Require Import Base Num NumB64 ModelVec ModelGrid ModelArray ModelAnalytic SpecGrid SpecInterp SpecTemporal SpecB64 SpecRound SpecAnalytic SpecRoundField
  ProofsBase ProofsGrid ProofsArray ProofsGridProps ProofsB64 ProofsB64Ops ProofsB64Grid ProofsB64Interp ProofsRoundCircle ProofsPi
  ProofsAnalytic ProofsAnalyticR ProofsInterpApi ProofsB64Cases ProofsRoundCases.
Import ListNotations.
Open Scope R_scope.

Lemma moderate_wide A : moderate A -> bpow radix2 (-250) <= A <= bpow radix2 250.
Proof. intros [H1 H2]. split; eapply Rle_trans; try eassumption; apply bpow_le; lia. Qed.
Lemma moderate_twice A : moderate A -> bpow radix2 (-250) <= 2 * A <= bpow radix2 250.
Proof.
  intros [H1 H2]. pose proof (bpow_gt_0 radix2 (-200)). split.
  - apply Rle_trans with (bpow radix2 (-200)); [apply bpow_le; lia|lra].
  - apply Rle_trans with (bpow radix2 1 * bpow radix2 200); [change (bpow radix2 1) with 2; lra|]. rewrite <- bpow_plus. apply bpow_le. lia.
Qed.
Lemma point_get A p a : point_at_most A p -> is_finite (vget p a) = true /\ Rabs (real (vget p a)) <= A.
Proof. intros (X & Y & Z). destruct a; assumption. Qed.
Lemma at_most_weak A B z : A <= B -> at_most A z -> at_most B z.
Proof. intros L [F H]. split; [exact F|lra]. Qed.
Lemma point_weak A B p : A <= B -> point_at_most A p -> point_at_most B p.
Proof. intros L (X & Y & Z). repeat split; try apply X; try apply Y; try apply Z; eapply Rle_trans; [apply X| |apply Y| |apply Z|]; exact L. Qed.

Lemma circle_value A p c r : bpow radix2 (-250) <= A <= bpow radix2 250 -> point_at_most A p -> point_at_most A c -> at_most A r ->
  let phi := (nsub (vmag (vsub p c)) r) in is_finite phi = true /\ Rabs (real phi - (distance (reals p) (reals c) - real r)) <= bpow radix2 (-47) * A.
Proof.
  intros HA Hp Hc Hr. exact (circle64 p c r A HA (fun a => point_get A p a Hp) (fun a => point_get A c a Hc) Hr).
Qed.
Lemma spin_value A p c0 c1 : bpow radix2 (-250) <= A <= bpow radix2 250 -> point_at_most A p -> at_most A c0 -> at_most A c1 ->
  let v := circ_vel c0 c1 p in let w := rotation omega (real c1) (real c0) (reals p) in forall a, is_finite (vget v a) = true /\ Rabs (real (vget v a) - vget w a) <= bpow radix2 (-49) * A.
Proof.
  intros HA (X & Y & _) [F0 H0] [F1 H1] v w a. pose proof (A_pos A HA). assert (0 <= bpow radix2 (-49) * A) by (apply Rmult_le_pos; [apply bpow_ge_0|lra]).
  destruct a.
  - exact (spin64 c0 (vy p) A HA F0 (proj1 Y) H0 (proj2 Y)).
  - exact (spin64 (vx p) c1 A HA (proj1 X) F1 (proj2 X) H1).
  - destruct (int64 0) as (FZ & VZ); [lia|]. split; [exact FZ|]. change (vget v AZ) with (b64_make 0 0). change (vget w AZ) with 0. unfold real. rewrite VZ, Rminus_0_r, Rabs_R0. assumption.
Qed.

(** ** Positions a grid generates *)
Lemma node_near ov dim n bmin bmax (g : grid b64) A i j k p : built ov dim n 1 bmin bmax g -> sane_box dim n bmin bmax -> box_within dim A bmin bmax -> 0 < A ->
  interior_cell n (i, j, k) -> node ov g i j k = Ok p ->
  let q := centre_pos dim n (reals bmin) (reals bmax) (i, j, k) in
  point_at_most (2 * A) p /\ forall a, Rabs (real (vget p a) - vget q a) <= bpow radix2 (-47) * A.
Proof.
  intros Hb Hs HA Ap Hi E q. assert (Hp : padded_cell dim n 1 (i, j, k)) by (eapply interior_padded; [apply Hb|exact Hi]).
  assert (N : node ov g i j k = Ok (pos_at dim n 1 bmin bmax (i, j, k))) by (apply (gen_node _ _ _ _ _ _ _ Hb); exact Hp).
  destruct (position64 ov dim n bmin bmax g Hb Hs i j k Hp) as (p' & E' & H). rewrite E in E'. injection E' as <-.
  assert (Z0 : forall a, used dim a = false -> vget p a = b64_make 0 0).
  { intros a Hu. rewrite E in N. injection N as ->. assert (Hd : (1 <= dim <= 3)%nat) by apply Hb. unfold pos_at, gen_elem.
    destruct dim as [|[|[|[|d]]]]; try lia; destruct a; try discriminate; reflexivity. }
  assert (B47 : 0 < bpow radix2 (-47) <= / 2) by (split; [apply bpow_gt_0|change (/ 2) with (bpow radix2 (-1)); apply bpow_le; lia]).
  assert (W : forall a, is_finite (vget p a) = true /\ Rabs (real (vget p a) - vget q a) <= bpow radix2 (-47) * A /\ Rabs (vget q a) <= A).
  { intros a. destruct (used dim a) eqn:Hu.
    - destruct (H a Hu) as (F & V). pose proof (HA a Hu) as Ha. split; [exact F|].
      assert (Eq : vget q a = centre64 (vget bmin a) (vget bmax a) (vget n a) (ccoord (i, j, k) a)) by (unfold q, centre_pos; destruct a; cbn [vget]; rewrite Hu; reflexivity).
      rewrite Eq. split; [eapply Rle_trans; [exact V|]; apply Rmult_le_compat_l; lra|].
      destruct (reach_ok (vget bmin a) (vget bmax a)) as (R1 & R2). destruct (Hs a Hu) as (_ & _ & L & _). specialize (Hi a).
      assert (In : real (vget bmin a) <= centre64 (vget bmin a) (vget bmax a) (vget n a) (ccoord (i, j, k) a) <= real (vget bmax a)).
      { unfold centre64, centre, spacing. destruct Hi as [I0 I1]. 
        assert (N0 : 0 < IZR (vget n a)) by (apply IZR_lt; lia). set (d := real (vget bmax a) - real (vget bmin a)) in *. assert (Dp : 0 < d) by (unfold d; lra).
        assert (T : 0 <= (IZR (ccoord (i, j, k) a) + / 2) * (d / IZR (vget n a)) <= d).
        { assert (C0 : 0 <= IZR (ccoord (i, j, k) a)) by (apply IZR_le; lia). assert (C1 : IZR (ccoord (i, j, k) a) + 1 <= IZR (vget n a)) by (rewrite <- plus_IZR; apply IZR_le; lia).
          assert (0 < d / IZR (vget n a)) by (apply Rdiv_lt_0_compat; lra). split; [apply Rmult_le_pos; lra|].
          apply Rle_trans with (IZR (vget n a) * (d / IZR (vget n a))); [apply Rmult_le_compat_r; lra|]. right. field. lra. }
        assert (Ed : real (vget bmax a) = real (vget bmin a) + d) by (unfold d; ring). clearbody d. lra. }
      unfold real in *. apply Rabs_le. unfold Rabs in R1, R2. destruct (Rcase_abs (B2R (vget bmin a))), (Rcase_abs (B2R (vget bmax a))); lra.
    - assert (Eq : vget q a = 0) by (unfold q, centre_pos; destruct a; cbn [vget]; rewrite Hu; reflexivity). destruct (int64 0) as (FZ & VZ); [lia|].
      rewrite (Z0 a Hu), Eq. unfold real. rewrite VZ. split; [exact FZ|]. rewrite Rminus_0_r, Rabs_R0. split; [apply Rmult_le_pos; lra|lra]. }
  assert (P : forall a, at_most (2 * A) (vget p a)).
  { intros a. destruct (W a) as (F & V & Q). split; [exact F|]. replace (real (vget p a)) with ((real (vget p a) - vget q a) + vget q a) by ring. eapply Rle_trans; [apply Rabs_triang|].
    assert (bpow radix2 (-47) * A <= / 2 * A) by (apply Rmult_le_compat_r; lra). lra. }
  split; [split; [exact (P AX)|split; [exact (P AY)|exact (P AZ)]]|]. intros a. apply (W a).
Qed.
Lemma distance_box p q e : 0 <= e -> (forall a, Rabs (vget p a - vget q a) <= e) -> distance p q <= 2 * e.
Proof.
  intros He H. apply sq_le; [lra|]. rewrite distance_sq.
  assert (S : forall a, (vget p a - vget q a) ^ 2 <= e ^ 2).
  { intros a. specialize (H a). rewrite <- (pow2_abs (vget p a - vget q a)). apply pow_incr. split; [apply Rabs_pos|exact H]. }
  pose proof (S AX) as X. pose proof (S AY) as Y. pose proof (S AZ) as Z. cbn [vget] in X, Y, Z. pose proof (pow2_ge_0 e). lra.
Qed.

(** ** Runs *)
Section Run.
Variables (ov : ovmode) (dim : nat) (n : vec3 Z) (pad : Z) (bmin bmax : vec3 b64) (g : grid b64).
Lemma circle_run hist inp pos l A :
  built ov dim n pad bmin bmax g -> levelset_on g l -> array_on g pos -> li_name inp = "CIRCLE"%string ->
  moderate A -> points_at_most ov n g pos A -> point_at_most A (li_center inp) -> at_most A (li_radius inp) ->
  exists l' m', als_compute ov g (after_lookups LS_NOT_DEFINED ls_map0 hist) inp pos l = Ok (l', m') /\ only_phi ov dim n pad g l l' /\
    forall i j k, interior_cell n (i, j, k) -> exists p f, aget ov g pos i j k = Ok p /\ aget ov g (ls_phi l') i j k = Ok f /\ is_finite f = true /\
      Rabs (real f - (distance (reals p) (reals (li_center inp)) - real (li_radius inp))) <= bpow radix2 (-47) * A.
Proof.
  intros Hb Hl Hp Hn HA HP HC HR. destruct (circle_ok ov dim n pad bmin bmax g hist inp pos l Hb Hl Hp Hn) as (l' & m' & E & O & H).
  exists l', m'. split; [exact E|]. split; [exact O|]. intros i j k Hi. destruct (H i j k Hi) as (p & Ep & Ef). destruct (HP i j k Hi) as (p' & Ep' & B).
  rewrite Ep in Ep'. injection Ep' as <-. eexists p, _. split; [exact Ep|]. split; [exact Ef|].
  exact (circle_value A p _ _ (moderate_wide A HA) B HC HR).
Qed.
Lemma circular_run hist inp pos time lv c0 c1 rest A :
  built ov dim n pad bmin bmax g -> (2 <= dim)%nat -> (1 <= pad)%Z -> velocity_on g lv -> array_on g pos ->
  vi_name inp = "CIRCULAR"%string -> vi_center inp = c0 :: c1 :: rest ->
  moderate A -> points_at_most ov n g pos A -> at_most A c0 -> at_most A c1 ->
  exists lv' m', av_compute ov true g (after_lookups VEL_NOT_DEFINED vel_map0 hist) inp pos time lv = Ok (lv', m') /\ only_velocity ov dim n pad g lv lv' /\
    forall i j k, interior_cell n (i, j, k) -> exists p v, aget ov g pos i j k = Ok p /\ aget ov g (lv_vel lv') i j k = Ok v /\
      let w := rotation omega (real c1) (real c0) (reals p) in
      forall a, is_finite (vget v a) = true /\ Rabs (real (vget v a) - vget w a) <= bpow radix2 (-49) * A.
Proof.
  intros Hb Hd Hpad Hv Hp Hn Hc HA HP H0 H1. destruct (circular_ok ov dim n pad bmin bmax g hist inp pos time lv c0 c1 rest Hb Hd Hpad Hv Hp Hn Hc) as (lv' & m' & E & O & H & _).
  exists lv', m'. split; [exact E|]. split; [exact O|]. intros i j k Hi. destruct (H i j k Hi) as (p & Ep & Ef). destruct (HP i j k Hi) as (p' & Ep' & B).
  rewrite Ep in Ep'. injection Ep' as <-. eexists p, _. split; [exact Ep|]. split; [exact Ef|]. exact (spin_value A p c0 c1 (moderate_wide A HA) B H0 H1).
Qed.
End Run.

Section Total.
Variables (ov : ovmode) (dim : nat) (n : vec3 Z) (bmin bmax : vec3 b64) (g : grid b64) (A : R).
Hypothesis Hb : built ov dim n 1 bmin bmax g.
Hypothesis Hs : sane_box dim n bmin bmax.
Hypothesis HA : moderate A.
Hypothesis Hw : box_within dim A bmin bmax.
Lemma A_gt0 : 0 < A.
Proof. destruct HA as [H _]. pose proof (bpow_gt_0 radix2 (-200)). lra. Qed.
Lemma two_pow k : bpow radix2 (k + 1) = 2 * bpow radix2 k.
Proof. rewrite bpow_plus. change (bpow radix2 1) with 2. ring. Qed.
Lemma circle_total hist inp pos l :
  levelset_on g l -> array_on g pos -> holds_positions ov n g pos -> li_name inp = "CIRCLE"%string ->
  point_at_most A (li_center inp) -> at_most A (li_radius inp) ->
  exists l' m', als_compute ov g (after_lookups LS_NOT_DEFINED ls_map0 hist) inp pos l = Ok (l', m') /\ only_phi ov dim n 1 g l l' /\
    forall i j k, interior_cell n (i, j, k) -> let x := centre_pos dim n (reals bmin) (reals bmax) (i, j, k) in
      let d := distance x (reals (li_center inp)) - real (li_radius inp) in
      exists f, aget ov g (ls_phi l') i j k = Ok f /\ is_finite f = true /\ Rabs (real f - d) <= bpow radix2 (-45) * A /\
        (d < - (bpow radix2 (-45) * A) -> nltb f (nofZ 0) = true) /\ (bpow radix2 (-45) * A < d -> nltb (nofZ 0) f = true).
Proof.
  intros Hl Hp HP Hn HC HR. destruct (circle_ok ov dim n 1 bmin bmax g hist inp pos l Hb Hl Hp Hn) as (l' & m' & E & O & H). pose proof A_gt0 as Ap.
  exists l', m'. split; [exact E|]. split; [exact O|]. intros i j k Hi x d. destruct (H i j k Hi) as (p & Ep & Ef). destruct (HP i j k Hi) as (p' & Nd & Ep').
  rewrite Ep in Ep'. injection Ep' as <-. eexists. split; [exact Ef|].
  destruct (node_near ov dim n bmin bmax g A i j k p Hb Hs Hw Ap Hi Nd) as (B & V). fold x in V.
  destruct (circle_value (2 * A) p _ _ (moderate_twice A HA) B (point_weak A (2 * A) _ ltac:(lra) HC) (at_most_weak A (2 * A) _ ltac:(lra) HR)) as (F & C).
  set (f := (vmag (vsub p (li_center inp)) - li_radius inp)%num) in *. split; [exact F|].
  assert (T : distance (reals p) x <= 2 * (bpow radix2 (-47) * A)).
  { apply distance_box; [apply Rmult_le_pos; [apply bpow_ge_0|lra]|]. intros a. specialize (V a). destruct a; exact V. }
  pose proof (distance_lipschitz (reals p) x (reals (li_center inp))) as L.
  pose proof (two_pow (-47)) as T1. pose proof (two_pow (-46)) as T2. cbn [Z.add Z.pos_sub Pos.pred_double] in T1, T2.
  change (-47 + 1)%Z with (-46)%Z in T1. change (-46 + 1)%Z with (-45)%Z in T2.
  assert (Tot : Rabs (real f - d) <= bpow radix2 (-45) * A).
  { rewrite T2, T1. set (b := bpow radix2 (-47)) in *. unfold d. set (dp := distance (reals p) (reals (li_center inp))) in *. set (dx := distance x (reals (li_center inp))) in *. set (r := real (li_radius inp)) in *.
    replace (real f - (dx - r)) with ((real f - (dp - r)) + (dp - dx)) by ring. eapply Rle_trans; [apply Rabs_triang|].
    replace (2 * (2 * b) * A) with (b * (2 * A) + 2 * (b * A)) by ring. change (nsub (vmag (vsub p (li_center inp))) (li_radius inp)) with f in C. fold r in C. lra. }
  destruct (int64 0) as (FZ & VZ); [lia|]. split; [exact Tot|]. cbn [nltb nofZ NumB64]. clearbody d.
  split; intros Hd'; rewrite Bltb_correct by assumption; rewrite VZ; apply Rlt_bool_true; unfold real in Tot; unfold Rabs in Tot; destruct Rcase_abs; lra.
Qed.
Lemma circular_total hist inp pos time lv c0 c1 rest :
  (2 <= dim)%nat -> velocity_on g lv -> array_on g pos -> holds_positions ov n g pos ->
  vi_name inp = "CIRCULAR"%string -> vi_center inp = c0 :: c1 :: rest -> at_most A c0 -> at_most A c1 ->
  exists lv' m', av_compute ov true g (after_lookups VEL_NOT_DEFINED vel_map0 hist) inp pos time lv = Ok (lv', m') /\ only_velocity ov dim n 1 g lv lv' /\
    forall i j k, interior_cell n (i, j, k) -> let x := centre_pos dim n (reals bmin) (reals bmax) (i, j, k) in
      exists v, aget ov g (lv_vel lv') i j k = Ok v /\ let w := rotation omega (real c1) (real c0) x in
      forall a, is_finite (vget v a) = true /\ Rabs (real (vget v a) - vget w a) <= bpow radix2 (-46) * A.
Proof.
  intros Hd Hv Hp HP Hn Hc H0 H1. destruct (circular_ok ov dim n 1 bmin bmax g hist inp pos time lv c0 c1 rest Hb Hd ltac:(lia) Hv Hp Hn Hc) as (lv' & m' & E & O & H & _). pose proof A_gt0 as Ap.
  exists lv', m'. split; [exact E|]. split; [exact O|]. intros i j k Hi x. destruct (H i j k Hi) as (p & Ep & Ef). destruct (HP i j k Hi) as (p' & Nd & Ep').
  rewrite Ep in Ep'. injection Ep' as <-. eexists. split; [exact Ef|]. intros w a.
  destruct (node_near ov dim n bmin bmax g A i j k p Hb Hs Hw Ap Hi Nd) as (B & V). fold x in V.
  destruct (spin_value (2 * A) p c0 c1 (moderate_twice A HA) B (at_most_weak A (2 * A) _ ltac:(lra) H0) (at_most_weak A (2 * A) _ ltac:(lra) H1) a) as (F & C). split; [exact F|].
  assert (Om : 0 < omega <= 1) by apply coeff64.
  assert (b49 : 0 <= bpow radix2 (-47) * A) by (apply Rmult_le_pos; [apply bpow_ge_0|lra]).
  assert (W : Rabs (vget (rotation omega (real c1) (real c0) (reals p)) a - vget w a) <= bpow radix2 (-47) * A).
  { assert (S : forall z y, Rabs (z - y) <= bpow radix2 (-47) * A -> Rabs (omega * (z - y)) <= bpow radix2 (-47) * A).
    { intros z y Hz. rewrite Rabs_mult, (Rabs_pos_eq omega) by lra. pose proof (Rabs_pos (z - y)). apply Rle_trans with (1 * Rabs (z - y)); [apply Rmult_le_compat_r; lra|lra]. }
    unfold w, rotation. destruct a; cbn [vget vx vy vz].
    - replace (omega * (real c0 - vy (reals p)) - omega * (real c0 - vy x)) with (- (omega * (vy (reals p) - vy x))) by ring. rewrite Rabs_Ropp. apply S. exact (V AY).
    - replace (omega * (vx (reals p) - real c1) - omega * (vx x - real c1)) with (omega * (vx (reals p) - vx x)) by ring. apply S. exact (V AX).
    - rewrite Rminus_0_r, Rabs_R0. exact b49. }
  set (y := vget (rotation omega (real c1) (real c0) (reals p)) a) in *.
  replace (real (vget (circ_vel c0 c1 p) a) - vget w a) with ((real (vget (circ_vel c0 c1 p) a) - y) + (y - vget w a)) by ring. eapply Rle_trans; [apply Rabs_triang|].
  pose proof (two_pow (-47)) as T1. change (-47 + 1)%Z with (-46)%Z in T1. assert (T3 : bpow radix2 (-49) = / 4 * bpow radix2 (-47)) by (change (/ 4) with (bpow radix2 (-2)); rewrite <- bpow_plus; reflexivity).
  rewrite T1. rewrite T3 in C. lra.
Qed.
End Total.

(** ** A case: the square [-1, 1]^2 cut into 4 by 3 cells *)
Definition sq (z : Z) : vec3 b64 := V3 (b64_make z 0) (b64_make z 0) (b64_make 0 0).
Definition disc : ls_inputs b64 := mkLSI "CIRCLE" (sq 0) (b64_make 1 (-1)) "CENTRAL".
Definition spin : vel_inputs b64 := mkVI "CIRCULAR" [] [b64_make 0 0; b64_make 0 0] "SECOND_ORDER_CENTRAL".
Lemma sq_sane n a : (1 <= vget n a <= 1000)%Z -> used 2 a = true -> sane_axis (vget (sq (-1)) a) (vget (sq 1) a) (vget n a).
Proof.
  intros Hn Hu. assert (E : vget (sq (-1)) a = b64_make (-1) 0 /\ vget (sq 1) a = b64_make 1 0) by (destruct a; try discriminate; split; reflexivity). destruct E as (-> & ->).
  destruct (real_int (-1)) as (F1 & E1); [lia|]. destruct (real_int 1) as (F2 & E2); [lia|]. unfold sane_axis, spacing64, spacing, reach. rewrite E1, E2.
  split; [exact F1|]. split; [exact F2|]. split; [lra|]. split.
  - rewrite (Rabs_left (IZR (-1))), (Rabs_pos_eq (IZR 1)) by lra. rewrite Rmax_left by lra. apply Rle_trans with (bpow radix2 0); [cbn; lra|apply bpow_le; lia].
  - assert (N1 : 1 <= IZR (vget n a)) by (apply IZR_le; lia). assert (N2 : IZR (vget n a) <= 1000) by (apply IZR_le; lia).
    apply Rle_trans with (bpow radix2 (-10)); [apply bpow_le; lia|]. change (bpow radix2 (-10)) with (/ 1024).
    apply Rle_trans with (2 * / IZR (vget n a)); [|right; unfold Rdiv; f_equal; lra].
    apply Rle_trans with (2 * / 1000); [lra|]. apply Rmult_le_compat_l; [lra|]. apply Rinv_le; lra.
Qed.
Lemma field_case : exists g pos, built Trap 2 (V3 4 3 1)%Z 1 (sq (-1)) (sq 1) g /\ sane_box 2 (V3 4 3 1)%Z (sq (-1)) (sq 1) /\ moderate 1 /\ box_within 2 1 (sq (-1)) (sq 1) /\
  levelset_on g (levelset_ctor g) /\ velocity_on g (ls_velocity_ctor g) /\ array_on g pos /\ holds_positions Trap (V3 4 3 1)%Z g pos /\ points_at_most Trap (V3 4 3 1)%Z g pos 2 /\ moderate 2 /\
  point_at_most 1 (li_center disc) /\ at_most 1 (li_radius disc) /\ vi_center spin = [b64_make 0 0; b64_make 0 0] /\ at_most 1 (b64_make 0 0).
Proof.
  destruct (built_2d (T := b64) Trap (sq (-1)) (sq 1)) as (g & Hb). pose proof (built_ok _ _ _ _ _ _ _ Hb) as F. pose proof (bf_ok _ _ _ _ _ _ _ F) as Hg.
  destruct (array_of Trap g (fun c => match c with (i, j, k) => match node Trap g i j k with Ok p => p | _ => sq 0 end end) Hg) as (pos & S & P & _).
  assert (Hs : sane_box 2 (V3 4 3 1)%Z (sq (-1)) (sq 1)) by (intros a Hu; apply sq_sane; [destruct a; cbn; lia|exact Hu]).
  assert (HP : holds_positions Trap (V3 4 3 1)%Z g pos).
  { intros i j k Hi. assert (Hp : padded_cell 2 (V3 4 3 1)%Z 1 (i, j, k)) by (eapply interior_padded; [apply Hb|exact Hi]).
    destruct (position64 _ _ _ _ _ _ Hb Hs i j k Hp) as (p & Ep & _). exists p. split; [exact Ep|].
    assert (Hc : gcell g (i, j, k)) by (apply (built_gcell _ _ _ _ _ _ _ _ Hb); exact Hp). rewrite (aget_peek_c Trap) by auto. rewrite P by auto. rewrite Ep. reflexivity. }
  assert (M : forall x, 1 <= x <= 2 -> moderate x).
  { intros x Hx. split; [apply Rle_trans with (bpow radix2 0); [apply bpow_le; lia|cbn; lra]|apply Rle_trans with (bpow radix2 1); [change (bpow radix2 1) with 2; lra|apply bpow_le; lia]]. }
  assert (W : box_within 2 1 (sq (-1)) (sq 1)).
  { intros a Hu. assert (E : vget (sq (-1)) a = b64_make (-1) 0 /\ vget (sq 1) a = b64_make 1 0) by (destruct a; try discriminate; split; reflexivity). destruct E as (-> & ->).
    destruct (real_int (-1)) as (F1 & E1); [lia|]. destruct (real_int 1) as (F2 & E2); [lia|]. unfold reach. rewrite E1, E2. rewrite (Rabs_left (IZR (-1))), (Rabs_pos_eq (IZR 1)) by lra. rewrite Rmax_left by lra. lra. }
  assert (Z0 : at_most 1 (b64_make 0 0)) by (destruct (real_int 0) as (F1 & E1); [lia|]; split; [exact F1|]; rewrite E1, Rabs_R0; lra).
  exists g, pos. split; [exact Hb|]. split; [exact Hs|]. split; [apply M; lra|]. split; [exact W|]. split; [apply (fresh_levelset _ _ _ _ _ _ _ Hb)|].
  split; [split; apply (fresh_array _ _ _ _ _ _ _ _ Hb)|]. split; [apply (array_on_shaped _ _ _ _ _ _ _ _ Hb); exact S|]. split; [exact HP|]. split.
  { intros i j k Hi. destruct (HP i j k Hi) as (p & Nd & Ep). exists p. split; [exact Ep|]. pose proof (node_near _ _ _ _ _ _ 1 i j k p Hb Hs W ltac:(lra) Hi Nd) as (B & _). rewrite Rmult_1_r in B. exact B. }
  split; [apply M; lra|]. split; [split; [exact Z0|split; exact Z0]|]. split.
  { split; [vm_compute; reflexivity|]. unfold disc, li_radius, real. replace (B2R (b64_make 1 (-1))) with (/ 2); [rewrite Rabs_pos_eq; lra|]. cbn. unfold F2R. cbn. lra. }
  split; [reflexivity|exact Z0].
Qed.
