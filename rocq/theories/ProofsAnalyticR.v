(** Analytical fields in exact arithmetic. *)
From Coq Require Import ZArith List Bool String Lia Reals Lra.
From Verif Require Import Base Num NumB64 ModelVec ModelGrid ModelArray ModelAnalytic SpecGrid SpecInterp SpecTemporal SpecAnalytic
  ProofsBase ProofsGrid ProofsArray ProofsGridProps ProofsInterp ProofsInterpProps ProofsInterpApi ProofsLoops ProofsGradientProps ProofsTemporal ProofsTemporalCases ProofsAnalytic.
Open Scope R_scope.

Lemma vmag_distance p q : vmag (vsub p q) = distance p q.
Proof. unfold vmag, vmag2, vsub, distance. cbn. f_equal. ring. Qed.
Lemma sq_le a b : 0 <= b -> a ^ 2 <= b ^ 2 -> a <= b.
Proof. intros Hb H. destruct (Rle_lt_dec a b); auto. nra. Qed.
Lemma distance_pos p q : 0 <= distance p q.
Proof. apply sqrt_pos. Qed.
Lemma distance_sq p q : distance p q ^ 2 = (vx p - vx q) ^ 2 + (vy p - vy q) ^ 2 + (vz p - vz q) ^ 2.
Proof. unfold distance. rewrite <- Rsqr_pow2. apply Rsqr_sqrt.
  pose proof (pow2_ge_0 (vx p - vx q)). pose proof (pow2_ge_0 (vy p - vy q)). pose proof (pow2_ge_0 (vz p - vz q)). lra.
Qed.
Lemma distance_sym p q : distance p q = distance q p.
Proof. unfold distance. f_equal. ring. Qed.
Lemma cauchy a b c x y z : (a * x + b * y + c * z) ^ 2 <= (a ^ 2 + b ^ 2 + c ^ 2) * (x ^ 2 + y ^ 2 + z ^ 2).
Proof.
  pose proof (pow2_ge_0 (a * y - b * x)). pose proof (pow2_ge_0 (a * z - c * x)). pose proof (pow2_ge_0 (b * z - c * y)).
  replace ((a ^ 2 + b ^ 2 + c ^ 2) * (x ^ 2 + y ^ 2 + z ^ 2))
    with ((a * x + b * y + c * z) ^ 2 + ((a * y - b * x) ^ 2 + (a * z - c * x) ^ 2 + (b * z - c * y) ^ 2)) by ring. lra.
Qed.
Lemma distance_triangle p q r : distance p r <= distance p q + distance q r.
Proof.
  pose proof (distance_pos p q). pose proof (distance_pos q r). pose proof (distance_pos p r).
  apply sq_le; [lra|]. rewrite distance_sq.
  pose proof (distance_sq p q) as E1. pose proof (distance_sq q r) as E2.
  assert (C : (vx p - vx q) * (vx q - vx r) + (vy p - vy q) * (vy q - vy r) + (vz p - vz q) * (vz q - vz r) <= distance p q * distance q r).
  { apply sq_le; [nra|]. rewrite Rpow_mult_distr, E1, E2. apply cauchy. }
  replace ((distance p q + distance q r) ^ 2) with (distance p q ^ 2 + distance q r ^ 2 + 2 * (distance p q * distance q r)) by ring.
  rewrite E1, E2. nra.
Qed.
Lemma distance_lipschitz p q c : Rabs (distance p c - distance q c) <= distance p q.
Proof.
  pose proof (distance_triangle p q c). pose proof (distance_triangle q p c). rewrite (distance_sym q p) in *.
  apply Rabs_le. lra.
Qed.
Lemma distance_zero p q : distance p q = 0 <-> p = q.
Proof.
  split.
  - intros H. pose proof (distance_sq p q) as E. rewrite H in E. destruct p as [a b c], q as [x y z]. cbn [vx vy vz] in *.
    pose proof (pow2_ge_0 (a - x)). pose proof (pow2_ge_0 (b - y)). pose proof (pow2_ge_0 (c - z)).
    assert (Z : forall u, u ^ 2 = 0 -> u = 0). { intros u Hu. destruct (Req_dec u 0); auto. exfalso. apply (pow_nonzero u 2); auto. }
    assert (a - x = 0) by (apply Z; lra). assert (b - y = 0) by (apply Z; lra). assert (c - z = 0) by (apply Z; lra). f_equal; lra.
  - intros ->. unfold distance. replace (_ + _) with 0 by ring. apply sqrt_0.
Qed.

(** *** C36 *)
Lemma circle_signed_distance ov dim n pad bmin bmax (g : grid R) hist inp pos l :
  built ov dim n pad bmin bmax g -> levelset_on g l -> array_on g pos -> li_name inp = "CIRCLE"%string ->
  exists l' m', als_compute ov g (after_lookups LS_NOT_DEFINED ls_map0 hist) inp pos l = Ok (l', m') /\ only_phi ov dim n pad g l l' /\
    (forall i j k, interior_cell n (i, j, k) -> exists p, aget ov g pos i j k = Ok p /\
      aget ov g (ls_phi l') i j k = Ok (distance p (li_center inp) - li_radius inp)) /\
    (forall i j k i' j' k' p q u v, interior_cell n (i, j, k) -> interior_cell n (i', j', k') ->
      aget ov g pos i j k = Ok p -> aget ov g pos i' j' k' = Ok q ->
      aget ov g (ls_phi l') i j k = Ok u -> aget ov g (ls_phi l') i' j' k' = Ok v -> Rabs (u - v) <= distance p q).
Proof.
  intros Hb Hl Hp Hn. destruct (circle_ok ov dim n pad bmin bmax g hist inp pos l Hb Hl Hp Hn) as (l' & m' & E & O & H).
  assert (H' : forall i j k, interior_cell n (i, j, k) -> exists p, aget ov g pos i j k = Ok p /\
      aget ov g (ls_phi l') i j k = Ok (distance p (li_center inp) - li_radius inp)).
  { intros i j k Hc. destruct (H i j k Hc) as (p & A & B). exists p. rewrite vmag_distance in B. auto. }
  exists l', m'. split; [exact E|]. split; [exact O|]. split; [exact H'|].
  intros i j k i' j' k' p q u v Hc Hc' Ep Eq Eu Ev.
  destruct (H' _ _ _ Hc) as (p1 & A1 & B1). destruct (H' _ _ _ Hc') as (q1 & A2 & B2).
  rewrite Ep in A1. rewrite Eq in A2. injection A1 as <-. injection A2 as <-. rewrite Eu in B1. rewrite Ev in B2.
  injection B1 as ->. injection B2 as ->.
  replace (distance p (li_center inp) - li_radius inp - (distance q (li_center inp) - li_radius inp))
    with (distance p (li_center inp) - distance q (li_center inp)) by ring.
  apply distance_lipschitz.
Qed.

(** *** C37, C72 *)
Lemma coeff_omega : circ_coeff = omega.
Proof. unfold circ_coeff, omega. cbn. f_equal. lra. Qed.
Lemma omega_pos : 0 < omega.
Proof. unfold omega. pose proof PI_RGT_0. apply Rdiv_lt_0_compat; lra. Qed.
Lemma circ_rotation c0 c1 p : circ_vel c0 c1 p = rotation omega c1 c0 p.
Proof. unfold circ_vel, rotation. rewrite coeff_omega. reflexivity. Qed.

Lemma circular_rotates ov dim n pad bmin bmax (g : grid R) hist inp pos time lv c0 c1 rest :
  built ov dim n pad bmin bmax g -> (2 <= dim)%nat -> (1 <= pad)%Z -> velocity_on g lv -> array_on g pos ->
  vi_name inp = "CIRCULAR"%string -> vi_center inp = c0 :: c1 :: rest ->
  exists lv' m', av_compute ov true g (after_lookups VEL_NOT_DEFINED vel_map0 hist) inp pos time lv = Ok (lv', m') /\
    only_velocity ov dim n pad g lv lv' /\
    forall i j k, interior_cell n (i, j, k) -> exists p, aget ov g pos i j k = Ok p /\ aget ov g (lv_vel lv') i j k = Ok (rotation omega c1 c0 p).
Proof.
  intros Hb Hd Hp Hv Ha Hn Hc. destruct (circular_ok ov dim n pad bmin bmax g hist inp pos time lv c0 c1 rest Hb Hd Hp Hv Ha Hn Hc) as (lv' & m' & E & O & H & _).
  exists lv', m'. split; [exact E|]. split; [exact O|]. intros i j k Hi. destruct (H i j k Hi) as (p & A & B). exists p. rewrite <- circ_rotation. auto.
Qed.
Lemma circular_wrong_centre ov dim n pad bmin bmax (g : grid R) hist inp pos time lv c0 c1 rest :
  built ov dim n pad bmin bmax g -> (2 <= dim)%nat -> (1 <= pad)%Z -> velocity_on g lv -> array_on g pos ->
  vi_name inp = "CIRCULAR"%string -> vi_center inp = c0 :: c1 :: rest -> c0 <> c1 ->
  exists lv' m', av_compute ov true g (after_lookups VEL_NOT_DEFINED vel_map0 hist) inp pos time lv = Ok (lv', m') /\
    forall i j k p, interior_cell n (i, j, k) -> aget ov g pos i j k = Ok p -> exists v, aget ov g (lv_vel lv') i j k = Ok v /\
      (vx p = c0 -> vy p = c1 -> vx v <> 0) /\ v <> rotation omega c0 c1 p.
Proof.
  intros Hb Hd Hp Hv Ha Hn Hc Hne.
  destruct (circular_rotates ov dim n pad bmin bmax g hist inp pos time lv c0 c1 rest Hb Hd Hp Hv Ha Hn Hc) as (lv' & m' & E & O & H).
  exists lv', m'. split; [exact E|]. intros i j k p Hi Ep. destruct (H i j k Hi) as (p' & A & B). rewrite Ep in A. injection A as <-.
  eexists. split; [exact B|]. pose proof omega_pos as W. split.
  - intros E0 E1. cbn [rotation vx]. rewrite E1. intros Z. apply Rmult_integral in Z. destruct Z; lra.
  - intros X. apply (f_equal vx) in X. cbn [rotation vx] in X. apply Rmult_eq_reg_l in X; lra.
Qed.
(** what a rotation is *)
Lemma rotation_spec w cx cy p : 0 <= w -> let v := rotation w cx cy p in
  (vx p = cx -> vy p = cy -> v = V3 0 0 0) /\
  vx v * (vx p - cx) + vy v * (vy p - cy) = 0 /\ vz v = 0 /\
  distance v (V3 0 0 0) = w * sqrt ((vx p - cx) ^ 2 + (vy p - cy) ^ 2).
Proof.
  intros Hw v. unfold v, rotation. cbn [vx vy vz]. repeat split.
  - intros -> ->. f_equal; ring.
  - ring.
  - unfold distance. cbn [vx vy vz].
    replace ((w * (cy - vy p) - 0) ^ 2 + (w * (vx p - cx) - 0) ^ 2 + (0 - 0) ^ 2) with (w ^ 2 * ((vx p - cx) ^ 2 + (vy p - cy) ^ 2)) by ring.
    pose proof (pow2_ge_0 w). pose proof (pow2_ge_0 (vx p - cx)). pose proof (pow2_ge_0 (vy p - cy)).
    rewrite sqrt_mult; [|lra|lra]. f_equal. rewrite <- Rsqr_pow2. apply sqrt_Rsqr. exact Hw.
Qed.
Lemma circular_same_centre ov dim n pad bmin bmax (g : grid R) hist inp pos time lv c rest :
  built ov dim n pad bmin bmax g -> (2 <= dim)%nat -> (1 <= pad)%Z -> velocity_on g lv -> array_on g pos ->
  vi_name inp = "CIRCULAR"%string -> vi_center inp = c :: c :: rest ->
  exists lv' m', av_compute ov true g (after_lookups VEL_NOT_DEFINED vel_map0 hist) inp pos time lv = Ok (lv', m') /\
    only_velocity ov dim n pad g lv lv' /\
    forall i j k, interior_cell n (i, j, k) -> exists p v, aget ov g pos i j k = Ok p /\ aget ov g (lv_vel lv') i j k = Ok v /\
      (vx p = c -> vy p = c -> v = V3 0 0 0) /\ vx v * (vx p - c) + vy v * (vy p - c) = 0 /\ vz v = 0 /\
      distance v (V3 0 0 0) = omega * sqrt ((vx p - c) ^ 2 + (vy p - c) ^ 2).
Proof.
  intros Hb Hd Hp Hv Ha Hn Hc.
  destruct (circular_rotates ov dim n pad bmin bmax g hist inp pos time lv c c rest Hb Hd Hp Hv Ha Hn Hc) as (lv' & m' & E & O & H).
  exists lv', m'. split; [exact E|]. split; [exact O|]. intros i j k Hi. destruct (H i j k Hi) as (p & A & B). exists p. eexists.
  split; [exact A|]. split; [exact B|]. apply rotation_spec. pose proof omega_pos. lra.
Qed.

(** *** C38 *)
Lemma analytical_gradient_lost ov dim n pad bmin bmax (g : grid R) hist inp pos time lv c0 c1 rest :
  built ov dim n pad bmin bmax g -> (2 <= dim)%nat -> (1 <= pad)%Z -> velocity_on g lv -> array_on g pos ->
  vi_name inp = "CIRCULAR"%string -> vi_center inp = c0 :: c1 :: rest ->
  exists lv' m', av_compute ov true g (after_lookups VEL_NOT_DEFINED vel_map0 hist) inp pos time lv = Ok (lv', m') /\
    forall i j k, interior_cell n (i, j, k) -> aget ov g (lv_grad lv') i j k = aget ov g (lv_grad lv) i j k.
Proof.
  intros Hb Hd Hp Hv Ha Hn Hc.
  destruct (circular_ok ov dim n pad bmin bmax g hist inp pos time lv c0 c1 rest Hb Hd Hp Hv Ha Hn Hc) as (lv' & m' & E & O & H & N & A).
  exists lv', m'. split; [exact E|]. intros i j k Hi. destruct (string_dec (vi_scheme inp) "ANALYTICAL") as [S|S].
  - assert (Hpc : padded_cell dim n pad (i, j, k)). { eapply interior_padded; [apply Hb|exact Hi]. }
    destruct (A S i j k Hpc) as (m & E1 & E2). destruct (interior_not_corner dim n pad i j k Hp Hi) as [-> ->] in E2. congruence.
  - rewrite (N S). reflexivity.
Qed.
(** the gradient the field has *)
Lemma rotation_derivative w cx cy p r a : (r = AX \/ r = AY) -> (a = AX \/ a = AY) ->
  derivable_pt_lim (fun t => vget (rotation w cx cy (vset p a t)) r) (vget p a)
    (match r, a with AX, AY => - w | AY, AX => w | _, _ => 0 end).
Proof.
  intros [-> | ->] [-> | ->]; destruct p as [x y z]; unfold rotation; cbn [vget vset vx vy vz].
  - apply (derivable_pt_lim_const (w * (cy - y))).
  - replace (- w) with (w * (0 - 1)) by ring. apply (derivable_pt_lim_scal (fun t => cy - t)).
    apply derivable_pt_lim_minus; [apply derivable_pt_lim_const|apply derivable_pt_lim_id].
  - cut (derivable_pt_lim (fun t => w * (t - cx)) x (w * (1 - 0))). { replace (w * (1 - 0)) with w by ring. auto. }
    apply (derivable_pt_lim_scal (fun t => t - cx)).
    apply derivable_pt_lim_minus; [apply derivable_pt_lim_id|apply derivable_pt_lim_const].
  - apply (derivable_pt_lim_const (w * (x - cx))).
Qed.
(** on a fresh velocity object every interior gradient stays the zero matrix *)
Lemma analytical_gradient_zero ov dim n pad bmin bmax (g : grid R) hist inp pos time c0 c1 rest :
  built ov dim n pad bmin bmax g -> (2 <= dim)%nat -> (1 <= pad)%Z -> array_on g pos ->
  vi_name inp = "CIRCULAR"%string -> vi_center inp = c0 :: c1 :: rest ->
  exists lv' m', av_compute ov true g (after_lookups VEL_NOT_DEFINED vel_map0 hist) inp pos time (ls_velocity_ctor g) = Ok (lv', m') /\
    forall i j k, interior_cell n (i, j, k) -> exists p, aget ov g pos i j k = Ok p /\
      aget ov g (lv_vel lv') i j k = Ok (rotation omega c1 c0 p) /\ aget ov g (lv_grad lv') i j k = Ok mzero /\
      ~ derivable_pt_lim (fun t => vget (rotation omega c1 c0 (vset p AY t)) AX) (vy p) (mget (@mzero R _) AX AY).
Proof.
  intros Hb Hd Hp Ha Hn Hc. pose proof (built_ok _ _ _ _ _ _ _ Hb) as F. pose proof (bf_ok _ _ _ _ _ _ _ F) as Hg.
  pose proof (fun A a => array_on_shaped (A := A) _ _ _ _ _ _ _ a Hb) as K.
  destruct (array_ctor_shaped ov g (@vzero R _) Hg (bf_len _ _ _ _ _ _ _ F)) as [S1 _].
  destruct (array_ctor_shaped ov g (@mzero R _) Hg (bf_len _ _ _ _ _ _ _ F)) as [S2 Z2].
  assert (Hv : velocity_on g (ls_velocity_ctor g)) by (split; apply K; assumption).
  destruct (circular_rotates ov dim n pad bmin bmax g hist inp pos time _ c0 c1 rest Hb Hd Hp Hv Ha Hn Hc) as (lv' & m' & E & O & H).
  destruct (analytical_gradient_lost ov dim n pad bmin bmax g hist inp pos time _ c0 c1 rest Hb Hd Hp Hv Ha Hn Hc) as (lv2 & m2 & E2 & G).
  rewrite E in E2. injection E2 as <- <-. exists lv', m'. split; [exact E|]. intros i j k Hi. destruct (H i j k Hi) as (p & A & B). exists p.
  split; [exact A|]. split; [exact B|]. split.
  - rewrite G by auto. assert (HC : gcell g (i, j, k)). { apply (built_gcell _ _ _ _ _ _ _ _ Hb). eapply interior_padded; [apply Hb|exact Hi]. }
    rewrite (aget_peek_c ov) by auto. apply Z2. exact HC.
  - intros D. pose proof (rotation_derivative omega c1 c0 p AX AY (or_introl eq_refl) (or_intror eq_refl)) as D2. cbn [vget] in D2.
    pose proof (uniqueness_limite _ _ _ _ D D2) as U. pose proof omega_pos. cbn in U. lra.
Qed.

(** *** cases *)
Definition vin (name : string) (c : list R) (scheme : string) : vel_inputs R := mkVI name [1; 0; 0] c scheme.
Lemma circle_case : exists g l pos, built Trap 3 (V3 2 3 4)%Z 1 lo1 hi1 g /\ levelset_on g l /\ array_on g pos /\
  (forall i j k, padded_cell 3 (V3 2 3 4)%Z 1 (i, j, k) -> exists p, node Trap g i j k = Ok p /\ aget Trap g pos i j k = Ok p).
Proof.
  destruct (built_3d1 (T := R) Trap lo1 hi1) as (g & Hb).
  destruct (stores_exists _ _ _ _ _ _ g (fun _ => CV 7 0 0 0 0 0 0 0) Hb) as (l & Hl & HS).
  destruct (samples_exists _ _ _ _ _ _ g (fun p => p) Hb) as (pos & A & B). exists g, l, pos. auto.
Qed.
Lemma circular_case : exists g pos, built Trap 2 (V3 4 3 1)%Z 1 lo1 hi1 g /\ array_on g pos /\ velocity_on g (ls_velocity_ctor g) /\
  interior_cell (V3 4 3 1)%Z (2, 1, 0)%Z /\ aget Trap g pos 2 1 0 = Ok (V3 (/ 4) 0 0) /\
  vi_center (vin "CIRCULAR" [/ 4; 0; 0] "ANALYTICAL") = [/ 4; 0; 0] /\ / 4 <> 0.
Proof.
  destruct (built_2d (T := R) Trap lo1 hi1) as (g & Hb).
  destruct (samples_exists _ _ _ _ _ _ g (fun p => p) Hb) as (pos & A & B). exists g, pos. split; [exact Hb|]. split; [exact A|].
  pose proof (built_ok _ _ _ _ _ _ _ Hb) as F. pose proof (bf_ok _ _ _ _ _ _ _ F) as Hg.
  pose proof (fun A a => array_on_shaped (A := A) _ _ _ _ _ _ _ a Hb) as K.
  destruct (array_ctor_shaped Trap g (@vzero R _) Hg (bf_len _ _ _ _ _ _ _ F)) as [S1 _].
  destruct (array_ctor_shaped Trap g (@mzero R _) Hg (bf_len _ _ _ _ _ _ _ F)) as [S2 _].
  split; [split; apply K; assumption|]. 
  assert (I : interior_cell (V3 4 3 1)%Z (2, 1, 0)%Z) by (intros []; cbn; lia). split; [exact I|].
  assert (Hp : padded_cell 2 (V3 4 3 1)%Z 1 (2, 1, 0)%Z) by (eapply interior_padded; [apply Hb|exact I]).
  split.
  - destruct (B 2 1 0 Hp)%Z as (p & N & E). rewrite E. f_equal.
    destruct (node_at_centre_pad1 _ _ _ _ _ _ _ _ _ Hb Hp) as (q & N2 & Hq). rewrite N in N2. injection N2 as <-.
    pose proof (Hq AX) as X. pose proof (Hq AY) as Y. pose proof (Hq AZ) as Zz. destruct p as [x y z].
    cbn [used Nat.leb vget vx vy vz lo1 hi1 ccoord] in X, Y, Zz. unfold centre, spacing in X, Y. f_equal; lra.
  - split; [reflexivity|lra].
Qed.
