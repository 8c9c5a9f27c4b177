(** Properties C36-C40, C72, C73: analytical fields. *)
From Coq Require Import ZArith List String Reals.
From Verif Require Import Base Num NumB64 ModelVec ModelGrid ModelArray ModelAnalytic SpecGrid SpecInterp SpecTemporal SpecAnalytic
  ProofsInterpApi ProofsAnalytic ProofsAnalyticR.
Open Scope R_scope.

(** *** C36 *)
Theorem C36_circle : forall ov dim n pad bmin bmax (g : grid R) hist inp pos l,
  built ov dim n pad bmin bmax g -> levelset_on g l -> array_on g pos -> li_name inp = "CIRCLE"%string ->
  exists l' m', als_compute ov g (after_lookups LS_NOT_DEFINED ls_map0 hist) inp pos l = Ok (l', m') /\ only_phi ov dim n pad g l l' /\
    (forall i j k, interior_cell n (i, j, k) -> exists p, aget ov g pos i j k = Ok p /\
      aget ov g (ls_phi l') i j k = Ok (distance p (li_center inp) - li_radius inp)) /\
    (forall i j k i' j' k' p q u v, interior_cell n (i, j, k) -> interior_cell n (i', j', k') ->
      aget ov g pos i j k = Ok p -> aget ov g pos i' j' k' = Ok q ->
      aget ov g (ls_phi l') i j k = Ok u -> aget ov g (ls_phi l') i' j' k' = Ok v -> Rabs (u - v) <= distance p q).
Proof. exact circle_signed_distance. Qed.
Print Assumptions C36_circle.
Example C36_example : exists g l pos, built Trap 3 (V3 2 3 4)%Z 1 lo1 hi1 g /\ levelset_on g l /\ array_on g pos /\
  (forall i j k, padded_cell 3 (V3 2 3 4)%Z 1 (i, j, k) -> exists p, node Trap g i j k = Ok p /\ aget Trap g pos i j k = Ok p).
Proof. exact circle_case. Qed.

(** *** C37: true when both centre coordinates are equal, false otherwise *)
Theorem C37_circular_partial : forall ov dim n pad bmin bmax (g : grid R) hist inp pos time lv c rest,
  built ov dim n pad bmin bmax g -> (2 <= dim)%nat -> (1 <= pad)%Z -> velocity_on g lv -> array_on g pos ->
  vi_name inp = "CIRCULAR"%string -> vi_center inp = c :: c :: rest ->
  exists lv' m', av_compute ov true g (after_lookups VEL_NOT_DEFINED vel_map0 hist) inp pos time lv = Ok (lv', m') /\
    only_velocity ov dim n pad g lv lv' /\
    forall i j k, interior_cell n (i, j, k) -> exists p v, aget ov g pos i j k = Ok p /\ aget ov g (lv_vel lv') i j k = Ok v /\
      (vx p = c -> vy p = c -> v = V3 0 0 0) /\ vx v * (vx p - c) + vy v * (vy p - c) = 0 /\ vz v = 0 /\
      distance v (V3 0 0 0) = omega * sqrt ((vx p - c) ^ 2 + (vy p - c) ^ 2).
Proof. exact circular_same_centre. Qed.
Print Assumptions C37_circular_partial.
Theorem C37_circular_refuted : forall ov dim n pad bmin bmax (g : grid R) hist inp pos time lv c0 c1 rest,
  built ov dim n pad bmin bmax g -> (2 <= dim)%nat -> (1 <= pad)%Z -> velocity_on g lv -> array_on g pos ->
  vi_name inp = "CIRCULAR"%string -> vi_center inp = c0 :: c1 :: rest -> c0 <> c1 ->
  exists lv' m', av_compute ov true g (after_lookups VEL_NOT_DEFINED vel_map0 hist) inp pos time lv = Ok (lv', m') /\
    forall i j k p, interior_cell n (i, j, k) -> aget ov g pos i j k = Ok p -> exists v, aget ov g (lv_vel lv') i j k = Ok v /\
      (vx p = c0 -> vy p = c1 -> vx v <> 0) /\ v <> rotation omega c0 c1 p.
Proof. exact circular_wrong_centre. Qed.
Print Assumptions C37_circular_refuted.
Example C37_example : exists g pos, built Trap 2 (V3 4 3 1)%Z 1 lo1 hi1 g /\ array_on g pos /\ velocity_on g (ls_velocity_ctor g) /\
  interior_cell (V3 4 3 1)%Z (2, 1, 0)%Z /\ aget Trap g pos 2 1 0 = Ok (V3 (/ 4) 0 0) /\
  vi_center (vin "CIRCULAR" [/ 4; 0; 0] "ANALYTICAL") = [/ 4; 0; 0] /\ / 4 <> 0.
Proof. exact circular_case. Qed.

(** *** C38: no interior gradient is ever written; the exact gradient is not zero *)
Theorem C38_gradient_refuted : forall ov dim n pad bmin bmax (g : grid R) hist inp pos time c0 c1 rest,
  built ov dim n pad bmin bmax g -> (2 <= dim)%nat -> (1 <= pad)%Z -> array_on g pos ->
  vi_name inp = "CIRCULAR"%string -> vi_center inp = c0 :: c1 :: rest ->
  exists lv' m', av_compute ov true g (after_lookups VEL_NOT_DEFINED vel_map0 hist) inp pos time (ls_velocity_ctor g) = Ok (lv', m') /\
    forall i j k, interior_cell n (i, j, k) -> exists p, aget ov g pos i j k = Ok p /\
      aget ov g (lv_vel lv') i j k = Ok (rotation omega c1 c0 p) /\ aget ov g (lv_grad lv') i j k = Ok mzero /\
      ~ derivable_pt_lim (fun t => vget (rotation omega c1 c0 (vset p AY t)) AX) (vy p) (mget (@mzero R _) AX AY).
Proof. exact analytical_gradient_zero. Qed.
Print Assumptions C38_gradient_refuted.

(** *** C39: whatever names were looked up before *)
Theorem C39_unknown_levelset : forall T (NT : Num T) (TT : Trans T) ov (g : grid T) hist inp pos l, li_name inp <> "CIRCLE"%string ->
  exists m', als_compute ov g (after_lookups LS_NOT_DEFINED ls_map0 hist) inp pos l = Ok (l, m').
Proof. exact @unknown_levelset. Qed.
Print Assumptions C39_unknown_levelset.
Theorem C39_unknown_velocity : forall T (NT : Num T) (TT : Trans T) ov bt (g : grid T) hist inp pos time lv, vi_name inp <> "CIRCULAR"%string ->
  exists m', av_compute ov bt g (after_lookups VEL_NOT_DEFINED vel_map0 hist) inp pos time lv = Ok (lv, m').
Proof. exact @unknown_velocity. Qed.
Print Assumptions C39_unknown_velocity.
Example C39_example : li_name (mkLSI "circle" (V3 0 0 0) 1 "CENTRAL") <> "CIRCLE"%string /\ vi_name (vin "UNIFORM" [] "") <> "CIRCULAR"%string.
Proof. split; discriminate. Qed.

(** *** C40: only builds with BUILD_TESTS compute the field; any other build exits *)
Theorem C40_tests_build_partial : forall T (NT : Num T) (TT : Trans T) ov dim n pad bmin bmax (g : grid T) hist inp pos time lv c0 c1 rest,
  built ov dim n pad bmin bmax g -> (2 <= dim)%nat -> (1 <= pad)%Z -> velocity_on g lv -> array_on g pos ->
  vi_name inp = "CIRCULAR"%string -> vi_center inp = c0 :: c1 :: rest ->
  exists lv' m', av_compute ov true g (after_lookups VEL_NOT_DEFINED vel_map0 hist) inp pos time lv = Ok (lv', m') /\
    only_velocity ov dim n pad g lv lv' /\
    (forall i j k, interior_cell n (i, j, k) -> exists p, aget ov g pos i j k = Ok p /\ aget ov g (lv_vel lv') i j k = Ok (circ_vel c0 c1 p)) /\
    (vi_scheme inp <> "ANALYTICAL"%string -> lv_grad lv' = lv_grad lv) /\
    (vi_scheme inp = "ANALYTICAL"%string -> forall i j k, padded_cell dim n pad (i, j, k) -> exists m, aget ov g (lv_grad lv) i j k = Ok m /\
       aget ov g (lv_grad lv') i j k = Ok (if cell_eqb (i, j, k) (corner dim pad) then grad0 m else if cell_eqb (i, j, k) (corner1 dim pad) then grad1 m else m)).
Proof. exact @circular_ok. Qed.
Print Assumptions C40_tests_build_partial.
Theorem C40_release_refuted : forall T (NT : Num T) (TT : Trans T) ov (g : grid T) hist inp pos time lv, vi_name inp = "CIRCULAR"%string ->
  av_compute ov false g (after_lookups VEL_NOT_DEFINED vel_map0 hist) inp pos time lv = Exit 0.
Proof. exact @circular_release. Qed.
Print Assumptions C40_release_refuted.

(** *** C72: the field is a rigid rotation about the centre with swapped coordinates *)
Theorem C72_swapped_centre : forall ov dim n pad bmin bmax (g : grid R) hist inp pos time lv c0 c1 rest,
  built ov dim n pad bmin bmax g -> (2 <= dim)%nat -> (1 <= pad)%Z -> velocity_on g lv -> array_on g pos ->
  vi_name inp = "CIRCULAR"%string -> vi_center inp = c0 :: c1 :: rest ->
  exists lv' m', av_compute ov true g (after_lookups VEL_NOT_DEFINED vel_map0 hist) inp pos time lv = Ok (lv', m') /\
    only_velocity ov dim n pad g lv lv' /\
    forall i j k, interior_cell n (i, j, k) -> exists p, aget ov g pos i j k = Ok p /\ aget ov g (lv_vel lv') i j k = Ok (rotation omega c1 c0 p).
Proof. exact circular_rotates. Qed.
Print Assumptions C72_swapped_centre.

(** *** C73: where the analytical gradient goes *)
Theorem C73_gradient_goes_to_ghosts : forall T (NT : Num T) (TT : Trans T) ov dim n pad bmin bmax (g : grid T) hist inp pos time lv c0 c1 rest,
  built ov dim n pad bmin bmax g -> (2 <= dim)%nat -> (1 <= pad)%Z -> velocity_on g lv -> array_on g pos ->
  vi_name inp = "CIRCULAR"%string -> vi_center inp = c0 :: c1 :: rest ->
  exists lv' m', av_compute ov true g (after_lookups VEL_NOT_DEFINED vel_map0 hist) inp pos time lv = Ok (lv', m') /\
    only_velocity ov dim n pad g lv lv' /\
    (forall i j k, interior_cell n (i, j, k) -> exists p, aget ov g pos i j k = Ok p /\ aget ov g (lv_vel lv') i j k = Ok (circ_vel c0 c1 p)) /\
    (vi_scheme inp <> "ANALYTICAL"%string -> lv_grad lv' = lv_grad lv) /\
    (vi_scheme inp = "ANALYTICAL"%string -> forall i j k, padded_cell dim n pad (i, j, k) -> exists m, aget ov g (lv_grad lv) i j k = Ok m /\
       aget ov g (lv_grad lv') i j k = Ok (if cell_eqb (i, j, k) (corner dim pad) then grad0 m else if cell_eqb (i, j, k) (corner1 dim pad) then grad1 m else m)).
Proof. exact @circular_ok. Qed.
Print Assumptions C73_gradient_goes_to_ghosts.
