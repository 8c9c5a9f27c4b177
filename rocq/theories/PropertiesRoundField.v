(** C124 and C125: the analytical level set and velocity in double arithmetic. *)
From Coq Require Import ZArith List String Reals.
From Flocq Require Import Core BinarySingleNaN.
From Verif Require Import Base Num NumB64 ModelVec ModelGrid ModelArray ModelAnalytic SpecGrid SpecInterp SpecTemporal SpecB64 SpecRound SpecAnalytic SpecRoundField
  ProofsPi ProofsRoundField.
Import ListNotations.
Open Scope R_scope.

(** *** C124: when all coordinates and the radius are at most A, every value CIRCLE stores is the signed distance
    of the stored position, up to 2^-47 A. *)
Theorem C124_circle_rounding : forall ov dim n pad bmin bmax (g : grid b64) hist inp pos l A,
  built ov dim n pad bmin bmax g -> levelset_on g l -> array_on g pos -> li_name inp = "CIRCLE"%string ->
  moderate A -> points_at_most ov n g pos A -> point_at_most A (li_center inp) -> at_most A (li_radius inp) ->
  exists l' m', als_compute ov g (after_lookups LS_NOT_DEFINED ls_map0 hist) inp pos l = Ok (l', m') /\ only_phi ov dim n pad g l l' /\
    forall i j k, interior_cell n (i, j, k) -> exists p f, aget ov g pos i j k = Ok p /\ aget ov g (ls_phi l') i j k = Ok f /\ is_finite f = true /\
      Rabs (real f - (distance (reals p) (reals (li_center inp)) - real (li_radius inp))) <= bpow radix2 (-47) * A.
Proof. exact circle_run. Qed.
Print Assumptions C124_circle_rounding.

(** On the positions the grid itself generates, the value is the signed distance of the exact cell centre up to
    2^-45 A, and its sign is right wherever the exact distance to the circle is larger than that. *)
Theorem C124_circle_total : forall ov dim n bmin bmax (g : grid b64) A,
  built ov dim n 1 bmin bmax g -> sane_box dim n bmin bmax -> moderate A -> box_within dim A bmin bmax -> forall hist inp pos l,
  levelset_on g l -> array_on g pos -> holds_positions ov n g pos -> li_name inp = "CIRCLE"%string ->
  point_at_most A (li_center inp) -> at_most A (li_radius inp) ->
  exists l' m', als_compute ov g (after_lookups LS_NOT_DEFINED ls_map0 hist) inp pos l = Ok (l', m') /\ only_phi ov dim n 1 g l l' /\
    forall i j k, interior_cell n (i, j, k) -> let x := centre_pos dim n (reals bmin) (reals bmax) (i, j, k) in
      let d := distance x (reals (li_center inp)) - real (li_radius inp) in
      exists f, aget ov g (ls_phi l') i j k = Ok f /\ is_finite f = true /\ Rabs (real f - d) <= bpow radix2 (-45) * A /\
        (d < - (bpow radix2 (-45) * A) -> nltb f (nofZ 0) = true) /\ (bpow radix2 (-45) * A < d -> nltb (nofZ 0) f = true).
Proof. exact circle_total. Qed.
Print Assumptions C124_circle_total.

(** *** C125: the constant the code uses for pi is the double nearest to pi. *)
Theorem C125_pi : is_finite (npi : b64) = true /\ real npi = nearest PI.
Proof. exact (conj (proj1 npi_val) npi_nearest). Qed.
Print Assumptions C125_pi.

(** Every velocity CIRCULAR stores is the rotation with angular speed pi / 3.15 about (c1, c0), up to 2^-49 A. *)
Theorem C125_circular_rounding : forall ov dim n pad bmin bmax (g : grid b64) hist inp pos time lv c0 c1 rest A,
  built ov dim n pad bmin bmax g -> (2 <= dim)%nat -> (1 <= pad)%Z -> velocity_on g lv -> array_on g pos ->
  vi_name inp = "CIRCULAR"%string -> vi_center inp = c0 :: c1 :: rest ->
  moderate A -> points_at_most ov n g pos A -> at_most A c0 -> at_most A c1 ->
  exists lv' m', av_compute ov true g (after_lookups VEL_NOT_DEFINED vel_map0 hist) inp pos time lv = Ok (lv', m') /\ only_velocity ov dim n pad g lv lv' /\
    forall i j k, interior_cell n (i, j, k) -> exists p v, aget ov g pos i j k = Ok p /\ aget ov g (lv_vel lv') i j k = Ok v /\
      let w := rotation omega (real c1) (real c0) (reals p) in
      forall a, is_finite (vget v a) = true /\ Rabs (real (vget v a) - vget w a) <= bpow radix2 (-49) * A.
Proof. exact circular_run. Qed.
Print Assumptions C125_circular_rounding.

Theorem C125_circular_total : forall ov dim n bmin bmax (g : grid b64) A,
  built ov dim n 1 bmin bmax g -> sane_box dim n bmin bmax -> moderate A -> box_within dim A bmin bmax -> forall hist inp pos time lv c0 c1 rest,
  (2 <= dim)%nat -> velocity_on g lv -> array_on g pos -> holds_positions ov n g pos ->
  vi_name inp = "CIRCULAR"%string -> vi_center inp = c0 :: c1 :: rest -> at_most A c0 -> at_most A c1 ->
  exists lv' m', av_compute ov true g (after_lookups VEL_NOT_DEFINED vel_map0 hist) inp pos time lv = Ok (lv', m') /\ only_velocity ov dim n 1 g lv lv' /\
    forall i j k, interior_cell n (i, j, k) -> let x := centre_pos dim n (reals bmin) (reals bmax) (i, j, k) in
      exists v, aget ov g (lv_vel lv') i j k = Ok v /\ let w := rotation omega (real c1) (real c0) x in
      forall a, is_finite (vget v a) = true /\ Rabs (real (vget v a) - vget w a) <= bpow radix2 (-46) * A.
Proof. exact circular_total. Qed.
Print Assumptions C125_circular_total.

(** All hypotheses hold for the square [-1, 1]^2 cut into 4 by 3 cells, a circle of radius 1/2 about the origin and a
    rotation about the origin. *)
Example C124_C125_case : exists g pos, built Trap 2 (V3 4 3 1)%Z 1 (sq (-1)) (sq 1) g /\ sane_box 2 (V3 4 3 1)%Z (sq (-1)) (sq 1) /\ moderate 1 /\ box_within 2 1 (sq (-1)) (sq 1) /\
  levelset_on g (levelset_ctor g) /\ velocity_on g (ls_velocity_ctor g) /\ array_on g pos /\ holds_positions Trap (V3 4 3 1)%Z g pos /\ points_at_most Trap (V3 4 3 1)%Z g pos 2 /\ moderate 2 /\
  point_at_most 1 (li_center disc) /\ at_most 1 (li_radius disc) /\ vi_center spin = [b64_make 0 0; b64_make 0 0] /\ at_most 1 (b64_make 0 0).
Proof. exact field_case. Qed.
