(** C129 and C130: errors in the data, and the total error in double. *)
From Coq Require Import ZArith List Reals.
From Flocq Require Import Core BinarySingleNaN.
From Verif Require Import Base Num NumB64 ModelVec ModelGrid ModelArray ModelInterp ModelTemporal SpecGrid SpecInterp SpecGradient SpecTemporal SpecAccuracy SpecB64 SpecRound SpecSensitive
  ProofsSensitive ProofsSensitiveStep ProofsSensitiveCases ProofsAccuracy ProofsInterpApi ProofsAccuracyStep.
Open Scope R_scope.

(** C129: two level sets whose data differ by at most A (derivatives measured in multiples of A over the spacings) are interpolated to
    values that differ by at most (5/4)^dim A and to gradients that differ by at most 4 (5/4)^(dim-1) A over the spacing. *)
Theorem C129_interp_sensitivity ov dim n bmin bmax (g : grid R) l l' S S' A :
  built ov dim n 1 bmin bmax g -> levelset_on g l -> levelset_on g l' -> proper_box dim bmin bmax -> interp_defined ov dim ->
  stores ov dim n 1 g l S -> stores ov dim n 1 g l' S' ->
  sized dim n 1 (spacings n bmin bmax) A (fun c => cv_minus (S c) (S' c)) ->
  forall x, in_lattice dim n bmin bmax x ->
  exists f f', interpolate ov g x l false = Ok f /\ interpolate ov g x l' false = Ok f' /\
    Rabs (f_phi f - f_phi f') <= value_gain dim * A /\
    forall a, used dim a = true -> Rabs (vget (f_psi f) a - vget (f_psi f') a) <= slope_gain dim * (A / vget (spacings n bmin bmax) a).
Proof. exact (interp_sensitive ov dim n bmin bmax g l l' S S' A). Qed.
Print Assumptions C129_interp_sensitivity.

(** C129: the same for one semi-Lagrangian step; new gradients also carry the factors of the displaced frame. *)
Theorem C129_step_sensitivity ov dim n bmin bmax (g : grid R) dt lv l l' S S' A :
  built ov dim n 1 bmin bmax g -> levelset_on g l -> levelset_on g l' -> velocity_on g lv -> proper_box dim bmin bmax -> interp_defined ov dim ->
  stores ov dim n 1 g l S -> stores ov dim n 1 g l' S' ->
  sized dim n 1 (spacings n bmin bmax) A (fun c => cv_minus (S c) (S' c)) ->
  (forall i j k p v, interior_cell n (i, j, k) -> node ov g i j k = Ok p -> aget ov g (lv_vel lv) i j k = Ok v -> in_lattice dim n bmin bmax (foot dt v p)) ->
  exists l1 l1', sl_compute ov g dt lv l = Ok l1 /\ sl_compute ov g dt lv l' = Ok l1' /\
  forall i j k, interior_cell n (i, j, k) -> exists m p p' s s', aget ov g (lv_grad lv) i j k = Ok m /\
    aget ov g (ls_phi l1) i j k = Ok p /\ aget ov g (ls_phi l1') i j k = Ok p' /\ Rabs (p - p') <= value_gain dim * A /\
    aget ov g (ls_psi l1) i j k = Ok s /\ aget ov g (ls_psi l1') i j k = Ok s' /\
    forall a, Rabs (vget s a - vget s' a) <=
      over_axes dim (fun r => Rabs ((if axis_eqb r a then 1 else 0) - dt * mget m r a) * (slope_gain dim * (A / vget (spacings n bmin bmax) r))).
Proof. exact (step_sensitive ov dim n bmin bmax g dt lv l l' S S' A). Qed.
Print Assumptions C129_step_sensitivity.

(** A product of sines in two dimensions, with one added to every value, and a growing flow. *)
Example C129_case : exists (g : grid R) (l l' : levelset R) (lv : ls_velocity R),
  let n := (V3 4 3 1)%Z in let S c := jet sin3 (centre_pos 2 n lo1 hi1 c) in
  built Wrap 2 n 1 lo1 hi1 g /\ levelset_on g l /\ levelset_on g l' /\ velocity_on g lv /\ proper_box 2 lo1 hi1 /\ interp_defined Wrap 2 /\
  stores Wrap 2 n 1 g l S /\ stores Wrap 2 n 1 g l' (fun c => raised (S c)) /\
  sized 2 n 1 (spacings n lo1 hi1) 1 (fun c => cv_minus (raised (S c)) (S c)) /\
  (forall i j k p v, interior_cell n (i, j, k) -> node Wrap g i j k = Ok p -> aget Wrap g (lv_vel lv) i j k = Ok v -> in_lattice 2 n lo1 hi1 (foot (/ 10) v p)).
Proof. exact raised_case. Qed.

(** C130: data in double that lie within eps of a smooth field and its derivatives are interpolated in double to the field and its
    gradient, up to the error of the method, the amplified error of the data and a rounding error. *)
Theorem C130_interp_total ov dim n bmin bmax (g : grid b64) l S M rho D MD eps :
  let h := spacings n (reals bmin) (reals bmax) in
  built ov dim n 1 bmin bmax g -> levelset_on g l -> stores64 ov dim n 1 g l S -> interp_defined ov dim -> fine_box dim rho n bmin bmax ->
  moderate M -> sized dim n 1 h M S -> smooth D ->
  (forall i j k p, (i <= 4)%nat -> (j <= 4)%nat -> (k <= 4)%nat -> centre_box dim n (reals bmin) (reals bmax) p -> Rabs (D i j k (vx p) (vy p) (vz p)) <= MD i j k) ->
  sized dim n 1 h eps (fun c => cv_minus (S c) (jet D (centre_pos dim n (reals bmin) (reals bmax) c))) ->
  forall x, near_box dim n bmin bmax x -> let p := flat dim (reals x) in
  exists f, interpolate ov g x l false = Ok f /\ is_finite (f_phi f) = true /\
    Rabs (real (f_phi f) - D 0%nat 0%nat 0%nat (vx p) (vy p) (vz p)) <= error_bound dim None h MD + value_gain dim * eps + round_bound dim rho * M /\
    forall a, used dim a = true -> is_finite (vget (f_psi f) a) = true /\
      Rabs (real (vget (f_psi f) a) - first_order D a (vx p) (vy p) (vz p)) <=
        error_bound dim (Some a) h MD + slope_gain dim * (eps / vget h a) + round_bound dim rho * (M / vget h a).
Proof. exact (interp_total ov dim n bmin bmax g l S M rho D MD eps). Qed.
Print Assumptions C130_interp_total.

(** C130: one step in double. The new value is compared with the field at the start X 0 of the path that arrives at the cell centre with the
    stored velocity; the new gradient with the gradient of the field at the foot, multiplied by the matrix of the displaced frame. *)
Theorem C130_step_total ov dim n bmin bmax (g : grid b64) l S M rho D MD eps lv dt hm K X X1 X2 :
  let h := spacings n (reals bmin) (reals bmax) in let pos := centre_pos dim n (reals bmin) (reals bmax) in
  built ov dim n 1 bmin bmax g -> levelset_on g l -> stores64 ov dim n 1 g l S -> interp_defined ov dim -> fine_box dim rho n bmin bmax ->
  moderate M -> sized dim n 1 h M S -> smooth D ->
  (forall i j k p, (i <= 4)%nat -> (j <= 4)%nat -> (k <= 4)%nat -> centre_box dim n (reals bmin) (reals bmax) p -> Rabs (D i j k (vx p) (vy p) (vz p)) <= MD i j k) ->
  sized dim n 1 h eps (fun c => cv_minus (S c) (jet D (pos c))) ->
  velocity_on g lv -> slow_flow ov dim n bmin bmax dt g lv -> moderate hm -> (forall a, used dim a = true -> hm <= vget h a) -> 0 <= real dt ->
  (forall i j k v, interior_cell n (i, j, k) -> aget ov g (lv_vel lv) i j k = Ok v ->
     arrives dim (real dt) (X (i, j, k)) (X1 (i, j, k)) (X2 (i, j, k)) (pos (i, j, k)) (reals v) K /\
     centre_box dim n (reals bmin) (reals bmax) (start dim (X (i, j, k)))) ->
  exists l', sl_compute ov g dt lv l = Ok l' /\
  forall i j k, interior_cell n (i, j, k) -> exists v m phi psi, aget ov g (lv_vel lv) i j k = Ok v /\ aget ov g (lv_grad lv) i j k = Ok m /\
    aget ov g (ls_phi l') i j k = Ok phi /\ aget ov g (ls_psi l') i j k = Ok psi /\ is_finite phi = true /\
    (let q := start dim (X (i, j, k)) in
     Rabs (real phi - D 0%nat 0%nat 0%nat (vx q) (vy q) (vz q)) <=
       error_bound dim None h MD + K / 2 * real dt ^ 2 * over_axes dim (slope_bound MD) + value_gain dim * eps + round_bound dim rho * M) /\
    (let q := flat dim (foot (real dt) (reals v) (pos (i, j, k))) in let w r a := (if axis_eqb r a then 1 else 0) - real dt * real (mget m r a) in
     forall a, used dim a = true -> is_finite (vget psi a) = true /\
       Rabs (real (vget psi a) - over_axes dim (fun r => w r a * first_order D r (vx q) (vy q) (vz q))) <=
       over_axes dim (fun r => Rabs (w r a) * (error_bound dim (Some r) h MD + slope_gain dim * (eps / vget h r))) + 8 * round_bound dim rho * (M / hm)).
Proof. exact (fun Hb Hl HS Hd Hf HM Hz SD HD He Hv HV Hh Hm Ht HX => step_total ov dim n bmin bmax g l S M rho D MD eps Hb Hl HS Hd Hf HM Hz SD HD He lv dt hm K Hv HV Hh Hm Ht X X1 X2 HX). Qed.
Print Assumptions C130_step_total.

(** A product of sines in three dimensions on 2 x 3 x 4 cells, its data rounded to multiples of 2^-40, and a uniform wind over one unit of time. *)
Example C130_case : exists (g : grid b64) (l : levelset b64) (lv : ls_velocity b64),
  let lo := reals (cube64 (-1)) in let hi := reals (cube64 1) in let h := spacings n234 lo hi in
  let pos := centre_pos 3 n234 lo hi in let S c := cv_map held (jet sin3 (pos c)) in let dt := b64_make 1 0 in
  built Wrap 3 n234 1 (cube64 (-1)) (cube64 1) g /\ levelset_on g l /\ stores64 Wrap 3 n234 1 g l S /\
  interp_defined Wrap 3 /\ fine_box 3 2 n234 (cube64 (-1)) (cube64 1) /\ moderate 2 /\ sized 3 n234 1 h 2 S /\
  smooth sin3 /\ (forall i j k p, (i <= 4)%nat -> (j <= 4)%nat -> (k <= 4)%nat -> centre_box 3 n234 lo hi p -> Rabs (sin3 i j k (vx p) (vy p) (vz p)) <= 1) /\
  sized 3 n234 1 h (bpow radix2 (-41)) (fun c => cv_minus (S c) (jet sin3 (pos c))) /\
  velocity_on g lv /\ slow_flow Wrap 3 n234 (cube64 (-1)) (cube64 1) dt g lv /\ moderate (/ 2) /\ (forall a, used 3 a = true -> / 2 <= vget h a) /\ 0 <= real dt /\
  (forall i j k v, interior_cell n234 (i, j, k) -> aget Wrap g (lv_vel lv) i j k = Ok v ->
     arrives 3 (real dt) (glide (i, j, k)) (fun _ _ => / 8) (fun _ _ => 0) (pos (i, j, k)) (reals v) 0 /\ centre_box 3 n234 lo hi (start 3 (glide (i, j, k)))).
Proof. exact sin_case. Qed.
