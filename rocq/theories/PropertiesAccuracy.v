(** C98-C100: accuracy of interpolation and of a semi-Lagrangian step. *)
From Coq Require Import ZArith List Reals Lra Lia.
From Verif Require Import Base Num ModelVec ModelGrid ModelArray ModelInterp ModelTemporal SpecGrid SpecInterp SpecGradient SpecTemporal SpecAccuracy
  ProofsInterpApi ProofsAccuracy ProofsAccuracyStep ProofsAccuracyLinear.
Open Scope R_scope.

(** A level set that holds the values, gradients and mixed derivatives of a smooth field at the cell centres is
    interpolated, anywhere in the lattice, with an error bounded by the fourth derivatives of the field. *)
Theorem C98_error ov dim n bmin bmax (g : grid R) (l : levelset R) D M x :
  built ov dim n 1 bmin bmax g -> levelset_on g l -> proper_box dim bmin bmax -> interp_defined ov dim ->
  smooth D ->
  (forall i j k p, (i <= 4)%nat -> (j <= 4)%nat -> (k <= 4)%nat -> centre_box dim n bmin bmax p ->
     Rabs (D i j k (vx p) (vy p) (vz p)) <= M i j k) ->
  stores ov dim n 1 g l (fun c => jet D (centre_pos dim n bmin bmax c)) -> in_lattice dim n bmin bmax x ->
  let p := flat dim x in
  exists f, interpolate ov g x l false = Ok f /\
    Rabs (f_phi f - D 0%nat 0%nat 0%nat (vx p) (vy p) (vz p)) <= error_bound dim None (spacings n bmin bmax) M /\
    (forall a, used dim a = true -> Rabs (vget (f_psi f) a - first_order D a (vx p) (vy p) (vz p)) <= error_bound dim (Some a) (spacings n bmin bmax) M).
Proof. intros H1 H2 H3 H4 H5 H6 H7 H8. exact (interp_accuracy ov dim n bmin bmax g l H1 H2 H3 H4 D M H5 H6 x H7 H8). Qed.
Print Assumptions C98_error.

(** The size of the bound on a grid with equal spacings h <= 1. *)
Theorem C98_order dim h M : (1 <= dim <= 3)%nat -> 0 < h <= 1 -> 0 <= M ->
  error_bound dim None (V3 h h h) (fun _ _ _ => M) <= M * h ^ 4 / 100 /\
  forall a, error_bound dim (Some a) (V3 h h h) (fun _ _ _ => M) <= M * h ^ 3 / 14.
Proof. exact (order dim h M). Qed.
Print Assumptions C98_order.

Example C98_case : exists g l x,
  built Wrap 3 (V3 2 3 4)%Z 1 lo1 hi1 g /\ levelset_on g l /\ proper_box 3 lo1 hi1 /\ interp_defined Wrap 3 /\ smooth sin3 /\
  (forall i j k p, (i <= 4)%nat -> (j <= 4)%nat -> (k <= 4)%nat -> centre_box 3 (V3 2 3 4)%Z lo1 hi1 p -> Rabs (sin3 i j k (vx p) (vy p) (vz p)) <= 1) /\
  stores Wrap 3 (V3 2 3 4)%Z 1 g l (fun c => jet sin3 (centre_pos 3 (V3 2 3 4)%Z lo1 hi1 c)) /\ in_lattice 3 (V3 2 3 4)%Z lo1 hi1 x.
Proof.
  destruct (stored_case Wrap 3 (V3 2 3 4)%Z 1 (fun c => jet sin3 (centre_pos 3 (V3 2 3 4)%Z lo1 hi1 c)) good_3d1 I (or_intror eq_refl)) as (g & l & x & H1 & H2 & H3 & H4 & H5).
  exists g, l, x. split; [exact H1|]. split; [exact H2|]. split; [exact H3|]. split; [right; reflexivity|]. split; [exact sin3_smooth|].
  split; [intros; apply sin3_bound|]. auto.
Qed.

(** C99: one semi-Lagrangian step. Let each interior node p be reached, at time dt, by a particle path X that arrives
    with the stored velocity and accelerates by at most K. The exact new value at p is the field's value at the start
    of that path. The computed value differs by at most the interpolation error plus K dt^2/2 times the slopes of the
    field; the computed gradient is that of the field carried along straight lines, up to the interpolation error. *)
Theorem C99_step_error ov dim n bmin bmax (g : grid R) dt K lv (l : levelset R) D M (X X1 X2 : cell -> axis -> R -> R) :
  built ov dim n 1 bmin bmax g -> levelset_on g l -> velocity_on g lv -> proper_box dim bmin bmax -> interp_defined ov dim -> 0 <= dt ->
  smooth D ->
  (forall i j k p, (i <= 4)%nat -> (j <= 4)%nat -> (k <= 4)%nat -> centre_box dim n bmin bmax p ->
     Rabs (D i j k (vx p) (vy p) (vz p)) <= M i j k) ->
  stores ov dim n 1 g l (fun c => jet D (centre_pos dim n bmin bmax c)) ->
  (forall i j k p v, interior_cell n (i, j, k) -> node ov g i j k = Ok p -> aget ov g (lv_vel lv) i j k = Ok v ->
     in_lattice dim n bmin bmax (foot dt v p) /\ arrives dim dt (X (i, j, k)) (X1 (i, j, k)) (X2 (i, j, k)) p v K /\
     centre_box dim n bmin bmax (start dim (X (i, j, k)))) ->
  exists l', sl_compute ov g dt lv l = Ok l' /\ only_interior ov dim n 1 g l l' /\
  forall i j k, interior_cell n (i, j, k) -> exists p v m phi psi, node ov g i j k = Ok p /\ aget ov g (lv_vel lv) i j k = Ok v /\
    aget ov g (lv_grad lv) i j k = Ok m /\ aget ov g (ls_phi l') i j k = Ok phi /\ aget ov g (ls_psi l') i j k = Ok psi /\
    (let q := start dim (X (i, j, k)) in
     Rabs (phi - D 0%nat 0%nat 0%nat (vx q) (vy q) (vz q)) <=
       error_bound dim None (spacings n bmin bmax) M + K / 2 * dt ^ 2 * over_axes dim (slope_bound M)) /\
    (let q := flat dim (foot dt v p) in let w r a := (if axis_eqb r a then 1 else 0) - dt * mget m r a in
     forall a, Rabs (vget psi a - over_axes dim (fun r => w r a * first_order D r (vx q) (vy q) (vz q))) <=
       over_axes dim (fun r => Rabs (w r a) * error_bound dim (Some r) (spacings n bmin bmax) M)).
Proof. intros H1 H2 H3 H4 H5 H6 H7 H8 H9 H10. exact (step_error ov dim n bmin bmax g dt K lv l H1 H2 H3 H4 H5 H6 D M H7 H8 H9 X X1 X2 H10). Qed.
Print Assumptions C99_step_error.
(** the expanding flow x/4 on (-1,1)^2, dt = 1/10 *)
Example C99_case : exists g lv l X X1 X2,
  built Wrap 2 (V3 4 3 1)%Z 1 lo1 hi1 g /\ levelset_on g l /\ velocity_on g lv /\ proper_box 2 lo1 hi1 /\ interp_defined Wrap 2 /\ smooth sin3 /\
  (forall i j k p, (i <= 4)%nat -> (j <= 4)%nat -> (k <= 4)%nat -> centre_box 2 (V3 4 3 1)%Z lo1 hi1 p -> Rabs (sin3 i j k (vx p) (vy p) (vz p)) <= 1) /\
  stores Wrap 2 (V3 4 3 1)%Z 1 g l (fun c => jet sin3 (centre_pos 2 (V3 4 3 1)%Z lo1 hi1 c)) /\
  (forall i j k p v, interior_cell (V3 4 3 1)%Z (i, j, k) -> node Wrap g i j k = Ok p -> aget Wrap g (lv_vel lv) i j k = Ok v ->
    in_lattice 2 (V3 4 3 1)%Z lo1 hi1 (foot (/ 10) v p) /\ arrives 2 (/ 10) (X (i, j, k)) (X1 (i, j, k)) (X2 (i, j, k)) p v (/ 16) /\
    centre_box 2 (V3 4 3 1)%Z lo1 hi1 (start 2 (X (i, j, k)))).
Proof. exact c99_case. Qed.

(** C100: linear interpolation of a field with a bounded second derivative, sampled at the nodes. *)
Theorem C100_linear_error ov n bmin bmax (g : grid R) x (al : array R) f d1 d2 M :
  built ov 1 n 1 bmin bmax g -> array_on g al -> proper_box 1 bmin bmax -> interp_defined ov 1 -> in_lattice 1 n bmin bmax x ->
  let h := spacing (vx bmin) (vx bmax) (vx n) in
  derivs (vx bmin - h / 2) (vx bmax + h / 2) f [d1; d2] -> (forall t, vx bmin - h / 2 <= t <= vx bmax + h / 2 -> Rabs (d2 t) <= M) ->
  (forall i, padded_cell 1 n 1 (i, 0, 0)%Z -> exists p, node ov g i 0 0 = Ok p /\ aget ov g al i 0 0 = Ok (f (vx p))) ->
  exists v, linear_interp ov g x al = Ok v /\ Rabs (v - f (vx x)) <= h ^ 2 / 8 * M.
Proof. exact (linear_error ov n bmin bmax g x al f d1 d2 M). Qed.
Print Assumptions C100_linear_error.
Example C100_case : exists g al,
  built Wrap 1 (V3 5 1 1)%Z 1 lo1 hi1 g /\ array_on g al /\ proper_box 1 lo1 hi1 /\ interp_defined Wrap 1 /\
  (forall lo hi, derivs lo hi sin [cos; fun t => - sin t]) /\ (forall t, Rabs (- sin t) <= 1) /\
  (forall i, padded_cell 1 (V3 5 1 1)%Z 1 (i, 0, 0)%Z -> exists p, node Wrap g i 0 0 = Ok p /\ aget Wrap g al i 0 0 = Ok (sin (vx p))).
Proof. exact linear_error_case. Qed.
