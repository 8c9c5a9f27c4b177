(** Property C147: one step of the library in its circular velocity field, compared with the exact rotation. *)
From Coq Require Import ZArith List String Reals.
From Coquelicot Require Import Derive_2d.
From Verif Require Import Base Num ModelVec ModelGrid ModelArray ModelInterp ModelTemporal ModelAnalytic ModelApp SpecGrid SpecInterp SpecGradient SpecTemporal SpecAccuracy SpecAnalytic SpecRefExist SpecTurn
  ProofsInterpApi ProofsAnalyticR ProofsTurn.
Open Scope R_scope.

(** A differentiable level set that turns with the rotation is the solution of the level set equation for this velocity. *)
Theorem C147_exact_rotation : forall f w cx cy, differentiable f ->
  (forall x y, turned f w cx cy 0 x y = f x y) /\
  forall t x y z, exists ux uy us, differentiable_pt_lim (fun x y => turned f w cx cy t x y) x y ux uy /\ derivable_pt_lim (fun t => turned f w cx cy t x y) t us /\
    let v := rotation w cx cy (V3 x y z) in us + vx v * ux + vy v * uy = 0.
Proof. exact turned_solves. Qed.
Print Assumptions C147_exact_rotation.

(** Positions, circular velocity and step as the program computes them, no cell centre further than r from the centre of rotation, a step in which
    nothing travels a whole cell: the new values are those of the turned level set up to the interpolation error and dt^2. The new gradient is that of the
    old level set at the foot of the path: it is carried along but not turned. *)
Theorem C147_turn_partial : forall ov n bmin bmax (g : grid R) dt r pos (l : levelset R) hist inp time c0 c1 rest,
  built ov 2 n 1 bmin bmax g -> levelset_on g l -> app_positions ov g = Ok pos -> proper_box 2 bmin bmax -> interp_defined ov 2 -> 0 <= dt -> 0 <= r ->
  vi_name inp = "CIRCULAR"%string -> vi_center inp = c0 :: c1 :: rest ->
  (forall i j k p, interior_cell n (i, j, k) -> node ov g i j k = Ok p -> (vx p - c1) ^ 2 + (vy p - c0) ^ 2 <= r ^ 2) ->
  omega * r * dt < spacing (vx bmin) (vx bmax) (vx n) -> omega * r * dt < spacing (vy bmin) (vy bmax) (vy n) ->
  forall D M, smooth D ->
  (forall i j k p, (i <= 4)%nat -> (j <= 4)%nat -> (k <= 4)%nat -> centre_box 2 n bmin bmax p -> Rabs (D i j k (vx p) (vy p) (vz p)) <= M i j k) ->
  stores ov 2 n 1 g l (fun c => jet D (centre_pos 2 n bmin bmax c)) ->
  exists lv m l', av_compute ov true g (after_lookups VEL_NOT_DEFINED vel_map0 hist) inp pos time (ls_velocity_ctor g) = Ok (lv, m) /\
  sl_compute ov g dt lv l = Ok l' /\ only_interior ov 2 n 1 g l l' /\
  forall i j k, interior_cell n (i, j, k) -> exists p phi psi, node ov g i j k = Ok p /\ aget ov g (ls_phi l') i j k = Ok phi /\ aget ov g (ls_psi l') i j k = Ok psi /\
    Rabs (phi - turned (fun x y => D 0%nat 0%nat 0%nat x y 0) omega c1 c0 dt (vx p) (vy p)) <=
      error_bound 2 None (spacings n bmin bmax) M + omega ^ 2 * r / 2 * dt ^ 2 * (M 1%nat 0%nat 0%nat + M 0%nat 1%nat 0%nat) /\
    let q := foot dt (rotation omega c1 c0 p) p in
    Rabs (vx psi - D 1%nat 0%nat 0%nat (vx q) (vy q) 0) <= error_bound 2 (Some AX) (spacings n bmin bmax) M /\
    Rabs (vy psi - D 0%nat 1%nat 0%nat (vx q) (vy q) 0) <= error_bound 2 (Some AY) (spacings n bmin bmax) M.
Proof. exact turn_step. Qed.
Print Assumptions C147_turn_partial.

(** So the gradient of the plane a x + b y + c is still (a, b) after the step, in every cell, and differs from the gradient of the turned plane by
    2 sin(omega dt / 2) |(a, b)|, an error of first order in dt. *)
Theorem C147_gradient_refuted : forall ov n bmin bmax (g : grid R) dt r pos l hist inp time c0 c1 rest a b c, built ov 2 n 1 bmin bmax g -> levelset_on g l -> app_positions ov g = Ok pos ->
  proper_box 2 bmin bmax -> interp_defined ov 2 -> 0 <= dt -> 0 <= r -> vi_name inp = "CIRCULAR"%string -> vi_center inp = c0 :: c1 :: rest ->
  (forall i j k p, interior_cell n (i, j, k) -> node ov g i j k = Ok p -> (vx p - c1) ^ 2 + (vy p - c0) ^ 2 <= r ^ 2) ->
  omega * r * dt < spacing (vx bmin) (vx bmax) (vx n) -> omega * r * dt < spacing (vy bmin) (vy bmax) (vy n) ->
  stores ov 2 n 1 g l (fun q => jet (plane a b c) (centre_pos 2 n bmin bmax q)) ->
  exists lv m l', av_compute ov true g (after_lookups VEL_NOT_DEFINED vel_map0 hist) inp pos time (ls_velocity_ctor g) = Ok (lv, m) /\ sl_compute ov g dt lv l = Ok l' /\
  forall i j k, interior_cell n (i, j, k) -> exists p psi ux uy, node ov g i j k = Ok p /\ aget ov g (ls_psi l') i j k = Ok psi /\ vx psi = a /\ vy psi = b /\
    differentiable_pt_lim (fun x y => turned (fun x y => a * x + b * y + c) omega c1 c0 dt x y) (vx p) (vy p) ux uy /\
    (vx psi - ux) ^ 2 + (vy psi - uy) ^ 2 = 2 * (1 - cos (omega * dt)) * (a ^ 2 + b ^ 2).
Proof. exact plane_kept. Qed.
Print Assumptions C147_gradient_refuted.
(** x + 2 y turning about the origin on a grid of 4 by 3 cells with a step of 1/10 *)
Example C147_case : exists g pos l, built Wrap 2 (V3 4 3 1)%Z 1 lo1 hi1 g /\ levelset_on g l /\ app_positions Wrap g = Ok pos /\ proper_box 2 lo1 hi1 /\ interp_defined Wrap 2 /\
  vi_name (vin "CIRCULAR" [0; 0; 0] "ANALYTICAL") = "CIRCULAR"%string /\
  (forall i j k p, interior_cell (V3 4 3 1)%Z (i, j, k) -> node Wrap g i j k = Ok p -> (vx p - 0) ^ 2 + (vy p - 0) ^ 2 <= (3 / 2) ^ 2) /\
  omega * (3 / 2) * (1 / 10) < spacing (vx lo1) (vx hi1) 4 /\ omega * (3 / 2) * (1 / 10) < spacing (vy lo1) (vy hi1) 3 /\
  smooth (plane 1 2 0) /\ stores Wrap 2 (V3 4 3 1)%Z 1 g l (fun c => jet (plane 1 2 0) (centre_pos 2 (V3 4 3 1)%Z lo1 hi1 c)) /\ 0 < 2 * (1 - cos (omega * (1 / 10))) * (1 ^ 2 + 2 ^ 2).
Proof. exact turn_case. Qed.
