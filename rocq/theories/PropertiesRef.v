(** C50, C51, C54-C56, C78, C79, C91: the pointwise functions of the reference code. *)
From Coq Require Import ZArith List Reals Lra Lia.
From Coquelicot Require Import Derive_2d.
From Verif Require Import Base Num NumB64 ModelVec ModelGrid ModelArray ModelInterp ModelRefMath
  SpecGrid SpecInterp SpecRef ProofsInterpApi ProofsRefHermite ProofsRefMath ProofsRefTrace ProofsRefLib ProofsRefCases ProofsRefHeun.
Open Scope R_scope.

(** C50: on the data of the cell that encloses the position, the three functions give the value and
    the gradient of the library's 2-D interpolation; they are exact on bicubics; the second and third
    are the derivatives of the first. *)
Theorem C50_same_as_library : forall ov n bmin bmax (g : grid R) (l : levelset R) S x i j,
  built ov 2 n 1 bmin bmax g -> levelset_on g l -> proper_box 2 bmin bmax -> interp_defined ov 2 ->
  stores ov 2 n 1 g l S -> in_lattice 2 n bmin bmax x -> encloses 2 n bmin bmax x (i, j, 0)%Z ->
  let Q f := mkQuad (f (S (i, j, 0)%Z)) (f (S (i + 1, j, 0)%Z)) (f (S (i, j + 1, 0)%Z)) (f (S (i + 1, j + 1, 0)%Z)) in
  let x0 := centre (vx bmin) (vx bmax) (vx n) i in let y0 := centre (vy bmin) (vy bmax) (vy n) j in
  let hx := spacing (vx bmin) (vx bmax) (vx n) in let hy := spacing (vy bmin) (vy bmax) (vy n) in
  exists f, interpolate ov g x l false = Ok f /\
    f_phi f = hp (Q cv) (Q cv_x) (Q cv_y) (Q cv_xy) (vx x) (vy x) x0 y0 hx hy /\
    vx (f_psi f) = hermx (Q cv) (Q cv_x) (Q cv_y) (Q cv_xy) (vx x) (vy x) x0 y0 hx hy /\
    vy (f_psi f) = hermy (Q cv) (Q cv_x) (Q cv_y) (Q cv_xy) (vx x) (vy x) x0 y0 hx hy.
Proof. exact lib_agrees. Qed.
Print Assumptions C50_same_as_library.
Example C50_case : exists g l x i j, built Wrap 2 (V3 4 3 1)%Z 1 lo1 hi1 g /\ levelset_on g l /\ proper_box 2 lo1 hi1 /\
  interp_defined Wrap 2 /\ stores Wrap 2 (V3 4 3 1)%Z 1 g l (fun c => match c with (i, j, _) => CV (IZR (i * j)) 1 (IZR j) 0 (IZR i) 0 0 0 end) /\
  in_lattice 2 (V3 4 3 1)%Z lo1 hi1 x /\ encloses 2 (V3 4 3 1)%Z lo1 hi1 x (i, j, 0)%Z.
Proof. exact lib_case. Qed.

Theorem C50_exact_on_bicubics : forall c x y x0 y0 dx dy, dx <> 0 -> dy <> 0 ->
  let Q f := at_corners f x0 y0 dx dy in
  let phi := Q (bicubic false false c) in let psix := Q (bicubic true false c) in
  let psiy := Q (bicubic false true c) in let psixy := Q (bicubic true true c) in
  hp phi psix psiy psixy x y x0 y0 dx dy = bicubic false false c x y /\
  hermx phi psix psiy psixy x y x0 y0 dx dy = bicubic true false c x y /\
  hermy phi psix psiy psixy x y x0 y0 dx dy = bicubic false true c x y.
Proof. exact ref_exact. Qed.
Print Assumptions C50_exact_on_bicubics.

Theorem C50_gradient : forall phi psix psiy psixy x y xo yo dx dy : _,
  derivable_pt_lim (fun x => hp phi psix psiy psixy x y xo yo dx dy) x (hermx phi psix psiy psixy x y xo yo dx dy) /\
  derivable_pt_lim (fun y => hp phi psix psiy psixy x y xo yo dx dy) y (hermy phi psix psiy psixy x y xo yo dx dy).
Proof. exact hp_derive. Qed.
Print Assumptions C50_gradient.

(** C51: the end values are interpolated; the end slopes are the given ones divided by dx, so the
    property holds for dx = 1 and fails for every other dx. *)
Theorem C51_end_values_and_slopes_partial : forall p0 p1 s0 s1 xo dx, dx <> 0 ->
  hp1D p0 p1 s0 s1 xo xo dx = p0 /\ hp1D p0 p1 s0 s1 (xo + dx) xo dx = p1 /\
  derivable_pt_lim (fun x => hp1D p0 p1 s0 s1 x xo dx) xo (s0 / dx) /\
  derivable_pt_lim (fun x => hp1D p0 p1 s0 s1 x xo dx) (xo + dx) (s1 / dx).
Proof. exact hp1D_ends. Qed.
Print Assumptions C51_end_values_and_slopes_partial.

Theorem C51_slopes_refuted : forall p0 p1 s0 s1 xo dx, dx <> 0 -> dx <> 1 ->
  (s0 <> 0 -> ~ derivable_pt_lim (fun x => hp1D p0 p1 s0 s1 x xo dx) xo s0) /\
  (s1 <> 0 -> ~ derivable_pt_lim (fun x => hp1D p0 p1 s0 s1 x xo dx) (xo + dx) s1).
Proof. exact hp1D_wrong. Qed.
Print Assumptions C51_slopes_refuted.

(** C54 *)
Theorem C54_divergence_free : forall x y t Tp : R,
  let F : flow R := vortex in
  derivable_pt_lim (fun x => Velx F x y t Tp) x (gradUx F x y t Tp) /\
  derivable_pt_lim (fun y => Velx F x y t Tp) y (gradUy F x y t Tp) /\
  derivable_pt_lim (fun x => Vely F x y t Tp) x (gradVx F x y t Tp) /\
  derivable_pt_lim (fun y => Vely F x y t Tp) y (gradVy F x y t Tp) /\
  gradUx F x y t Tp + gradVy F x y t Tp = 0.
Proof. exact vortex_props. Qed.
Print Assumptions C54_divergence_free.

Theorem C54_tangential_at_boundary : forall x y t Tp : R,
  let F : flow R := vortex in
  Velx F 0 y t Tp = 0 /\ Velx F 1 y t Tp = 0 /\ Vely F x 0 t Tp = 0 /\ Vely F x 1 t Tp = 0.
Proof. exact vortex_boundary. Qed.
Print Assumptions C54_tangential_at_boundary.

Theorem C54_reverses : forall x y t Tp : R, Tp <> 0 ->
  let F : flow R := vortex in
  Velx F x y (Tp - t) Tp = - Velx F x y t Tp /\ Vely F x y (Tp - t) Tp = - Vely F x y t Tp.
Proof. exact vortex_reverses. Qed.
Print Assumptions C54_reverses.

(** it is not the zero field *)
Example C54_case : Velx (vortex : flow R) (1 / 2) (1 / 4) 0 1 = 1.
Proof. exact vortex_nonzero. Qed.

(** C55 *)
Theorem C55_circle : forall x y : R,
  let d2 := (x - 1 / 2) ^ 2 + (y - 3 / 4) ^ 2 in let r2 := (15 / 100) ^ 2 in
  (initialize x y = 0 <-> d2 = r2) /\ (0 < initialize x y <-> d2 < r2) /\ (initialize x y < 0 <-> r2 < d2).
Proof. exact initialize_sign. Qed.
Print Assumptions C55_circle.

Theorem C55_derivatives : forall x y : R,
  derivable_pt_lim (fun x => initialize x y) x (derivxinit x y) /\
  derivable_pt_lim (fun y => initialize x y) y (derivyinit x y) /\
  derivable_pt_lim (fun y => derivxinit x y) y (derivxyinit x y) /\
  derivable_pt_lim (fun x => derivyinit x y) x (derivxyinit x y).
Proof. exact initialize_derive. Qed.
Print Assumptions C55_derivatives.

(** C56: both schemes are exact for constant velocity; RK3 finds the foot of every trajectory whose
    velocity is at most cubic in time; for velocities linear in space RK3 is the Taylor polynomial of
    degree 3 of the flow, within the remainder of the exponential. *)
Theorem C56_constant_velocity : forall F Tp u v x y t dt rk3,
  velocity_is F Tp (fun _ _ _ => u) (fun _ _ _ => v) ->
  back_trace F rk3 x y t dt Tp = (x - u * dt, y - v * dt).
Proof. exact trace_constant. Qed.
Print Assumptions C56_constant_velocity.

Theorem C56_cubic_in_time : forall F Tp a b (X Y : R -> R) x y t dt, step_number t ->
  velocity_is F Tp (fun _ _ s => cubic a s) (fun _ _ s => cubic b s) ->
  (forall s, derivable_pt_lim X s (cubic a s)) -> (forall s, derivable_pt_lim Y s (cubic b s)) ->
  X ((IZR t + 1) * dt) = x -> Y ((IZR t + 1) * dt) = y ->
  back_trace F true x y t dt Tp = (X (IZR t * dt), Y (IZR t * dt)).
Proof. exact trace_time. Qed.
Print Assumptions C56_cubic_in_time.

Theorem C56_linear_in_space : forall F Tp a b c d x y t dt,
  velocity_is F Tp (fun x y _ => a * x + b * y) (fun x y _ => c * x + d * y) ->
  let A := mat a b c d in let p := (x, y) in
  back_trace F false x y t dt Tp = padd (- dt) p (A p) /\
  back_trace F true x y t dt Tp =
  padd (- dt ^ 3 / 6) (padd (dt ^ 2 / 2) (padd (- dt) p (A p)) (A (A p))) (A (A (A p))).
Proof. exact trace_linear. Qed.
Print Assumptions C56_linear_in_space.

Theorem C56_third_order : forall F Tp l m x y t dt,
  velocity_is F Tp (fun x _ _ => l * x) (fun _ y _ => m * y) ->
  let p := back_trace F true x y t dt Tp in
  Rabs (fst p - x * exp (- (l * dt))) <= Rabs x * (Rabs (l * dt) ^ 4 / 24 * exp (Rabs (l * dt))) /\
  Rabs (snd p - y * exp (- (m * dt))) <= Rabs y * (Rabs (m * dt) ^ 4 / 24 * exp (Rabs (m * dt))).
Proof. exact trace_diagonal. Qed.
Print Assumptions C56_third_order.

(** velocities of these forms exist, with a trajectory ending at a given node *)
Example C56_case : exists F X Y, velocity_is F 1 (fun _ _ s => cubic (fun i => INR i) s) (fun _ _ s => cubic (fun i => 1) s) /\
  (forall s, derivable_pt_lim X s (cubic (fun i => INR i) s)) /\ (forall s, derivable_pt_lim Y s (cubic (fun i => 1) s)) /\
  X ((IZR 3 + 1) * (1 / 8)) = 1 / 3 /\ Y ((IZR 3 + 1) * (1 / 8)) = 1 / 4.
Proof. exact trace_case. Qed.

(** C78: for every velocity with true gradients (the vortex is one) and every function of the plane with
    gradient (rx,ry) at the foot, the scheme returns the gradient, at the node, of that function composed
    with the back-trace; in particular for the interpolant of the cell of the foot. *)
Theorem C78_super_consistent : forall F Tp rk3 x y t dt g rx ry, true_gradients F Tp ->
  let p := back_trace F rk3 x y t dt Tp in
  differentiable_pt_lim g (fst p) (snd p) rx ry ->
  let r := SuperConsistentScheme F rk3 x y rx ry t dt Tp in
  differentiable_pt_lim (fun u v => let p := back_trace F rk3 u v t dt Tp in g (fst p) (snd p)) x y (fst r) (snd r).
Proof. exact super_consistent. Qed.
Print Assumptions C78_super_consistent.

Theorem C78_super_consistent_interpolant : forall F Tp rk3 x y t dt phi psix psiy psixy xo yo dx dy, true_gradients F Tp ->
  let p := back_trace F rk3 x y t dt Tp in
  let r := SuperConsistentScheme F rk3 x y (hermx phi psix psiy psixy (fst p) (snd p) xo yo dx dy)
     (hermy phi psix psiy psixy (fst p) (snd p) xo yo dx dy) t dt Tp in
  differentiable_pt_lim (fun u v => let p := back_trace F rk3 u v t dt Tp in hp phi psix psiy psixy (fst p) (snd p) xo yo dx dy)
    x y (fst r) (snd r).
Proof. exact super_consistent_hp. Qed.
Print Assumptions C78_super_consistent_interpolant.
Example C78_case : forall Tp, true_gradients vortex Tp.
Proof. exact vortex_true. Qed.

(** C79: the first component is Heun's method; the second is Heun's method plus the stated term, because the
    corrected first component is used where the predicted one is meant. *)
Theorem C79_heun_difference_partial : forall F Tp x y xa ya rx ry t dt, step_number t -> dt <> 0 ->
  let s0 := IZR t * dt in
  let ideal := heun (gradient_rhs F Tp x y xa ya s0) s0 dt (rx, ry) in
  let code := Heuns_internal F x y xa ya rx ry t dt Tp in
  let pred := rx - dt * (gradUx F xa ya s0 Tp * rx + gradVx F xa ya s0 Tp * ry) in
  fst code = fst ideal /\
  snd code = snd ideal - dt / 2 * gradUy F x y (s0 + dt) Tp * (fst ideal - pred).
Proof. exact heuns_internal. Qed.
Print Assumptions C79_heun_difference_partial.

Theorem C79_heun_refuted : exists x y xa ya rx ry t dt, step_number t /\ 0 < dt /\
  (xa, ya) = back_trace vortex true x y t dt 1 /\
  let s0 := IZR t * dt in
  Heuns_internal vortex x y xa ya rx ry t dt 1 <> heun (gradient_rhs vortex 1 x y xa ya s0) s0 dt (rx, ry).
Proof. exact heun_wrong. Qed.
Print Assumptions C79_heun_refuted.

(** C91: the update of psix (psiy) at a node whose characteristic leaves the box through a horizontal
    (vertical) side is one step of Heun's method from the interpolated value, the other derivatives
    being frozen, minus the stated term: the first stage takes the old value p of the node where the
    interpolated value is meant.  The term vanishes if both are equal or gradUx (gradVy) is 0 at the node. *)
Theorem C91_boundary_heun_partial : forall F Tp x y rx ry pxy p t dt, step_number t ->
  let s0 := IZR t * dt in
  Heuns_X F x y rx ry pxy p t dt Tp =
    heun1 (fun s q => - (gradUx F x y s Tp * q + gradVx F x y s Tp * ry + Vely F x y s Tp * pxy)) s0 dt rx
      - dt / 2 * gradUx F x y s0 Tp * (p - rx) * (1 - dt * gradUx F x y (s0 + dt) Tp) /\
  Heuns_Y F x y rx ry pxy p t dt Tp =
    heun1 (fun s q => - (gradUy F x y s Tp * rx + gradVy F x y s Tp * q + Velx F x y s Tp * pxy)) s0 dt ry
      - dt / 2 * gradVy F x y s0 Tp * (p - ry) * (1 - dt * gradVy F x y (s0 + dt) Tp).
Proof. exact boundary_heun. Qed.
Print Assumptions C91_boundary_heun_partial.
Theorem C91_boundary_heun_refuted : exists F x y rx ry pxy p t dt, true_gradients F 1 /\ step_number t /\ 0 < dt /\
  let s0 := IZR t * dt in
  Heuns_X F x y rx ry pxy p t dt 1 <>
    heun1 (fun s q => - (gradUx F x y s 1 * q + gradVx F x y s 1 * ry + Vely F x y s 1 * pxy)) s0 dt rx /\
  Heuns_Y F x y rx ry pxy p t dt 1 <>
    heun1 (fun s q => - (gradUy F x y s 1 * rx + gradVy F x y s 1 * q + Velx F x y s 1 * pxy)) s0 dt ry.
Proof. exact boundary_wrong. Qed.
Print Assumptions C91_boundary_heun_refuted.
