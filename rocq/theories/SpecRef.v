(** Independent vocabulary for the pointwise functions of the reference code. *)
From Coq Require Import ZArith List Reals.
From Coquelicot Require Import Derive_2d.
From Verif Require Import Base Num ModelVec ModelRefMath SpecInterp.
Open Scope R_scope.

(** The four corner values of a function on the rectangle [x0,x0+dx] x [y0,y0+dy], numbered as in the
    drawing of the source: 0 lower left, 1 lower right, 2 upper left, 3 upper right. *)
Definition at_corners (f : R -> R -> R) (x0 y0 dx dy : R) : quad R :=
  mkQuad (f x0 y0) (f (x0 + dx) y0) (f x0 (y0 + dy)) (f (x0 + dx) (y0 + dy)).

(** The bicubic with coefficients c (its z exponent is 0), differentiated as flagged. *)
Definition bicubic (dx dy : bool) (c : nat -> nat -> nat -> R) (x y : R) : R :=
  tricubic dx dy false c (V3 x y 0).

(** Time step numbers of the mains: t < n, n an unsigned int. *)
Definition step_number (t : Z) : Prop := (0 <= t < 4294967295)%Z.

(** The velocity is (u, v) as a function of x, y and time, for the period Tp. *)
Definition velocity_is (F : flow R) (Tp : R) (u v : R -> R -> R -> R) : Prop :=
  forall x y s, Velx F x y s Tp = u x y s /\ Vely F x y s Tp = v x y s.

(** The four gradient functions are the total derivatives of the two velocity components. *)
Definition true_gradients (F : flow R) (Tp : R) : Prop :=
  forall x y s,
    differentiable_pt_lim (fun x y => Velx F x y s Tp) x y (gradUx F x y s Tp) (gradUy F x y s Tp) /\
    differentiable_pt_lim (fun x y => Vely F x y s Tp) x y (gradVx F x y s Tp) (gradVy F x y s Tp).

(** One step of Heun's method for p' = f(s, p) in the plane from s0 with step h. *)
Definition heun (f : R -> R * R -> R * R) (s0 h : R) (p : R * R) : R * R :=
  let k1 := f s0 p in
  let q := (fst p + h * fst k1, snd p + h * snd k1) in
  let k2 := f (s0 + h) q in
  (fst p + h / 2 * (fst k1 + fst k2), snd p + h / 2 * (snd k1 + snd k2)).
(** The same for one number. *)
Definition heun1 (f : R -> R -> R) (s0 h p : R) : R := p + h / 2 * (f s0 p + f (s0 + h) (p + h * f s0 p)).
(** Right-hand side of the equation of the gradient along a characteristic that is at the foot
    (xa,ya) at time s0 and at the node (x,y) at any other time: p' = - (grad velocity)^T p. *)
Definition gradient_rhs (F : flow R) (Tp x y xa ya s0 : R) (s : R) (p : R * R) : R * R :=
  let gx := if Req_EM_T s s0 then xa else x in let gy := if Req_EM_T s s0 then ya else y in
  (- (gradUx F gx gy s Tp * fst p + gradVx F gx gy s Tp * snd p),
   - (gradUy F gx gy s Tp * fst p + gradVy F gx gy s Tp * snd p)).

(** The 2x2 matrix (a b; c d) applied to a vector. *)
Definition mat (a b c d : R) (p : R * R) : R * R := (a * fst p + b * snd p, c * fst p + d * snd p).
Definition padd (k : R) (p q : R * R) : R * R := (fst p + k * fst q, snd p + k * snd q).
