(** Independent vocabulary for the accuracy of interpolation: smooth fields, their samples, error bounds. *)
From Coq Require Import ZArith List Reals.
From Verif Require Import Base Num ModelVec ModelGrid ModelArray SpecGrid SpecInterp.
Open Scope R_scope.

(** D i j k is the i-fold x, j-fold y, k-fold z derivative of the field D 0 0 0. *)
Definition smooth (D : nat -> nat -> nat -> R -> R -> R -> R) : Prop := forall i j k x y z,
  derivable_pt_lim (fun t => D i j k t y z) x (D (S i) j k x y z) /\
  derivable_pt_lim (fun t => D i j k x t z) y (D i (S j) k x y z) /\
  derivable_pt_lim (fun t => D i j k x y t) z (D i j (S k) x y z).
(** what a level set holds at position p: value, gradient, mixed derivatives *)
Definition jet (D : nat -> nat -> nat -> R -> R -> R -> R) (p : vec3 R) : cell_values :=
  let d i j k := D i j k (vx p) (vy p) (vz p) in
  CV (d 0%nat 0%nat 0%nat) (d 1%nat 0%nat 0%nat) (d 0%nat 1%nat 0%nat) (d 0%nat 0%nat 1%nat)
     (d 1%nat 1%nat 0%nat) (d 0%nat 1%nat 1%nat) (d 1%nat 0%nat 1%nat) (d 1%nat 1%nat 1%nat).
(** the box of the centres of all cells, ghost cells included (padding 1); 0 on unused axes *)
Definition centre_box (dim : nat) (n : vec3 Z) (bmin bmax p : vec3 R) : Prop := forall a,
  if used dim a then let lo := vget bmin a in let hi := vget bmax a in let h := spacing lo hi (vget n a) in lo - h / 2 <= vget p a <= hi + h / 2
  else vget p a = 0.

(** Error of cubic Hermite interpolation on a segment of length h, of the value (d = false) or of the slope
    (d = true), for a fourth derivative of at most M. *)
Definition own (d : bool) (h M : R) : R := if d then h ^ 3 / 24 * M else h ^ 4 / 384 * M.
(** How errors of at most A in the end values and B in the end slopes change the result. *)
Definition amp (d : bool) (h A B : R) : R := if d then 3 / h * A + B else A + h / 4 * B.
Definition ord (d : bool) : nat := if d then 1 else 0.
(** Error bound in dim dimensions with spacings h, of the value (s = None) or of the derivative along s,
    when the derivative D i j k is at most M i j k. *)
Definition error_bound (dim : nat) (s : option axis) (h : vec3 R) (M : nat -> nat -> nat -> R) : R :=
  let is a := match s with Some b => axis_eqb a b | None => false end in
  let dx := is AX in let dy := is AY in let dz := is AZ in
  match dim with
  | 1%nat => own dx (vx h) (M 4 0 0)%nat
  | 2%nat => own dx (vx h) (M 4 (ord dy) 0)%nat + amp dx (vx h) (own dy (vy h) (M 0 4 0)%nat) (own dy (vy h) (M 1 4 0)%nat)
  | _ => let yz i := own dy (vy h) (M i 4 (ord dz))%nat + amp dy (vy h) (own dz (vz h) (M i 0 4)%nat) (own dz (vz h) (M i 1 4)%nat) in
         own dx (vx h) (M 4 (ord dy) (ord dz))%nat + amp dx (vx h) (yz 0%nat) (yz 1%nat)
  end.
(** the first derivative along an axis *)
Definition first_order (D : nat -> nat -> nat -> R -> R -> R -> R) (a : axis) : R -> R -> R -> R :=
  match a with AX => D 1%nat 0%nat 0%nat | AY => D 0%nat 1%nat 0%nat | AZ => D 0%nat 0%nat 1%nat end.

(** A particle path: one function of time per axis. Its start, on the used axes. *)
Definition start (dim : nat) (X : axis -> R -> R) : vec3 R :=
  V3 (if used dim AX then X AX 0 else 0) (if used dim AY then X AY 0 else 0) (if used dim AZ then X AZ 0 else 0).
(** X is a path over [0,dt] that arrives at p with velocity v; X1 and X2 are its velocity and acceleration,
    the acceleration is at most K in each axis. *)
Definition arrives (dim : nat) (dt : R) (X X1 X2 : axis -> R -> R) (p v : vec3 R) (K : R) : Prop := forall a, used dim a = true ->
  (forall t, 0 <= t <= dt -> derivable_pt_lim (X a) t (X1 a t) /\ derivable_pt_lim (X1 a) t (X2 a t) /\ Rabs (X2 a t) <= K) /\
  X a dt = vget p a /\ X1 a dt = vget v a.
(** sum of a quantity over the used axes *)
Definition over_axes (dim : nat) (f : axis -> R) : R :=
  (if used dim AX then f AX else 0) + (if used dim AY then f AY else 0) + (if used dim AZ then f AZ else 0).
Definition slope_bound (M : nat -> nat -> nat -> R) (a : axis) : R :=
  match a with AX => M 1%nat 0%nat 0%nat | AY => M 0%nat 1%nat 0%nat | AZ => M 0%nat 0%nat 1%nat end.
