(** Vocabulary for statements about double arithmetic: which boxes are covered, in terms of
    the real numbers the doubles stand for. *)
From Coq Require Import ZArith Reals.
From Flocq Require Import Core BinarySingleNaN.
From Verif Require Import Base Num NumB64 ModelVec ModelGrid SpecGrid.
Open Scope R_scope.

(** the real number a finite double stands for *)
Definition real (x : b64) : R := B2R x.
(** x rounded to the nearest double, ties to even (for x below the overflow threshold) *)
Definition nearest (x : R) : R := round radix2 (SpecFloat.fexp 53 1024) ZnearestE x.
(** spacing and cell centres of the exact partition of the box between two doubles *)
Definition spacing64 (lo hi : b64) (n : Z) : R := spacing (real lo) (real hi) n.
Definition centre64 (lo hi : b64) (n i : Z) : R := centre (real lo) (real hi) n i.
(** the larger of the two distances from the origin *)
Definition reach (lo hi : b64) : R := Rmax (Rabs (real lo)) (Rabs (real hi)).

(** Finite bounds in the right order, far from the limits of the exponent range. *)
Definition sane_axis (lo hi : b64) (n : Z) : Prop :=
  is_finite lo = true /\ is_finite hi = true /\ real lo < real hi /\
  reach lo hi <= bpow radix2 1000 /\ bpow radix2 (-900) <= spacing64 lo hi n.
Definition sane_box (dim : nat) (n : vec3 Z) (bmin bmax : vec3 b64) : Prop :=
  forall a, used dim a = true -> sane_axis (vget bmin a) (vget bmax a) (vget n a).

(** The cells are not tiny compared with the distance of the box from the origin. *)
Definition resolved (dim : nat) (n : vec3 Z) (bmin bmax : vec3 b64) : Prop :=
  forall a, used dim a = true ->
    reach (vget bmin a) (vget bmax a) <= bpow radix2 43 * spacing64 (vget bmin a) (vget bmax a) (vget n a).

(** x is finite and lies in the box, or outside it by at most three eighths of a cell. *)
Definition near_box (dim : nat) (n : vec3 Z) (bmin bmax x : vec3 b64) : Prop :=
  forall a, used dim a = true -> let h := spacing64 (vget bmin a) (vget bmax a) (vget n a) in
    is_finite (vget x a) = true /\
    real (vget bmin a) - 3 / 8 * h <= real (vget x a) <= real (vget bmax a) + 3 / 8 * h.

(** On every used axis the displacement v dt is finite and at most three quarters of a cell. *)
Definition slow (dim : nat) (n : vec3 Z) (bmin bmax : vec3 b64) (dt : b64) (v : vec3 b64) : Prop :=
  forall a, used dim a = true ->
    is_finite (vget v a) = true /\ is_finite dt = true /\
    Rabs (real (vget v a) * real dt) <= 3 / 4 * spacing64 (vget bmin a) (vget bmax a) (vget n a).
