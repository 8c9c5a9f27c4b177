(** Axes of a grid whose coordinates doubles represent. *)
From Coq Require Import ZArith Reals.
From Flocq Require Import Core BinarySingleNaN.
From Verif Require Import Base Num NumB64 ModelRefMath ModelRefMem ModelRef SpecB64.
Open Scope R_scope.

(** The two limits are multiples of one power of two, by integers of at most 25 bits, and the number of cells is a power of two between 2 and 2^25. *)
Definition dyadic_axis (n : Z) (lo hi : b64) : Prop := exists p k a b : Z, (-100 <= p <= 100)%Z /\ (1 <= k <= 25)%Z /\ n = (2 ^ k + 1)%Z /\
  (- 33554432 <= a < b)%Z /\ (b <= 33554432)%Z /\ is_finite lo = true /\ is_finite hi = true /\ real lo = IZR a * bpow radix2 p /\ real hi = IZR b * bpow radix2 p.
Definition dyadic_grid (s : settings b64) : Prop := dyadic_axis (s_nx s) (s_xlim1 s) (s_xlim2 s) /\ dyadic_axis (s_ny s) (s_ylim1 s) (s_ylim2 s).
