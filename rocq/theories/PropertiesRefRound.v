(** Property C149: the Hermite interpolation of the reference programs in double arithmetic. *)
From Coq Require Import ZArith Reals.
From Flocq Require Import Core BinarySingleNaN.
From Verif Require Import Base Num NumB64 ModelVec ModelRefMath SpecGrid SpecB64 SpecRound SpecRefRound ProofsRefRound.
Open Scope R_scope.

(** At a position at most two cells away from the corner of the cell, with data at most M (derivatives multiplied by the cell sizes), the value, the
    x-derivative and the y-derivative are finite and within 2^-33 M, 2^-33 M / dx and 2^-33 M / dy of what the same formulas give in real numbers. *)
Theorem C149_hermite_rounding : forall (phi psix psiy psixy : quad b64) (x y xo yo dx dy : b64) (M : R),
  within_reach x xo dx -> within_reach y yo dy -> cell_size phi psix psiy psixy (real dx) (real dy) M ->
  let a := hp phi psix psiy psixy x y xo yo dx dy in let b := hermx phi psix psiy psixy x y xo yo dx dy in let c := hermy phi psix psiy psixy x y xo yo dx dy in
  let at_ f : R := f (qreals phi) (qreals psix) (qreals psiy) (qreals psixy) (real x) (real y) (real xo) (real yo) (real dx) (real dy) in
  (is_finite a = true /\ is_finite b = true /\ is_finite c = true) /\ Rabs (real a - at_ hp) <= bpow radix2 (-33) * M /\
  Rabs (real b - at_ hermx) <= bpow radix2 (-33) * (M / real dx) /\ Rabs (real c - at_ hermy) <= bpow radix2 (-33) * (M / real dy).
Proof. exact cell_hermite. Qed.
Print Assumptions C149_hermite_rounding.
(** a cell of 2 by 3 with its corner at (0, 1), and the position (1, 5) above it *)
Example C149_case : within_reach (b64_make 1 0) (b64_make 0 0) (b64_make 2 0) /\ within_reach (b64_make 5 0) (b64_make 1 0) (b64_make 3 0) /\
  cell_size (quad_of 1 2 3 (-4)) (quad_of 5 0 (-1) 2) (quad_of 1 1 (-6) 7) (quad_of 2 (-3) 4 0) (real (b64_make 2 0)) (real (b64_make 3 0)) 100.
Proof. exact cell_case. Qed.
