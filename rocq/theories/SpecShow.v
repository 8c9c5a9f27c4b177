(** Vocabulary for printed doubles: rounding to six significant decimal digits. *)
From Coq Require Import ZArith Reals String.
From Flocq Require Import Core BinarySingleNaN.
From Verif Require Import Base NumB64 ModelShow SpecB64.
Open Scope R_scope.

Definition ten : radix := Build_radix 10 (eq_refl true).
(** q has at most six significant digits *)
Definition six_digits (q : R) : Prop := exists k j : Z, (Z.abs k < 10 ^ 6)%Z /\ q = IZR k * powerRZ 10 j.
(** the nearest such number, the one with an even last digit in the middle between two *)
Definition to_six (x : R) : R := round ten (FLX_exp 6) ZnearestE x.
(** what is read from a printed double *)
Definition reading_of (x : b64) : reading :=
  match x with B754_infinity s => RInf s | B754_nan => RNaN | _ => RNum (to_six (real x)) end.
