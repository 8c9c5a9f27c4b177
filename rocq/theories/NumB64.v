(** IEEE-754 binary64, the C++ type double, as an instance of the scalar operations,
    and the transcendental operations used by the analytical fields.

    Rounding is to nearest, ties to even.  Simplifications: no fused or extended-precision
    evaluation, one NaN. *)
From Coq Require Import ZArith Reals Bool.
From Flocq Require Import Core BinarySingleNaN.
From Verif Require Import Base Num.
Open Scope Z_scope.

Definition b64 : Type := binary_float 53 1024.
#[global] Instance prec53 : Prec_gt_0 53 := eq_refl.
#[global] Instance emax1024 : Prec_lt_emax 53 1024 := eq_refl.

(** the double nearest to m * 2^e *)
Definition b64_make (m e : Z) : b64 := binary_normalize 53 1024 prec53 emax1024 mode_NE m e false.

(** floor(x) as an integer; for an infinity or NaN a number no int can hold, so that the
    conversion to int is reported as undefined *)
Definition b64_floor (x : b64) : Z :=
  match x with
  | B754_infinity _ | B754_nan => 2147483648
  | _ => let t := Btrunc x in if Bltb x (b64_make t 0) then t - 1 else t
  end.

#[global] Instance NumB64 : Num b64 := {
  nofZ := fun z => b64_make z 0;
  nadd := Bplus mode_NE; nsub := Bminus mode_NE; nmul := Bmult mode_NE; ndiv := Bdiv mode_NE;
  nltb := Bltb; nleb := Bleb; nfloor := b64_floor }.

(** sqrt and GALS::pi() (utilities.h:55, atan(1)*4) *)
Class Trans (T : Type) := { nsqrt : T -> T; npi : T }.
#[global] Instance TransR : Trans R := { nsqrt := R_sqrt.sqrt; npi := PI }.
(** the double nearest to pi is 884279719003555 / 2^48 *)
#[global] Instance TransB64 : Trans b64 := { nsqrt := Bsqrt mode_NE; npi := b64_make 884279719003555 (-48) }.
