(** Model of how one double is printed and read: operator<< of std::ostream with its default settings,
    as used by array.h:155-165, vec3.h:168-173, mat3.h:161-166 and vec_n.h:88-93 (no file of include/gals,
    src/cpu or applications changes the precision), and %f of textscan in tools/octave/Visualize.m:29, :48.
    The C++ library and Octave are no code of /repo; this is what their manuals say. *)
From Coq Require Import ZArith List String Ascii Bool Reals.
From Flocq Require Import BinarySingleNaN.
From Verif Require Import Base Num NumB64 ModelRefPrint.
Open Scope Z_scope.

(** *** printing: %g with six significant digits *)
(** number of decimal digits of n >= 0 *)
Fixpoint ndigits (fuel : nat) (n : Z) : Z :=
  match fuel with O => 1 | S f => if n <? 10 then 1 else 1 + ndigits f (n / 10) end.
Definition dlen (n : Z) : Z := ndigits (Z.to_nat (Z.log2 n)) n.
(** n / d * 10^k as a fraction *)
Definition scaled (n d k : Z) : Z * Z := if 0 <=? k then (n * 10 ^ k, d) else (n, d * 10 ^ (- k)).
(** the k with 10^k <= n / d < 10^(k+1), for n, d > 0 *)
Definition expo10 (n d : Z) : Z :=
  let a := dlen n - dlen d in let (p, q) := scaled n d (- a) in if q <=? p then a else a - 1.
(** p / q to the nearest integer, ties to the even one *)
Definition round_div (p q : Z) : Z :=
  let f := p / q in let r := p mod q in
  if 2 * r <? q then f else if q <? 2 * r then f + 1 else if Z.even f then f else f + 1.
(** six digits and a decimal exponent: n / d is about r * 10^(x - 5) *)
Definition sig6 (n d : Z) : Z * Z :=
  let x := expo10 n d in let (p, q) := scaled n d (5 - x) in let r := round_div p q in
  if r =? 1000000 then (100000, x + 1) else (r, x).
Fixpoint strip_front (l : text) : text :=
  match l with c :: l' => if Ascii.eqb c "0" then strip_front l' else l | [] => [] end.
(** without the zeros at the end *)
Definition strip (l : text) : text := rev (strip_front (rev l)).
(** the digits l with the point after the first k, without zeros at the end; no point without digits after it *)
Definition pointed (k : nat) (l : text) : text :=
  firstn k l ++ match strip (skipn k l) with [] => [] | f => dot :: f end.
Definition exponent_text (x : Z) : text :=
  "e"%char :: (if x <? 0 then minus else "+"%char) :: (if Z.abs x <? 10 then digit 0 :: decimal (Z.abs x) else decimal (Z.abs x)).
Definition show_pos (n d : Z) : text :=
  let (r, x) := sig6 n d in
  if ((-4 <=? x) && (x <? 6))%bool
  then pointed (Z.to_nat (Z.max x 0 + 1)) (repeat (digit 0) (Z.to_nat (- x)) ++ last_digits 6 r [])
  else pointed 1 (last_digits 6 r []) ++ exponent_text x.
(** Simplification: the sign of a NaN is not shown. *)
Definition show_text (x : b64) : text :=
  match x with
  | B754_zero s => (if s then [minus] else []) ++ [digit 0]
  | B754_infinity s => (if s then [minus] else []) ++ list_ascii_of_string "inf"
  | B754_nan => list_ascii_of_string "nan"
  | B754_finite s m e _ => (if s then [minus] else []) ++ (if 0 <=? e then show_pos (Z.pos m * 2 ^ e) 1 else show_pos (Z.pos m) (2 ^ (- e)))
  end.
Definition show_double (x : b64) : string := string_of_list_ascii (show_text x).

(** *** reading: %f *)
(** Simplification: a number is read exactly; the rounding of Octave to the nearest double is left out. *)
Inductive reading := RNum (r : R) | RInf (negative : bool) | RNaN.
(** digits, optionally a point and digits: the number of decimals and the value without the point *)
Definition read_mantissa (l : text) : option (nat * Z) :=
  match split (Ascii.eqb dot) l [] with
  | [a] => option_map (fun z => (0%nat, z)) (read_int a)
  | [a; b] => match read_int a, read_int b with Some _, Some _ => Some (List.length b, value_of (a ++ b)) | _, _ => None end
  | _ => None
  end.
(** a sign and digits *)
Definition read_exponent (l : text) : option Z :=
  match l with
  | c :: l' => if Ascii.eqb c minus then option_map Z.opp (read_int l') else if Ascii.eqb c "+" then read_int l' else read_int l
  | [] => None
  end.
Definition power10 (x : Z) : R := powerRZ 10 x.
Definition read_positive (l : text) : option R :=
  match split (Ascii.eqb "e") l [] with
  | [m] => option_map (fun z => (IZR (snd z) * power10 (- Z.of_nat (fst z)))%R) (read_mantissa m)
  | [m; x] => match read_mantissa m, read_exponent x with
      | Some z, Some k => Some (IZR (snd z) * power10 (k - Z.of_nat (fst z)))%R
      | _, _ => None
      end
  | _ => None
  end.
Definition read_sign (l : text) : bool * text :=
  match l with c :: l' => if Ascii.eqb c minus then (true, l') else (false, l) | [] => (false, l) end.
Definition read_text (l : text) : option reading :=
  let (s, u) := read_sign l in
  if String.eqb (string_of_list_ascii u) "inf" then Some (RInf s)
  else if String.eqb (string_of_list_ascii u) "nan" then Some RNaN
  else option_map (fun r => RNum (if s then (- r)%R else r)) (read_positive u).
Definition read_double (w : string) : option reading := read_text (list_ascii_of_string w).
