(** C128: the files the library writes hold six significant digits. *)
From Coq Require Import ZArith List String Bool Lia Reals Lra.
From Flocq Require Import Core BinarySingleNaN.
From Verif Require Import Base Num NumB64 ModelVec ModelGrid ModelArray ModelOutput ModelVisualize ModelShow SpecGrid SpecOutput SpecVisualize SpecB64 SpecShow
  ProofsGridProps ProofsB64Cases ProofsShow ProofsShowProps.
Import ListNotations.
Open Scope R_scope.

(** A printed double can be read. A finite one is read as the nearest number with six significant digits,
    which is within 5 millionths of it. *)
Theorem C128_precision (x : b64) : is_finite x = true ->
  exists r, read_double (show_double x) = Some (RNum r) /\ six_digits r /\
    (forall q, six_digits q -> Rabs (r - real x) <= Rabs (q - real x)) /\ Rabs (r - real x) <= 5 / 1000000 * Rabs (real x).
Proof. exact (finite_shown x). Qed.
Print Assumptions C128_precision.
Theorem C128_infinite (s : bool) : read_double (show_double (B754_infinity s)) = Some (RInf s) /\ read_double (show_double B754_nan) = Some RNaN.
Proof. exact (conj (show_read (B754_infinity s)) (show_read B754_nan)). Qed.
Print Assumptions C128_infinite.
(** Printing and reading keeps the order. *)
Theorem C128_order (x y : b64) : is_finite x = true -> is_finite y = true -> real x <= real y ->
  exists r s, read_double (show_double x) = Some (RNum r) /\ read_double (show_double y) = Some (RNum s) /\ r <= s.
Proof. exact (shown_order x y). Qed.
Print Assumptions C128_order.
(** A decimal number with at most six digits, stored as the nearest double (or any within half a unit), comes back unchanged. *)
Theorem C128_decimal (x : b64) q : is_finite x = true -> six_digits q -> Rabs (real x - q) <= bpow radix2 (-53) * Rabs q ->
  read_double (show_double x) = Some (RNum q).
Proof. exact (shown_decimal x q). Qed.
Print Assumptions C128_decimal.
(** The files: one row for each cell, in the order of the cells, with the position and the value(s). *)
Theorem C128_scalar_file ov dim n pad bmin bmax (g : grid b64) (a : array b64) : built ov dim n pad bmin bmax g -> array_on g a ->
  exists text ts, print_array show_double ov g show_double a = Ok text /\ textscan read_double 4 text = Some ts /\
    Z.of_nat (List.length ts) = (vx n * vy n * vz n)%Z /\
    forall i j k, interior_cell n (i, j, k) -> exists p v, node ov g i j k = Ok p /\ aget ov g a i j k = Ok v /\
      nth_error ts (Z.to_nat ((i * vy n + j) * vz n + k)) = Some (map reading_of [vx p; vy p; vz p; v]).
Proof. exact (scalar_file ov dim n pad bmin bmax g a). Qed.
Print Assumptions C128_scalar_file.
Theorem C128_vector_file ov dim n pad bmin bmax (g : grid b64) (a : array (vec3 b64)) : built ov dim n pad bmin bmax g -> array_on g a ->
  exists text ts, print_array show_double ov g (show_vec3 show_double) a = Ok text /\ textscan read_double 6 text = Some ts /\
    Z.of_nat (List.length ts) = (vx n * vy n * vz n)%Z /\
    forall i j k, interior_cell n (i, j, k) -> exists p v, node ov g i j k = Ok p /\ aget ov g a i j k = Ok v /\
      nth_error ts (Z.to_nat ((i * vy n + j) * vz n + k)) = Some (map reading_of [vx p; vy p; vz p; vx v; vy v; vz v]).
Proof. exact (vector_file ov dim n pad bmin bmax g a). Qed.
Print Assumptions C128_vector_file.
(** Distinct nodes need not stay distinct: of three consecutive coordinates between 10^e and 10^(e+1) that differ by less than
    10^(e-5), two are printed alike. *)
Theorem C128_coordinates_refuted e (x y z : b64) : is_finite x = true -> is_finite y = true -> is_finite z = true ->
  powerRZ 10 e <= real x -> real x <= real y <= real z -> real z < powerRZ 10 (e + 1) -> real z - real x < powerRZ 10 (e - 5) ->
  show_double x = show_double y \/ show_double y = show_double z.
Proof. exact (three_same e x y z). Qed.
Print Assumptions C128_coordinates_refuted.
(** Coordinates farther apart than 10^-5 of their size stay distinct and in order.  Missing: closer ones. *)
Theorem C128_coordinates_partial (x y : b64) : is_finite x = true -> is_finite y = true ->
  / 100000 * Rmax (Rabs (real x)) (Rabs (real y)) < real y - real x ->
  exists r s, read_double (show_double x) = Some (RNum r) /\ read_double (show_double y) = Some (RNum s) /\ r < s.
Proof. exact (shown_distinct x y). Qed.
Print Assumptions C128_coordinates_partial.

(** the first two cells of the box from 100000 to 100001 *)
Example C128_case : let g := grid5 100000 100001 in exists p q, built Wrap 1 five 1 (ivl 100000) (ivl 100001) g /\
  array_on g (array_ctor g (b64_make 1 (-1))) /\ node Wrap g 0 0 0 = Ok p /\ node Wrap g 1 0 0 = Ok q /\ Bcompare (vx p) (vx q) = Some Lt /\
  show_double (vx p) = "100000"%string /\ show_double (vx q) = "100000"%string.
Proof.
  intros g. pose proof (grid5_built 100000 100001) as Hb. pose proof close_nodes as K. fold g in K, Hb.
  destruct (node Wrap g 0 0 0) as [p| | |]; try contradiction. destruct (node Wrap g 1 0 0) as [q| | |]; try contradiction.
  exists p, q. split; [exact Hb|]. split; [eapply fresh_array; exact Hb|]. split; [reflexivity|]. split; [reflexivity|].
  injection K as K1 K2 K3. auto.
Qed.
Example C128_texts : map show_double [b64_make 1 (-1); b64_make (-3) 0; b64_make 1 20; b64_make 1 (-20); b64_make 0 0] =
  ["0.5"; "-3"; "1.04858e+06"; "9.53674e-07"; "0"]%string.
Proof. vm_compute. reflexivity. Qed.
