(** What Readfiles.m should show of a run with n steps. *)
From Coq Require Import ZArith List Reals.
From Verif Require Import Base Num NumB64 ModelRefMath ModelRefMem ModelRef ModelRefPrint SpecRefRun SpecRefPrint ModelReadfiles.
Open Scope Z_scope.

(** The axes are the coordinates of the nodes, the title of plot b is the time of the b-th printed state, edx is the spacing, all
    up to the ten decimals of the files; e is the largest difference between the absolute values of the last printed state
    and of the first one. *)
Definition shown_well whole F (s : settings R) n (sh : shown) : Prop :=
  let every := print_every s n in
  let final := file_value whole F s FPhi (Z.to_nat (n / every) * Z.to_nat every) in let start := file_value whole F s FPhi 0 in
  (Z.of_nat (length (sh_x sh)) = s_nx s /\ forall j x, nth_error (sh_x sh) j = Some x -> near x (node_x s (Z.of_nat j))) /\
  (Z.of_nat (length (sh_y sh)) = s_ny s /\ forall j x, nth_error (sh_y sh) j = Some x -> near x (node_y s (Z.of_nat j))) /\
  (Z.of_nat (length (sh_times sh)) = 1 + n / every /\ forall b t, nth_error (sh_times sh) b = Some t ->
     (Rabs (t - INR b * IZR every * s_dt s) <= INR b * IZR every * (/ 2 * / 10 ^ 10))%R) /\
  (Rabs (sh_edx sh - s_dx s) <= / 10 ^ 10)%R /\
  (forall i j, 0 <= i < s_ny s -> 0 <= j < s_nx s -> (Rabs (Rabs (final i j) - Rabs (start i j)) <= sh_e sh + / 10 ^ 10)%R) /\
  exists i j, 0 <= i < s_ny s /\ 0 <= j < s_nx s /\ (Rabs (sh_e sh - Rabs (Rabs (final i j) - Rabs (start i j))) <= / 10 ^ 10)%R.
