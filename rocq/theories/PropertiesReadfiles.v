(** C138: what Readfiles.m plots and reports. *)
From Coq Require Import ZArith List String Ascii Reals.
From Verif Require Import Base Num NumB64 ModelVec ModelRefMath ModelRefMem ModelRef ModelRefPrint SpecRefRun SpecRefPrint
  ProofsRefRunCases ProofsRefPrint ModelReadfiles SpecReadfiles ProofsReadfiles.
Import ListNotations.
Open Scope Z_scope.

(** C138: after every run whose blocks can be read (C93) the script shows the nodes, the times of the printed states, the spacing
    and the largest difference of absolute values between the last printed and the initial level set, to ten decimals. *)
Theorem C138_shown : forall whole (F : flow R) (s : settings R) n, let every := if s_option s =? 1 then s_printstep s else n in
  proper s -> s_nx s < 2147483648 -> s_ny s < 2147483648 -> 0 <= n < 2147483647 ->
  (IZR n <= s_Tfinal s / s_dt s < IZR n + 1)%R -> 0 < every < 2147483648 -> 2 * (n mod every) < every ->
  exists d fs sh, run_files fixed10 whole F s = Ok (d, fs) /\ rf_show d (fs FPhi) = Some sh /\ shown_well whole F s n sh.
Proof. exact show_run. Qed.
Print Assumptions C138_shown.
Example C138_case : proper case_s /\ (IZR 8 <= s_Tfinal case_s / s_dt case_s < IZR 8 + 1)%R /\ print_every case_s 8 = 2 /\ 2 * (8 mod 2) < 2.
Proof. exact (conj (proj1 case_proper) (conj (proj1 case_main) (conj (proj2 case_main) eq_refl))). Qed.

(** C138: the reported error is at most the true deviation from the initial state. *)
Theorem C138_error_below : forall whole (F : flow R) s n sh D, shown_well whole F s n sh ->
  let final := file_value whole F s FPhi (Z.to_nat (n / print_every s n) * Z.to_nat (print_every s n)) in let start := file_value whole F s FPhi 0 in
  (forall i j, 0 <= i < s_ny s -> 0 <= j < s_nx s -> (Rabs (final i j - start i j) <= D)%R) -> (sh_e sh <= D + / 10 ^ 10)%R.
Proof. exact e_lower. Qed.
Print Assumptions C138_error_below.

(** C138: but it says nothing about the sign, which is what a level set is about: whatever the first state is, the error is zero
    when the last one is its negative. *)
Theorem C138_error_refuted : forall d phi a sh, rf_load d phi = Some [a; map (map Ropp) a] -> rf_show d phi = Some sh -> sh_e sh = 0%R.
Proof. exact e_blind. Qed.
Print Assumptions C138_error_refuted.
Example C138_blind_case : let d := tx "3,2,0.5,1.0,0.0,1.0,0.0,1.0,1,0.25,1" in
  let phi := row "1,2,1" ++ row "3,5,3" ++ [nl] ++ row "-1,-2,-1" ++ row "-3,-5,-3" ++ [nl] in
  let a := [[1; 2; 1]; [3; 5; 3]]%R in
  rf_load d phi = Some [a; map (map Ropp) a] /\ exists sh, rf_show d phi = Some sh.
Proof. cbv zeta. split; [reflexivity|]. eexists. reflexivity. Qed.
