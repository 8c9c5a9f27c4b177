(** Properties of the output files of the reference programs. *)
From Coq Require Import ZArith List String Ascii Reals.
From Verif Require Import Base Num NumB64 ModelVec ModelRefMath ModelRefMem ModelRef ModelRefPrint SpecRefRun SpecRefPrint
  ProofsRefRunCases ProofsRefPrint.
Open Scope Z_scope.

(** C92: details.txt holds the eleven parameters separated by commas.  Each of the six files holds one
    block for the initial state and one after every [every] steps: ny lines of nx numbers with ten
    decimals, separated by commas, and an empty line; the number in row i, column j of block b is
    within half a unit of the tenth decimal of the value of the field at node (i,j) after b*every steps. *)
Theorem C92_files_written : forall whole (F : flow R) (s : settings R) n, let every := if s_option s =? 1 then s_printstep s else n in
  proper s -> 0 <= n < 4294967296 -> (IZR n <= s_Tfinal s / s_dt s < IZR n + 1)%R -> 0 < every \/ n = 0 /\ every = 0 ->
  exists d fs, run_files fixed10 whole F s = Ok (d, fs) /\
    (exists ws, d = join comma ws /\ Forall2 (fun w x => exists v, read_number w = Some v /\ near v x) ws
      [IZR (s_nx s); IZR (s_ny s); s_dx s; s_dy s; s_xlim1 s; s_xlim2 s; s_ylim1 s; s_ylim2 s; IZR n; s_dt s; IZR every]) /\
    forall f, exists bs, fs f = flat_map block_text bs /\ Z.of_nat (List.length bs) = 1 + n / every /\
      forall b blk, nth_error bs b = Some blk ->
        table (s_nx s) (s_ny s) (fun i j w => ten_decimals w /\
          exists v, read_number w = Some v /\ near v (file_value whole F s f (b * Z.to_nat every) i j)) blk.
Proof. exact files_written. Qed.
Print Assumptions C92_files_written.
Example C92_case : proper case_s /\ (IZR 8 <= s_Tfinal case_s / s_dt case_s < IZR 8 + 1)%R /\ print_every case_s 8 = 2.
Proof. exact (conj (proj1 case_proper) case_main). Qed.

(** C93: when n mod every is less than half of every, Readfiles.m reads all blocks of every file, each
    value within half a unit of the tenth decimal. *)
Theorem C93_read_back_partial : forall whole (F : flow R) (s : settings R) n, let every := if s_option s =? 1 then s_printstep s else n in
  proper s -> s_nx s < 2147483648 -> s_ny s < 2147483648 -> 0 <= n < 2147483647 ->
  (IZR n <= s_Tfinal s / s_dt s < IZR n + 1)%R -> 0 < every < 2147483648 -> 2 * (n mod every) < every ->
  exists d fs, run_files fixed10 whole F s = Ok (d, fs) /\ forall f,
    exists bs, rf_load d (fs f) = Some bs /\ Z.of_nat (List.length bs) = 1 + n / every /\
      forall b blk, nth_error bs b = Some blk ->
        table (s_nx s) (s_ny s) (fun i j v => near v (file_value whole F s f (b * Z.to_nat every) i j)) blk.
Proof. exact files_load_all. Qed.
Print Assumptions C93_read_back_partial.
Example C93_case : proper case_s /\ (IZR 8 <= s_Tfinal case_s / s_dt case_s < IZR 8 + 1)%R /\ print_every case_s 8 = 2 /\ 2 * (8 mod 2) < 2.
Proof. exact (conj (proj1 case_proper) (conj (proj1 case_main) (conj (proj2 case_main) eq_refl))). Qed.
(** Otherwise it asks for one block too many and stops with an error. *)
Theorem C93_read_back_refuted : forall whole (F : flow R) (s : settings R) n, let every := if s_option s =? 1 then s_printstep s else n in
  proper s -> s_nx s < 2147483648 -> s_ny s < 2147483648 -> 0 <= n < 2147483647 ->
  (IZR n <= s_Tfinal s / s_dt s < IZR n + 1)%R -> 0 < every < 2147483648 -> every <= 2 * (n mod every) ->
  exists d fs, run_files fixed10 whole F s = Ok (d, fs) /\ forall f, rf_load d (fs f) = None.
Proof. exact files_load_none. Qed.
Print Assumptions C93_read_back_refuted.
Example C93_refuted_case : proper print_s /\ (IZR 8 <= s_Tfinal print_s / s_dt print_s < IZR 8 + 1)%R /\ print_every print_s 8 = 3 /\ (2 * (8 mod 3) <? 3) = false.
Proof. exact print_case. Qed.
