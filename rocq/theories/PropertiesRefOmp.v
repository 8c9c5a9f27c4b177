(** C105-C107: the reference programs with threads, any number of them, and their command line. *)
From Coq Require Import ZArith List Reals String Ascii.
From Verif Require Import Base Num NumB64 ModelVec ModelRefMath ModelRefMem ModelRef ModelRefMpi ModelRefOmp SpecRefPar SpecRefRun SpecRefMpi SpecRefOmp
  ProofsRefMpiApi ProofsRefOmp ProofsRefHyb ProofsRefLine.
Open Scope list_scope. Open Scope Z_scope.

(** C105: the OpenMP program with one thread is the serial program (whole sweep). *)
Theorem C105_one_thread : forall T (NT : Num T) (TG : Trig T) (F : flow T) (s : settings T) r, omp_main 1 1 F s r <-> r = main_ true F s.
Proof. exact @omp_main_one. Qed.
Print Assumptions C105_one_thread.
(** With any number of threads for all the loops but that of the mixed derivatives, whatever the
    interleaving: the serial result.  Missing: the program as shipped (next theorem). *)
Theorem C105_threads_partial : forall T (NT : Num T) (TG : Trig T) (F : flow T) (s : settings T) k, 1 <= k ->
  omp_main k 1 F s (main_ true F s) /\ forall r, omp_main k 1 F s r -> alike r (main_ true F s).
Proof. exact @openmp_threads. Qed.
Print Assumptions C105_threads_partial.
(** As shipped, with two threads or more, the program has a data race in its first time step. *)
Theorem C105_several_threads_refuted : forall (F : flow R) (s : settings R) n k, proper s -> 2 <= k ->
  1 <= n < 4294967296 -> (IZR n <= s_Tfinal s / s_dt s < IZR n + 1)%R -> omp_main k k F s (UB DataRace).
Proof. exact openmp_races. Qed.
Print Assumptions C105_several_threads_refuted.
Example C105_case : proper (mpi_s 6) /\ s_nx (mpi_s 6) / 2 * s_ny (mpi_s 6) < 2147483648 /\
  (IZR 8 <= s_Tfinal (mpi_s 6) / s_dt (mpi_s 6) < IZR 8 + 1)%R /\ 0 < print_every (mpi_s 6) 8.
Proof. exact six_case. Qed.

(** C106: two processes with k threads each, whole messages, an even number of columns and one thread
    for the mixed derivatives: no execution deadlocks or fails, and rank 0 has the data and prints the
    blocks of the OpenMP program.  Missing: the program as shipped (next theorems). *)
Theorem C106_threads_partial : forall (F : flow R) (s : settings R) n k cap, proper s -> s_nx s / 2 * s_ny s < 2147483648 -> Z.Even (s_nx s) ->
  0 <= n < 4294967296 -> (IZR n <= s_Tfinal s / s_dt s < IZR n + 1)%R -> 0 < print_every s n \/ n = 0 -> 1 <= k ->
  (exists r, hyb_runs k 1 MPI_DOUBLE cap F s r) /\
  forall r, hyb_runs k 1 MPI_DOUBLE cap F s r -> exists m out p m' out', r = PFinished (m, out) p [] /\
    main_ true F s = Ok (m', out') /\ same_data (s_nx s) (s_ny s) m m' /\ same_blocks (s_nx s) (s_ny s) out out'.
Proof. exact hyb_defined. Qed.
Print Assumptions C106_threads_partial.
(** As shipped (MPI_FLOAT), or with an odd number of columns, every execution is undefined, for every
    number of threads. *)
Theorem C106_shipped_refuted : forall (F : flow R) (s : settings R) n k kmix size cap, proper s -> s_nx s / 2 * s_ny s < 2147483648 ->
  1 <= n < 4294967296 -> (IZR n <= s_Tfinal s / s_dt s < IZR n + 1)%R -> 1 <= k -> 1 <= kmix -> size = MPI_FLOAT \/ Z.Odd (s_nx s) ->
  (exists r, hyb_runs k kmix size cap F s r) /\ forall r, hyb_runs k kmix size cap F s r -> exists e, r = PUndefined e.
Proof. exact hyb_undefined. Qed.
Print Assumptions C106_shipped_refuted.
(** With the messages put right there is still the data race. *)
Theorem C106_several_threads_refuted : forall (F : flow R) (s : settings R) n k cap, proper s -> s_nx s / 2 * s_ny s < 2147483648 -> Z.Even (s_nx s) ->
  1 <= n < 4294967296 -> (IZR n <= s_Tfinal s / s_dt s < IZR n + 1)%R -> 2 <= k -> hyb_runs k k MPI_DOUBLE cap F s (PUndefined DataRace).
Proof. exact hyb_racing. Qed.
Print Assumptions C106_several_threads_refuted.
Example C106_case : forall F : flow R, exists r, hybrid_program MPI_FLOAT 2 [decimal 4] F (mpi_s 6) (Some r) /\ exists e, r = PUndefined e.
Proof. exact shipped_case. Qed.

(** C107: the first argument is the number of threads. *)
Theorem C107_openmp_argument : forall T (NT : Num T) (TG : Trig T) n more (F : flow T) (s : settings T) r, 1 <= n < 2 ^ 31 ->
  openmp_program (decimal n :: more) F s r <-> omp_main n n F s r.
Proof. exact @openmp_line. Qed.
Print Assumptions C107_openmp_argument.
Theorem C107_hybrid_argument : forall T (NT : Num T) (TG : Trig T) n size cap (F : flow T) (s : settings T) r, 1 <= n < 2 ^ 31 ->
  hybrid_program size cap [decimal n] F s (Some r) <-> hyb_runs n n size cap F s r.
Proof. exact @hybrid_line. Qed.
Print Assumptions C107_hybrid_argument.
(** White space and a plus sign before the number and any text after it, other than a digit, make no difference. *)
Theorem C107_typed_argument : forall T (NT : Num T) (TG : Trig T) ws sign n tl more (F : flow T) (s : settings T) r,
  all_blank ws -> sign = EmptyString \/ sign = "+"%string -> 1 <= n < 2 ^ 31 -> begins_outside numerals tl ->
  openmp_program ((ws ++ sign ++ decimal n ++ tl)%string :: more) F s r <-> omp_main n n F s r.
Proof. exact @typed_line. Qed.
Print Assumptions C107_typed_argument.
(** Text without a number is not reported: the number of threads is any. *)
Theorem C107_text_argument_refuted : forall T (NT : Num T) (TG : Trig T) ws tl more (F : flow T) (s : settings T) r,
  all_blank ws -> begins_outside ("+"%char :: "-"%char :: blanks ++ numerals) tl ->
  openmp_program ((ws ++ tl)%string :: more) F s r <-> exists k, 1 <= k /\ omp_main k k F s r.
Proof. exact @untyped_line. Qed.
Print Assumptions C107_text_argument_refuted.
Example C107_typed_case : all_blank (String "009" (String "013" " ")) /\ begins_outside numerals " threads" /\ begins_outside ("+"%char :: "-"%char :: blanks ++ numerals) "all".
Proof. exact typed_case. Qed.
(** Without an argument the OpenMP program reads through a null pointer. *)
Theorem C107_no_argument_refuted : forall T (NT : Num T) (TG : Trig T) (F : flow T) (s : settings T) r, openmp_program [] F s r <-> r = UB OutOfBounds.
Proof. exact @no_argument. Qed.
Print Assumptions C107_no_argument_refuted.
(** An argument that is no positive number is not reported: the number of threads is any. *)
Theorem C107_bad_argument_refuted : forall T (NT : Num T) (TG : Trig T) a (F : flow T) (s : settings T) r k, to_int (strtol a) <= 0 -> 1 <= k ->
  omp_main k k F s r -> openmp_program [a] F s r.
Proof. exact @zero_threads. Qed.
Print Assumptions C107_bad_argument_refuted.
Theorem C107_negative_argument_refuted : forall T (NT : Num T) (TG : Trig T) n more (F : flow T) (s : settings T) r, 0 <= n <= 2 ^ 31 ->
  openmp_program (String "-"%char (decimal n) :: more) F s r <-> exists k, 1 <= k /\ omp_main k k F s r.
Proof. exact @minus_threads. Qed.
Print Assumptions C107_negative_argument_refuted.
(** The program with both prints its usage, and does nothing else, unless there is exactly one argument. *)
Theorem C107_hybrid_usage : forall T (NT : Num T) (TG : Trig T) args size cap (F : flow T) (s : settings T) r, length args <> 1%nat ->
  hybrid_program size cap args F s r <-> r = None.
Proof. exact @hybrid_usage. Qed.
Print Assumptions C107_hybrid_usage.
Example C107_case : forall F : flow R, openmp_program [decimal 4] F (mpi_s 6) (UB DataRace) /\ decimal 4 = "4"%string /\ decimal 120 = "120"%string.
Proof. exact line_case. Qed.
Example C107_lines : strtol "4 threads" = 4 /\ strtol "all" = 0 /\ strtol "-2" = -2 /\ to_int (strtol "4294967298") = 2.
Proof. exact lines. Qed.
