(** C112: the MPI+OpenMP reference program started with any number of processes and threads. *)
From Coq Require Import ZArith List Reals.
From Verif Require Import Base Num NumB64 ModelVec ModelRefMath ModelRefMem ModelRef ModelRefMpi ModelRefOmp ModelRefHybN SpecRefPar SpecRefRun SpecRefMpi SpecRefHybN
  ProofsRefMpiApi ProofsRefHybN.
Open Scope list_scope. Open Scope Z_scope.

(** With whole messages, an even number of columns, one thread for the mixed derivatives, two or more
    processes and room for 5 n messages of each further process, every execution ends; rank 0 has the
    data and the blocks of the OpenMP program, and nothing further processes send is received.
    Missing: next theorems. *)
Theorem C112_processes_partial : forall (F : flow R) (s : settings R) n procs k cap, proper s -> s_nx s / 2 * s_ny s < 2147483648 -> Z.Even (s_nx s) ->
  0 <= n < 4294967296 -> (IZR n <= s_Tfinal s / s_dt s < IZR n + 1)%R -> 0 < print_every s n \/ n = 0 -> 1 <= k ->
  (2 <= procs)%nat -> procs = 2%nat \/ 5 * n <= Z.of_nat cap ->
  (exists r, hyb_world procs k 1 MPI_DOUBLE cap F s r) /\
  forall r, hyb_world procs k 1 MPI_DOUBLE cap F s r -> exists m out p ms m' out', r = PWFinished (m, out) p [] ms /\
    main_ true F s = Ok (m', out') /\ same_data (s_nx s) (s_ny s) m m' /\ same_blocks (s_nx s) (s_ny s) out out' /\
    (length ms + 2)%nat = procs /\ forall q, In q ms -> Z.of_nat (length q) = 5 * n.
Proof. exact hybn_whole. Qed.
Print Assumptions C112_processes_partial.
(** Three or more processes and less room: no execution ends. *)
Theorem C112_further_refuted : forall (F : flow R) (s : settings R) n procs k cap r, proper s -> s_nx s / 2 * s_ny s < 2147483648 -> Z.Even (s_nx s) ->
  0 <= n < 4294967296 -> (IZR n <= s_Tfinal s / s_dt s < IZR n + 1)%R -> 0 < print_every s n \/ n = 0 -> 1 <= k ->
  (3 <= procs)%nat -> Z.of_nat cap < 5 * n -> hyb_world procs k 1 MPI_DOUBLE cap F s r -> r = PWDeadlock.
Proof. exact hybn_stuck. Qed.
Print Assumptions C112_further_refuted.
(** One process: MPI ends the program in the first time step. *)
Theorem C112_alone_refuted : forall (F : flow R) (s : settings R) n k kmix size cap, proper s ->
  1 <= n < 4294967296 -> (IZR n <= s_Tfinal s / s_dt s < IZR n + 1)%R -> 1 <= k ->
  (exists r, hyb_world 1 k kmix size cap F s r) /\ forall r, hyb_world 1 k kmix size cap F s r -> r = PWAborted.
Proof. exact hybn_alone. Qed.
Print Assumptions C112_alone_refuted.
(** The messages as shipped, or an odd number of columns: every execution is undefined. *)
Theorem C112_shipped_refuted : forall (F : flow R) (s : settings R) n procs k kmix size cap, proper s -> s_nx s / 2 * s_ny s < 2147483648 ->
  1 <= n < 4294967296 -> (IZR n <= s_Tfinal s / s_dt s < IZR n + 1)%R -> 1 <= k -> (2 <= procs)%nat -> size = MPI_FLOAT \/ Z.Odd (s_nx s) ->
  (exists r, hyb_world procs k kmix size cap F s r) /\ forall r, hyb_world procs k kmix size cap F s r -> exists e, r = PWUndefined e.
Proof. exact hybn_shipped. Qed.
Print Assumptions C112_shipped_refuted.
(** With the messages put right there is still the data race of the mixed derivatives. *)
Theorem C112_several_threads_refuted : forall (F : flow R) (s : settings R) n procs k cap, proper s -> s_nx s / 2 * s_ny s < 2147483648 -> Z.Even (s_nx s) ->
  1 <= n < 4294967296 -> (IZR n <= s_Tfinal s / s_dt s < IZR n + 1)%R -> 2 <= k -> (2 <= procs)%nat -> hyb_world procs k k MPI_DOUBLE cap F s (PWUndefined DataRace).
Proof. exact hybn_races. Qed.
Print Assumptions C112_several_threads_refuted.
(** Two processes: the program of C106. *)
Theorem C112_two : forall T (NT : Num T) (TG : Trig T) k kmix size cap (F : flow T) (s : settings T) r,
  hyb_world 2 k kmix size cap F s r <-> exists r', hyb_runs k kmix size cap F s r' /\ r = as_world r'.
Proof. exact @hybn_two. Qed.
Print Assumptions C112_two.
Example C112_case : forall nx, 3 <= nx < 1000 -> proper (mpi_s nx) /\ s_nx (mpi_s nx) / 2 * s_ny (mpi_s nx) < 2147483648 /\
  (IZR 8 <= s_Tfinal (mpi_s nx) / s_dt (mpi_s nx) < IZR 8 + 1)%R /\ 0 < print_every (mpi_s nx) 8.
Proof. exact mpi_case. Qed.
