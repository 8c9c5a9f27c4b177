(** C109: the MPI reference program started with any number of processes. *)
From Coq Require Import ZArith List Reals.
From Verif Require Import Base Num NumB64 ModelVec ModelRefMath ModelRefMem ModelRef ModelRefMpi ModelRefMpiN SpecRefPar SpecRefRun SpecRefMpi
  ProofsRefMpiApi ProofsRefMpiN.
Open Scope list_scope. Open Scope Z_scope.

(** With whole messages, an even number of columns, two or more processes and room for 5 n messages of
    each further process every execution ends; rank 0 has the data and the blocks of the OpenMP
    program.  The messages of the further processes are never received.  Missing: next theorems. *)
Theorem C109_processes_partial : forall (F : flow R) (s : settings R) n procs cap, proper s -> s_nx s / 2 * s_ny s < 2147483648 -> Z.Even (s_nx s) ->
  0 <= n < 4294967296 -> (IZR n <= s_Tfinal s / s_dt s < IZR n + 1)%R -> 0 < print_every s n \/ n = 0 ->
  (2 <= procs)%nat -> procs = 2%nat \/ 5 * n <= Z.of_nat cap ->
  (exists r, mpi_world procs MPI_DOUBLE cap F s r) /\
  forall r, mpi_world procs MPI_DOUBLE cap F s r -> exists m out p os m' out', r = WFinished (mkConf [] (m, out) [] p []) os /\
    main_ true F s = Ok (m', out') /\ same_data (s_nx s) (s_ny s) m m' /\ same_blocks (s_nx s) (s_ny s) out out' /\
    (length os + 2)%nat = procs /\ forall o, In o os -> Z.of_nat (length (o_q o)) = 5 * n.
Proof. exact world_whole_any. Qed.
Print Assumptions C109_processes_partial.
(** Three or more processes and less room: no execution ends. *)
Theorem C109_further_refuted : forall (F : flow R) (s : settings R) n procs cap r, proper s -> s_nx s / 2 * s_ny s < 2147483648 -> Z.Even (s_nx s) ->
  0 <= n < 4294967296 -> (IZR n <= s_Tfinal s / s_dt s < IZR n + 1)%R -> 0 < print_every s n \/ n = 0 ->
  (3 <= procs)%nat -> Z.of_nat cap < 5 * n -> mpi_world procs MPI_DOUBLE cap F s r -> exists c os, r = WDeadlock c os.
Proof. exact world_stuck. Qed.
Print Assumptions C109_further_refuted.
(** One process: MPI ends the program in the first time step. *)
Theorem C109_alone_refuted : forall (F : flow R) (s : settings R) n size cap, proper s ->
  1 <= n < 4294967296 -> (IZR n <= s_Tfinal s / s_dt s < IZR n + 1)%R ->
  (exists r, mpi_world 1 size cap F s r) /\ forall r, mpi_world 1 size cap F s r -> r = WAborted.
Proof. exact alone_any. Qed.
Print Assumptions C109_alone_refuted.
(** The program as shipped, any number of processes. *)
Theorem C109_shipped_refuted : forall (F : flow R) (s : settings R) n procs cap, proper s -> s_nx s / 2 * s_ny s < 2147483648 ->
  1 <= n < 4294967296 -> (IZR n <= s_Tfinal s / s_dt s < IZR n + 1)%R -> (1 <= procs)%nat ->
  (exists r, mpi_world procs MPI_FLOAT cap F s r) /\
  forall r, mpi_world procs MPI_FLOAT cap F s r ->
    r = if Nat.eqb procs 1 then WAborted else WUndefined (if Z.even (s_nx s) then Uninitialised else OutOfBounds).
Proof. exact world_shipped_any. Qed.
Print Assumptions C109_shipped_refuted.
Example C109_case : forall nx, 3 <= nx < 1000 -> proper (mpi_s nx) /\ s_nx (mpi_s nx) / 2 * s_ny (mpi_s nx) < 2147483648 /\
  (IZR 8 <= s_Tfinal (mpi_s nx) / s_dt (mpi_s nx) < IZR 8 + 1)%R /\ 0 < print_every (mpi_s nx) 8.
Proof. exact mpi_case. Qed.
