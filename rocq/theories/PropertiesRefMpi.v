(** C58, C61, C90: the MPI and the MPI+OpenMP reference programs, run with two processes. *)
From Coq Require Import ZArith List Reals.
From Verif Require Import Base Num NumB64 ModelVec ModelRefMath ModelRefMem ModelRef ModelRefMpi SpecRefPar SpecRefRun SpecRefMpi
  ProofsRefMpiApi.
Open Scope list_scope. Open Scope Z_scope.

(** C61: nnx*ny doubles are sent as nnx*ny MPI_FLOATs, 4 bytes each.  Element (r,c) of a buffer
    arrives if it lies in the first half of the buffer, otherwise rank 0 keeps what it had; an element
    cut in the middle is no double any more.  Missing: the second half (next theorems). *)
Theorem C61_first_half_partial : forall T (NT : Num T) nnx ny a (m0 m1 : mem T) r c, 0 <= r < nnx -> 0 <= c < ny -> nnx * ny < 2147483648 ->
  m0 (a, r, c) <> None ->
  (2 * (r * ny + c + 1) <= nnx * ny -> mpi_recv ny a (mpi_send MPI_FLOAT nnx ny a m1) m0 (a, r, c) = m1 (a, r, c)) /\
  (nnx * ny <= 2 * (r * ny + c) -> mpi_recv ny a (mpi_send MPI_FLOAT nnx ny a m1) m0 (a, r, c) = m0 (a, r, c)) /\
  (2 * (r * ny + c) < nnx * ny < 2 * (r * ny + c + 1) -> mpi_recv ny a (mpi_send MPI_FLOAT nnx ny a m1) m0 (a, r, c) = Some Undef).
Proof. exact exchange_spec. Qed.
Print Assumptions C61_first_half_partial.
(** For every size of the buffers some element never arrives. *)
Theorem C61_lost_refuted : forall nnx ny, 1 <= nnx -> 2 <= ny -> nnx * ny < 2147483648 -> exists r c, 0 <= r < nnx /\ 0 <= c < ny /\
  forall T (NT : Num T) a (m0 m1 : mem T), m0 (a, r, c) <> None -> mpi_recv ny a (mpi_send MPI_FLOAT nnx ny a m1) m0 (a, r, c) = m0 (a, r, c).
Proof. exact exchange_lost. Qed.
Print Assumptions C61_lost_refuted.
(** Whatever the flow and the message buffering: every execution that makes a time step uses
    uninitialised memory (even nx) or writes past a buffer (odd nx). *)
Theorem C61_program_refuted : forall (F : flow R) (s : settings R) n cap, proper s -> s_nx s / 2 * s_ny s < 2147483648 ->
  1 <= n < 4294967296 -> (IZR n <= s_Tfinal s / s_dt s < IZR n + 1)%R ->
  (exists r, mpi_runs MPI_FLOAT cap F s r) /\
  forall r, mpi_runs MPI_FLOAT cap F s r -> r = Undefined (if Z.even (s_nx s) then Uninitialised else OutOfBounds).
Proof. exact mpi_shipped. Qed.
Print Assumptions C61_program_refuted.
Example C61_case : forall nx, 3 <= nx < 1000 -> proper (mpi_s nx) /\ s_nx (mpi_s nx) / 2 * s_ny (mpi_s nx) < 2147483648 /\
  (IZR 8 <= s_Tfinal (mpi_s nx) / s_dt (mpi_s nx) < IZR 8 + 1)%R /\ 0 < print_every (mpi_s nx) 8.
Proof. exact mpi_case. Qed.

(** C90: with the element type MPI_DOUBLE and an even number of columns no execution deadlocks or
    fails, and rank 0 ends with the data and prints the blocks of the OpenMP program.  Missing: the
    program as shipped (C61_program_refuted) and an odd number of columns (next theorem). *)
Theorem C90_whole_messages_partial : forall (F : flow R) (s : settings R) n cap, proper s -> s_nx s / 2 * s_ny s < 2147483648 -> Z.Even (s_nx s) ->
  0 <= n < 4294967296 -> (IZR n <= s_Tfinal s / s_dt s < IZR n + 1)%R -> 0 < print_every s n \/ n = 0 ->
  (exists r, mpi_runs MPI_DOUBLE cap F s r) /\
  forall r, mpi_runs MPI_DOUBLE cap F s r -> exists m out p m' out', r = Finished (mkConf [] (m, out) [] p []) /\
    main_ true F s = Ok (m', out') /\ same_data (s_nx s) (s_ny s) m m' /\ same_blocks (s_nx s) (s_ny s) out out'.
Proof. exact mpi_like_openmp. Qed.
Print Assumptions C90_whole_messages_partial.
Theorem C90_odd_columns_refuted : forall (F : flow R) (s : settings R) n cap r, proper s -> s_nx s / 2 * s_ny s < 2147483648 -> Z.Odd (s_nx s) ->
  1 <= n < 4294967296 -> (IZR n <= s_Tfinal s / s_dt s < IZR n + 1)%R -> mpi_runs MPI_DOUBLE cap F s r -> r = Undefined OutOfBounds.
Proof. exact mpi_odd_whole. Qed.
Print Assumptions C90_odd_columns_refuted.

(** C58: the four copying loops of the MPI+OpenMP program may be shared out among threads. *)
Theorem C58_mpi_pack_positions : forall T nnx nx ny teams (m m' : mem T) r, 0 <= nnx -> nx < 4294967296 ->
  team_of (nodes ny nnx nx) teams -> runs (map (pack_adv nnx) (nodes ny nnx nx)) m = Ok m' ->
  (interleaved (threads (pack_adv nnx) teams) m r -> same_result r (Ok m')) /\ ~ data_race (threads (pack_adv nnx) teams) m.
Proof. exact par_pack_adv. Qed.
Print Assumptions C58_mpi_pack_positions.
Theorem C58_mpi_pack_cells : forall T (NT : Num T) nnx nx ny teams (m m' : mem T) r, 0 <= nnx -> nx < 4294967296 ->
  team_of (nodes ny nnx nx) teams -> runs (map (pack_cells nnx) (nodes ny nnx nx)) m = Ok m' ->
  (interleaved (threads (pack_cells nnx) teams) m r -> same_result r (Ok m')) /\ ~ data_race (threads (pack_cells nnx) teams) m.
Proof. exact par_pack_cells. Qed.
Print Assumptions C58_mpi_pack_cells.
Theorem C58_mpi_unpack_positions : forall T nnx nx ny teams (m m' : mem T) r,
  team_of (nodes ny nnx nx) teams -> runs (map (unpack_adv nnx) (nodes ny nnx nx)) m = Ok m' ->
  (interleaved (threads (unpack_adv nnx) teams) m r -> same_result r (Ok m')) /\ ~ data_race (threads (unpack_adv nnx) teams) m.
Proof. exact par_unpack_adv. Qed.
Print Assumptions C58_mpi_unpack_positions.
Theorem C58_mpi_unpack_cells : forall T (NT : Num T) nnx nx ny teams (m m' : mem T) r,
  team_of (nodes ny nnx nx) teams -> runs (map (unpack_cells nnx) (nodes ny nnx nx)) m = Ok m' ->
  (interleaved (threads (unpack_cells nnx) teams) m r -> same_result r (Ok m')) /\ ~ data_race (threads (unpack_cells nnx) teams) m.
Proof. exact par_unpack_cells. Qed.
Print Assumptions C58_mpi_unpack_cells.
(** a run of the first loop: three columns of a grid of six columns and four rows *)
Example C58_mpi_case : exists m m' : mem R, runs (map (pack_adv 3) (nodes 4 3 6)) m = Ok m' /\ m' (BA1, 2, 1) = Some (D 15%R) /\ m (BA1, 2, 1) = Some Undef.
Proof. exact pack_case. Qed.
