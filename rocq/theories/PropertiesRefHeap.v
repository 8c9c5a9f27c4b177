(** C137: the memory that a run of the reference programs holds. *)
From Coq Require Import ZArith List Lia.
From Verif Require Import Base ModelRefMath ModelRefHeap SpecRefHeap ProofsRefHeap.
Import ListNotations.
Open Scope Z_scope.

(** C137: every step of the MPI programs keeps the bytes of its five matrices for ever: n steps succeed exactly as long as n
    times these bytes fit, and then the program works with a null pointer. *)
Theorem C137_mpi_refuted n m nx ny : countable nx ny -> sound m ->
  if held m + Z.of_nat n * mpi_bytes nx ny <=? m_limit m
  then exists m', mpi_run n m nx ny = Ok m' /\ held m' = held m + Z.of_nat n * mpi_bytes nx ny
  else mpi_run n m nx ny = UB Dangling.
Proof. exact (mpi_run_exact n m nx ny). Qed.
Print Assumptions C137_mpi_refuted.

(** C137: so, whatever the memory, a run that is long enough fails. *)
Theorem C137_mpi_ends_refuted m nx ny : countable nx ny -> sound m -> exists n, forall k, (n <= k)%nat -> mpi_run k m nx ny = UB Dangling.
Proof. exact (mpi_runs_out m nx ny). Qed.
Print Assumptions C137_mpi_ends_refuted.

(** C137: the CUDA program gives the device arrays of a step back: if the device has room for one step, it has room for every
    number of steps and holds the same blocks at the end.  On the host two grids stay for every printed state, and the run ends
    when they do not fit. *)
Theorem C137_cuda_refuted n ps nx ny d h : countable nx ny -> 0 < ps -> Z.of_nat n < 4294967296 -> sound d -> sound h ->
  held d + cuda_bytes nx ny <= m_limit d ->
  if held h + Z.of_nat n / ps * (16 * (nx * ny)) <=? m_limit h
  then exists d' h', cuda_run n 0 ps nx ny (d, h) = Ok (d', h') /\ same_blocks d d' /\ held h' = held h + Z.of_nat n / ps * (16 * (nx * ny))
  else cuda_run n 0 ps nx ny (d, h) = UB Dangling.
Proof. exact (cuda_run_count n ps nx ny d h). Qed.
Print Assumptions C137_cuda_refuted.

(** C137: without that room on the device no step goes well, and no failed request is noticed. *)
Theorem C137_device_refuted t ps nx ny d h : countable nx ny -> m_limit d < held d + cuda_bytes nx ny -> cuda_step t ps nx ny (d, h) = UB Uninitialised.
Proof. exact (cuda_no_room t ps nx ny d h). Qed.
Print Assumptions C137_device_refuted.

(** the hypotheses are met: the grid of the programs, a device with the arrays of CUDA/GALS_Advection.cu:80-104 *)
Example C137_case : countable 128 128 /\ sound (mkMem 16777216 11 [(10, 131072); (9, 131072); (8, 131072); (7, 131072); (6, 131072); (5, 131072); (4, 131072); (3, 131072); (2, 1024); (1, 1024)]) /\
  mpi_bytes 128 128 = 330240 /\ cuda_bytes 128 128 = 458752.
Proof. split; [unfold countable; lia|]. split; [split; [repeat constructor; cbn; lia|cbn; lia]|]. split; reflexivity. Qed.
(** 3 steps of the MPI program fit in a million bytes, 4 do not; the CUDA program prints 3 times in two million bytes, not 8 times *)
Example C137_mpi_case : exists m', mpi_run 3 (mkMem 1000000 1 []) 128 128 = Ok m' /\ held m' = 990720 /\ mpi_run 4 (mkMem 1000000 1 []) 128 128 = UB Dangling.
Proof. eexists. split; [vm_compute; reflexivity|]. split; vm_compute; reflexivity. Qed.
Example C137_cuda_case : let s := (mkMem 2000000 1 [(0, 1050624)], mkMem 2000000 1 []) in
  (exists s', cuda_run 48 0 16 128 128 s = Ok s' /\ m_blocks (fst s') = [(0, 1050624)] /\ held (snd s') = 786432) /\ cuda_run 128 0 16 128 128 s = UB Dangling.
Proof. cbv zeta. split; [eexists; split; [vm_compute; reflexivity|split; vm_compute; reflexivity]|vm_compute; reflexivity]. Qed.
