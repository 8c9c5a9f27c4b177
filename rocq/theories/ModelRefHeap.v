(** Model of the memory that the reference programs ask for with malloc and cudaMalloc in a run: src/reference/Allocation.h,
    src/reference/GALS_Advection_MPI.cpp and src/reference/CUDA.  The vectors of the programs free themselves and are left out. *)
From Coq Require Import ZArith List.
From Verif Require Import Base ModelRefMath.
Import ListNotations.
Open Scope Z_scope.

(** The blocks that have been handed out and not given back: an address and a number of bytes.  Simplification: a request is
    granted if and only if the bytes asked for fit below the limit, so no bytes are lost to alignment or fragmentation; an
    address is not used again. *)
Record mem := mkMem { m_limit : Z; m_next : Z; m_blocks : list (Z * Z) }.
Definition held (m : mem) : Z := fold_right (fun b s => snd b + s) 0 (m_blocks m).
(** malloc; [None]: the null pointer *)
Definition malloc (m : mem) (bytes : Z) : option Z * mem :=
  if held m + bytes <=? m_limit m then (Some (m_next m), mkMem (m_limit m) (m_next m + 1) ((m_next m, bytes) :: m_blocks m)) else (None, m).
(** cudaMalloc whose status is dropped: on failure the pointer variable stays uninitialised, and each one is used in the same
    step (CUDA/GALS_Advection.cu:152-215) *)
Definition cuda_malloc (m : mem) (bytes : Z) : outcome (Z * mem) :=
  match malloc m bytes with (Some p, m') => Ok (p, m') | (None, _) => UB Uninitialised end.
(** cudaFree *)
Definition cuda_free (m : mem) (p : Z) : outcome mem :=
  if existsb (fun b => fst b =? p) (m_blocks m) then Ok (mkMem (m_limit m) (m_next m) (filter (fun b => negb (fst b =? p)) (m_blocks m))) else UB Dangling.

(** Allocation.h:102-108: the product of two unsigned ints is reduced before it meets sizeof; array[i] is written for every row,
    whether or not malloc gave memory.  The result is &data[0] as array[0] holds it. *)
Definition alloc_2d (m : mem) (rows cols : Z) : outcome (option Z * mem) :=
  match malloc m (u32 (rows * cols) * 8) with (data, m1) =>
  match malloc m1 (rows * 8) with (array, m2) =>
  match array with None => if 0 <? rows then UB Dangling else Ok (data, m2) | Some _ => Ok (data, m2) end end end.
(** the five matrices of a step are written and read element by element: GALS_Advection_MPI.cpp:146-183, :228-258 *)
Definition use_2d (data : option Z) (rows cols : Z) : outcome unit :=
  match data with None => if 0 <? rows * cols then UB Dangling else Ok tt | Some _ => Ok tt end.
(** GALS_Advection_MPI.cpp:124-135 and the uses up to :264, on one process (the other one does the same);
    GALS_Advection_MPI_OpenMP.cpp has the same lines.  Nothing is given back. *)
Definition mpi_step (m : mem) (nx ny : Z) : outcome mem :=
  let nnx := nx / 2 in
  a1 <- alloc_2d m nnx ny ;; b1 <- alloc_2d (snd a1) nnx ny ;; a3 <- alloc_2d (snd b1) nnx ny ;; b3 <- alloc_2d (snd a3) nnx ny ;;
  c3 <- alloc_2d (snd b3) nnx ny ;;
  do_ use_2d (fst a1) nnx ny ;; do_ use_2d (fst b1) nnx ny ;; do_ use_2d (fst a3) nnx ny ;; do_ use_2d (fst b3) nnx ny ;;
  do_ use_2d (fst c3) nnx ny ;; Ok (snd c3).
Fixpoint mpi_run (n : nat) (m : mem) (nx ny : Z) : outcome mem :=
  match n with O => Ok m | S n' => m' <- mpi_step m nx ny ;; mpi_run n' m' nx ny end.

(** CUDA/GALS_Advection.cu:63-64 *)
Definition gridmemory (nx ny : Z) : Z := u32 (nx * ny) * 8.
Definition gridmemoryint (nx ny : Z) : Z := u32 (nx * ny) * 4.
(** CUDA/Allocation.h:77-80: u and v are filled at once and never given back *)
Definition cuda_print (host : mem) (nx ny : Z) : outcome mem :=
  match malloc host (gridmemory nx ny) with (u, h1) =>
  match malloc h1 (gridmemory nx ny) with (v, h2) =>
  match u, v with Some _, Some _ => Ok h2 | _, _ => if 0 <? nx * ny then UB Dangling else Ok h2 end end end.
(** CUDA/GALS_Advection.cu:137-216: step t; the state is the device memory and the host memory *)
Definition cuda_step (t : Z) (printstep nx ny : Z) (s : mem * mem) : outcome (mem * mem) :=
  let g := gridmemory nx ny in let gi := gridmemoryint nx ny in
  a <- cuda_malloc (fst s) g ;; b <- cuda_malloc (snd a) g ;; c <- cuda_malloc (snd b) gi ;; d <- cuda_malloc (snd c) gi ;; e <- cuda_malloc (snd d) gi ;;
  h <- (if printstep =? 0 then UB DivByZero else if u32 (t + 1) mod printstep =? 0 then cuda_print (snd s) nx ny else Ok (snd s)) ;;
  d1 <- cuda_free (snd e) (fst a) ;; d2 <- cuda_free d1 (fst b) ;; d3 <- cuda_free d2 (fst c) ;; d4 <- cuda_free d3 (fst d) ;; d5 <- cuda_free d4 (fst e) ;;
  Ok (d5, h).
Fixpoint cuda_run (n : nat) (t printstep nx ny : Z) (s : mem * mem) : outcome (mem * mem) :=
  match n with O => Ok s | S n' => s' <- cuda_step t printstep nx ny s ;; cuda_run n' (t + 1) printstep nx ny s' end.
