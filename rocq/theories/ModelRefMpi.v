(** Model of the MPI reference program: src/reference/GALS_Advection_MPI.cpp and alloc_2d_int of
    src/reference/Allocation.h, run with two processes (n_Nodes = 2, :125).

    Both processes run main with their own memory; they meet only in the messages of :149-174 and
    :238-261, all from rank 1 to rank 0. *)
From Coq Require Import ZArith List String.
From Verif Require Import Base Num NumB64 ModelVec ModelRefMath ModelRefMem ModelRef.
Open Scope Z_scope.

(** *** execution model (no code of /repo): two processes, one channel *)
Section Pair.
Context {S M : Type}.
(** Rank 0 computes and receives, rank 1 computes and sends. *)
Inductive reader := RDo (f : S -> outcome S) | Recv (f : M -> S -> S).
Inductive writer := WDo (f : S -> outcome S) | Send (f : S -> M).
(** what is left of rank 0, its state, what is left of rank 1, its state, messages on the way *)
Record conf := mkConf { c_r : list reader; c_rs : S; c_w : list writer; c_ws : S; c_q : list M }.
(** One move of one process, or a send that meets its receive.  MPI_Send may wait for the receiver
    or return once the message is stored: [cap] messages can be stored. *)
Inductive move (cap : nat) : conf -> conf -> Prop :=
| mv_rdo f p s s' w ws q : f s = Ok s' -> move cap (mkConf (RDo f :: p) s w ws q) (mkConf p s' w ws q)
| mv_wdo f p s s' r rs q : f s = Ok s' -> move cap (mkConf r rs (WDo f :: p) s q) (mkConf r rs p s' q)
| mv_send f r rs p s q : (length q < cap)%nat -> move cap (mkConf r rs (Send f :: p) s q) (mkConf r rs p s (q ++ [f s]))
| mv_recv f p s w ws x q : move cap (mkConf (Recv f :: p) s w ws (x :: q)) (mkConf p (f x s) w ws q)
| mv_meet f g p s w ws : move cap (mkConf (Recv f :: p) s (Send g :: w) ws []) (mkConf p (f (g ws) s) w ws []).
Inductive breaks : conf -> ub -> Prop :=
| br_r f p s w ws q e : f s = UB e -> breaks (mkConf (RDo f :: p) s w ws q) e
| br_w f p s r rs q e : f s = UB e -> breaks (mkConf r rs (WDo f :: p) s q) e.
Definition over (c : conf) : Prop := c_r c = [] /\ c_w c = [].
(** how an execution ends *)
Inductive ending := Finished (c : conf) | Undefined (e : ub) | Deadlock (c : conf).
Inductive executes (cap : nat) : conf -> ending -> Prop :=
| ex_over c : over c -> executes cap c (Finished c)
| ex_move c c' r : move cap c c' -> executes cap c' r -> executes cap c r
| ex_ub c e : breaks c e -> executes cap c (Undefined e)
| ex_stuck c : ~ over c -> (forall c', ~ move cap c c') -> (forall e, ~ breaks c e) -> executes cap c (Deadlock c).
End Pair.
Arguments reader S M : clear implicits.
Arguments writer S M : clear implicits.
Arguments conf S M : clear implicits.
Arguments ending S M : clear implicits.

Section Mpi.
Context {T : Type} {NT : Num T}.

(** Allocation.h:102-108 alloc_2d_int.  Simplification: malloc succeeds and rows*cols*8 fits;
    array[rows] does not exist. *)
Definition alloc_2d_int (a : arr) (rows cols : Z) (m : mem T) : mem T := alloc a rows cols Undef m.
(** GALS_Advection_MPI.cpp:131-135 *)
Definition buffers (nnx ny : Z) (m : mem T) : mem T := fold_left (fun m a => alloc_2d_int a nnx ny m) [BA1; BB1; BA3; BB3; BC3] m.

(** A message: its length in units of 4 bytes and the doubles of the buffer it is taken from. *)
Record message := mkMsg { words : Z; content : Z -> option (val T) }.
(** GALS_Advection_MPI.cpp:238-261: MPI_Send of ny*nnx elements from a[0][0] on; an element has
    [size] times 4 bytes, size = 1 for the MPI_FLOAT of the code.  The rows of a are contiguous. *)
Definition mpi_send (size nnx ny : Z) (a : arr) (m : mem T) : message :=
  mkMsg (size * u32 (ny * nnx)) (fun k => m (a, k / ny, k mod ny)).
(** GALS_Advection_MPI.cpp:149-174: MPI_Recv of as many elements.  Simplification: both processes
    store doubles alike and the bytes are not converted.  Half a double makes no value. *)
Definition mpi_recv (ny : Z) (a : arr) (x : message) (m : mem T) : mem T :=
  fun l => match l with (a', r, c) =>
    if arr_eqb a a' then
      match m l with
      | None => None
      | Some v => let k := r * ny + c in
          if 2 * k + 2 <=? words x then content x k else if 2 * k + 1 <=? words x then Some Undef else Some v
      end
    else m l end.

(** GALS_Advection_MPI.cpp:156-157, one node; the column j - nnx is unsigned *)
Definition unpack_adv (nnx : Z) (ij : Z * Z) : prog T :=
  match ij with (i, j) =>
    rd (BA1, u32 (j - nnx), i) (fun v => Wr (Xadv, i, j) (D v) (rd (BB1, u32 (j - nnx), i) (fun v => Wr (Yadv, i, j) (D v) Ret))) end.
(** a double converted to unsigned int: the fraction is dropped, a value out of range is undefined *)
Definition to_unsigned (v : T) (k : Z -> prog T) : prog T :=
  let z := if (v <? nofZ 0)%num then - nfloor (nofZ 0 - v)%num else nfloor v in
  if (0 <=? z) && (z <=? 4294967295) then k z else Err FloatToInt.
(** GALS_Advection_MPI.cpp:180-182, one node *)
Definition unpack_cells (nnx : Z) (ij : Z * Z) : prog T :=
  match ij with (i, j) =>
    let get a b p := rd (a, u32 (j - nnx), i) (fun v => to_unsigned v (fun z => Wr (b, i, j) (U z) p)) in
    get BA3 Cellx (get BB3 Celly (get BC3 Tracker Ret)) end.
(** GALS_Advection_MPI.cpp:232-233, one node *)
Definition pack_adv (nnx : Z) (ij : Z * Z) : prog T :=
  match ij with (i, j) =>
    rd (Xadv, i, j) (fun v => Wr (BA1, u32 (j - nnx), i) (D v) (rd (Yadv, i, j) (fun v => Wr (BB1, u32 (j - nnx), i) (D v) Ret))) end.
(** GALS_Advection_MPI.cpp:252-254, one node *)
Definition pack_cells (nnx : Z) (ij : Z * Z) : prog T :=
  match ij with (i, j) =>
    let put a b p := rdu (a, i, j) (fun z => Wr (b, u32 (j - nnx), i) (D (nofZ z)) p) in
    put Cellx BA3 (put Celly BB3 (put Tracker BC3 Ret)) end.

(** the state of a process: its memory and the blocks it printed *)
Definition proc : Type := (mem T * list (T * mem T))%type.
Definition on_mem (f : mem T -> outcome (mem T)) (s : proc) : outcome proc := m <- f (fst s) ;; Ok (m, snd s).

(** GALS_Advection_MPI.cpp:116-135: what both processes do first in a time step *)
Definition fresh (s : settings T) (m : mem T) : mem T :=
  let nx := s_nx s in let ny := s_ny s in
  buffers (nx / 2) ny (alloc Yadv ny nx (D (nofZ 0)) (alloc Xadv ny nx (D (nofZ 0)) (alloc Tracker ny nx (U 0) m))).
(** :161-165 and :243-245 *)
Definition fresh_cells (s : settings T) (m : mem T) : mem T :=
  alloc Celly (s_ny s) (s_nx s) (U 0) (alloc Cellx (s_ny s) (s_nx s) (U 0) m).
Definition trace_cols (F : flow T) (s : settings T) (t lo hi : Z) (m : mem T) : outcome (mem T) :=
  runs (advection_point_MPI F (s_rk3 s) t (s_dt s) (s_Tp s) (s_ny s) lo hi) m.
Definition find_cols (s : settings T) (lo hi : Z) (m : mem T) : outcome (mem T) :=
  runs (find_advection_point_location_MPI (s_nx s) (s_ny s) (s_xlim1 s) (s_xlim2 s) (s_ylim1 s) (s_ylim2 s) lo hi) m.

(** GALS_Advection_MPI.cpp:114-222, rank 0, time step t: four computations and five receives *)
Definition root_start (F : flow T) (s : settings T) (t : Z) (m : mem T) : outcome (mem T) := trace_cols F s t 0 (s_nx s / 2) (fresh s m).
Definition root_middle (s : settings T) (m : mem T) : outcome (mem T) :=
  let nnx := s_nx s / 2 in
  m <- runs (map (unpack_adv nnx) (nodes (s_ny s) nnx (s_nx s))) m ;;
  find_cols s 0 nnx (fresh_cells s m).
Definition root_end (F : flow T) (s : settings T) (t : Z) (m : mem T) : outcome (mem T) :=
  let nx := s_nx s in let ny := s_ny s in let nnx := nx / 2 in
  m <- runs (map (unpack_cells nnx) (nodes ny nnx nx)) m ;;
  m <- runs (update_levelset_data F (s_psischeme s) (s_rk3 s) t (s_dt s) (s_Tp s) ny 0 nx) m ;;
  m <- runs (update_mixed_derivatives nx ny (s_dx s) (s_dy s) 0 nx) (mixed_vars m) ;;
  Ok (feed_back m).
(** :204-205 *)
Definition root_print (s : settings T) (every t : Z) (p : proc) : outcome proc :=
  if every =? 0 then UB DivByZero else
  Ok (fst p, if u32 (t + 1) mod every =? 0 then snd p ++ [(time_at (t + 1) (s_dt s), fst p)] else snd p).
Definition root_step (F : flow T) (s : settings T) (every t : Z) : list (reader proc message) :=
  let get a := Recv (fun x (p : proc) => (mpi_recv (s_ny s) a x (fst p), snd p)) in
  [ RDo (on_mem (root_start F s t)); get BA1; get BB1; RDo (on_mem (root_middle s)); get BA3; get BB3; get BC3;
    RDo (on_mem (root_end F s t)); RDo (root_print s every t) ].

(** GALS_Advection_MPI.cpp:114-135, :222-262, rank 1, time step t *)
Definition helper_start (F : flow T) (s : settings T) (t : Z) (m : mem T) : outcome (mem T) :=
  let nnx := s_nx s / 2 in
  m <- trace_cols F s t nnx (s_nx s) (fresh s m) ;;
  runs (map (pack_adv nnx) (nodes (s_ny s) nnx (s_nx s))) m.
Definition helper_middle (s : settings T) (m : mem T) : outcome (mem T) :=
  let nnx := s_nx s / 2 in
  m <- find_cols s nnx (s_nx s) (fresh_cells s m) ;;
  runs (map (pack_cells nnx) (nodes (s_ny s) nnx (s_nx s))) m.
Definition helper_step (size : Z) (F : flow T) (s : settings T) (t : Z) : list (writer proc message) :=
  let put a := Send (fun p : proc => mpi_send size (s_nx s / 2) (s_ny s) a (fst p)) in
  [ WDo (on_mem (helper_start F s t)); put BA1; put BB1; WDo (on_mem (helper_middle s)); put BA3; put BB3; put BC3 ].

(** the first n time steps *)
Fixpoint upto {A} (f : Z -> list A) (t : Z) (n : nat) : list A :=
  match n with O => [] | S n' => f t ++ upto f (t + 1) n' end.
(** GALS_Advection_MPI.cpp:46-264 after the set-up: two processes with the same start.  Other
    numbers of processes are in ModelRefMpiN, the shared output files in ModelRefMpiFiles. *)
Definition mpi_start {TG : Trig T} (size : Z) (F : flow T) (s : settings T) : outcome (conf proc message) :=
  n <- step_count s ;;
  m <- setup s ;;
  let p := (m, [(nofZ 0, m)]) in
  Ok (mkConf (upto (root_step F s (print_every s n)) 0 (Z.to_nat n)) p (upto (helper_step size F s) 0 (Z.to_nat n)) p []).
(** the executions of the program; MPI_FLOAT has 4 bytes *)
Definition mpi_runs {TG : Trig T} (size : Z) (cap : nat) (F : flow T) (s : settings T) (r : ending proc message) : Prop :=
  exists c, mpi_start size F s = Ok c /\ executes cap c r.
Definition MPI_FLOAT : Z := 1.
Definition MPI_DOUBLE : Z := 2.
End Mpi.
