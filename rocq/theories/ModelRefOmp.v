(** Model of the programs with threads: src/reference/GALS_Advection_OpenMP.cpp and
    src/reference/GALS_Advection_MPI_OpenMP.cpp (with the loops of AdvectionPointCalcs.h).

    The parameter k is the number of threads asked for (omp_set_num_threads); a second one, kmix, is
    the number of threads for the mixed-derivative loop.  The programs as they are have kmix = k. *)
From Coq Require Import ZArith List String Ascii Permutation.
From Verif Require Import Base Num NumB64 ModelVec ModelRefMath ModelRefMem ModelRef ModelRefMpi SpecRefPar.
Open Scope Z_scope.

(** *** execution model (no code of /repo) *)
Section Omp.
Context {T : Type} {NT : Num T}.
(** what a piece of the program can do to the memory: the possible outcomes *)
Definition phase : Type := mem T -> outcome (mem T) -> Prop.
(** a team of threads runs the iterations it was given; a data race makes the program undefined *)
Inductive omp_for {I} (body : I -> prog T) (teams : list (list I)) : phase :=
| for_runs m r : interleaved (threads body teams) m r -> omp_for body teams m r
| for_races m : data_race (threads body teams) m -> omp_for body teams m (UB DataRace).
(** schedule(static): contiguous chunks that differ by at most one iteration, one for each thread.
    The runtime may provide fewer threads than asked for. *)
Definition static_teams (k : Z) {I} (its : list I) (teams : list (list I)) : Prop :=
  concat teams = its /\ 1 <= Z.of_nat (length teams) <= k /\
  forall a b, In a teams -> In b teams -> (length a <= length b + 1)%nat.
Definition static_for (k : Z) {I} (body : I -> prog T) (its : list I) : phase :=
  fun m r => exists teams, static_teams k its teams /\ omp_for body teams m r.
(** omp for without schedule over the rows i: any distribution of whole rows *)
Definition row (lo hi i : Z) : list (Z * Z) := map (fun j => (i, j)) (range lo hi).
Definition rows_for (k : Z) (body : Z * Z -> prog T) (rows lo hi : Z) : phase :=
  fun m r => exists teams, Permutation (concat teams) (range 0 rows) /\ 1 <= Z.of_nat (length teams) <= k /\
    omp_for body (map (flat_map (row lo hi)) teams) m r.
(** the outcome of one piece, then the next one *)
Definition andr {A B} (o : outcome A) (next : A -> outcome B -> Prop) (r : outcome B) : Prop :=
  match o with Ok a => next a r | UB e => r = UB e | Exit n => r = Exit n | Throw => r = Throw end.
Definition seqr (p q : phase) : phase := fun m r => exists o, p m o /\ andr o q r.

(** *** the OpenMP program *)
(** GALS_Advection_OpenMP.cpp:128-155 with the loops of AdvectionPointCalcs.h:21-24, :170-173,
    :314-317, :382-385 *)
Definition omp_step (k kmix : Z) (F : flow T) (s : settings T) (t : Z) : phase := fun m r =>
  let nx := s_nx s in let ny := s_ny s in let all := nodes ny 0 nx in
  seqr (static_for k (adv_body F (s_rk3 s) t (s_dt s) (s_Tp s)) all)
 (seqr (fun m => static_for k (find_body nx ny (s_xlim1 s) (s_xlim2 s) (s_ylim1 s) (s_ylim2 s)) all
                   (alloc Celly ny nx (U 0) (alloc Cellx ny nx (U 0) m)))
 (seqr (static_for k (update_body F (s_psischeme s) (s_rk3 s) t (s_dt s) (s_Tp s)) all)
 (seqr (fun m => static_for kmix (mixed_body nx ny (s_dx s) (s_dy s)) all (mixed_vars m))
       (fun m r => r = Ok (feed_back m)))))
   (alloc Yadv ny nx (D (nofZ 0)) (alloc Xadv ny nx (D (nofZ 0)) (alloc Tracker ny nx (U 0) m))) r.
(** GALS_Advection_OpenMP.cpp:126-172 *)
Fixpoint omp_steps (k kmix : Z) (F : flow T) (s : settings T) (every t : Z) (left_ : nat) (m : mem T) (out : list (T * mem T))
  (r : outcome (mem T * list (T * mem T))) : Prop :=
  match left_ with
  | O => r = Ok (m, out)
  | S left' => exists o, omp_step k kmix F s t m o /\ andr o (fun m r =>
      if (every =? 0)%Z then r = UB DivByZero else
      omp_steps k kmix F s every (t + 1) left' m (if (u32 (t + 1) mod every =? 0)%Z then out ++ [(time_at (t + 1) (s_dt s), m)] else out) r) r
  end.
(** GALS_Advection_OpenMP.cpp:52-180 after the reading of argv *)
Definition omp_main {TG : Trig T} (k kmix : Z) (F : flow T) (s : settings T) (r : outcome (mem T * list (T * mem T))) : Prop :=
  andr (step_count s) (fun n => andr (setup s) (fun m => omp_steps k kmix F s (print_every s n) 0 (Z.to_nat n) m [(nofZ 0, m)])) r.

(** *** the MPI+OpenMP program *)
(** GALS_Advection_MPI_OpenMP.cpp:127-143, :150 rank 0; compare root_start of ModelRefMpi *)
Definition hyb_root_start (k : Z) (F : flow T) (s : settings T) (t : Z) : phase := fun m =>
  static_for k (adv_body F (s_rk3 s) t (s_dt s) (s_Tp s)) (nodes (s_ny s) 0 (s_nx s / 2)) (fresh s m).
(** :157-175 *)
Definition hyb_root_middle (k : Z) (s : settings T) : phase :=
  let nx := s_nx s in let ny := s_ny s in let nnx := nx / 2 in
  seqr (rows_for k (unpack_adv nnx) ny nnx nx)
       (fun m => static_for k (find_body nx ny (s_xlim1 s) (s_xlim2 s) (s_ylim1 s) (s_ylim2 s)) (nodes ny 0 nnx) (fresh_cells s m)).
(** :183-217 *)
Definition hyb_root_end (k kmix : Z) (F : flow T) (s : settings T) (t : Z) : phase :=
  let nx := s_nx s in let ny := s_ny s in let nnx := nx / 2 in
  seqr (rows_for k (unpack_cells nnx) ny nnx nx)
 (seqr (static_for k (update_body F (s_psischeme s) (s_rk3 s) t (s_dt s) (s_Tp s)) (nodes ny 0 nx))
 (seqr (fun m => static_for kmix (mixed_body nx ny (s_dx s) (s_dy s)) (nodes ny 0 nx) (mixed_vars m))
       (fun m r => r = Ok (feed_back m)))).
(** :127-143, :240-252 rank 1 *)
Definition hyb_helper_start (k : Z) (F : flow T) (s : settings T) (t : Z) : phase := fun m =>
  let nx := s_nx s in let ny := s_ny s in let nnx := nx / 2 in
  seqr (static_for k (adv_body F (s_rk3 s) t (s_dt s) (s_Tp s)) (nodes ny nnx nx)) (rows_for k (pack_adv nnx) ny nnx nx) (fresh s m).
(** :262-279 rank 1 *)
Definition hyb_helper_middle (k : Z) (s : settings T) : phase := fun m =>
  let nx := s_nx s in let ny := s_ny s in let nnx := nx / 2 in
  seqr (static_for k (find_body nx ny (s_xlim1 s) (s_xlim2 s) (s_ylim1 s) (s_ylim2 s)) (nodes ny nnx nx)) (rows_for k (pack_cells nnx) ny nnx nx) (fresh_cells s m).
End Omp.

(** *** two processes whose computations have several possible outcomes (no code of /repo): as in
    ModelRefMpi, with a relation for each computation *)
Section Pair.
Context {S M : Type}.
Inductive preader := PRDo (f : S -> outcome S -> Prop) | PRecv (f : M -> S -> S).
Inductive pwriter := PWDo (f : S -> outcome S -> Prop) | PSend (f : S -> M).
Record pconf := mkPConf { p_r : list preader; p_rs : S; p_w : list pwriter; p_ws : S; p_q : list M }.
Inductive pmove (cap : nat) : pconf -> pconf -> Prop :=
| pm_rdo (f : S -> outcome S -> Prop) p s s' w ws q : f s (Ok s') -> pmove cap (mkPConf (PRDo f :: p) s w ws q) (mkPConf p s' w ws q)
| pm_wdo (f : S -> outcome S -> Prop) p s s' r rs q : f s (Ok s') -> pmove cap (mkPConf r rs (PWDo f :: p) s q) (mkPConf r rs p s' q)
| pm_send f r rs p s q : (length q < cap)%nat -> pmove cap (mkPConf r rs (PSend f :: p) s q) (mkPConf r rs p s (q ++ [f s]))
| pm_recv f p s w ws x q : pmove cap (mkPConf (PRecv f :: p) s w ws (x :: q)) (mkPConf p (f x s) w ws q)
| pm_meet f g p s w ws : pmove cap (mkPConf (PRecv f :: p) s (PSend g :: w) ws []) (mkPConf p (f (g ws) s) w ws []).
Inductive pbreaks : pconf -> ub -> Prop :=
| pb_r (f : S -> outcome S -> Prop) p s w ws q e : f s (UB e) -> pbreaks (mkPConf (PRDo f :: p) s w ws q) e
| pb_w (f : S -> outcome S -> Prop) p s r rs q e : f s (UB e) -> pbreaks (mkPConf r rs (PWDo f :: p) s q) e.
Definition pover (c : pconf) : Prop := p_r c = [] /\ p_w c = [].
(** the states of the two processes at the end, the messages left over *)
Inductive pending := PFinished (root helper : S) (left_over : list M) | PUndefined (e : ub) | PDeadlock.
Inductive pexecutes (cap : nat) : pconf -> pending -> Prop :=
| px_over c : pover c -> pexecutes cap c (PFinished (p_rs c) (p_ws c) (p_q c))
| px_move c c' r : pmove cap c c' -> pexecutes cap c' r -> pexecutes cap c r
| px_ub c e : pbreaks c e -> pexecutes cap c (PUndefined e)
| px_stuck c : ~ pover c -> (forall c', ~ pmove cap c c') -> (forall e, ~ pbreaks c e) -> pexecutes cap c PDeadlock.
End Pair.
Arguments preader S M : clear implicits.
Arguments pwriter S M : clear implicits.
Arguments pconf S M : clear implicits.
Arguments pending S M : clear implicits.

Section Hybrid.
Context {T : Type} {NT : Num T}.
Definition on_memr (f : phase) (p : proc (T := T)) (r : outcome (proc (T := T))) : Prop :=
  exists o, f (fst p) o /\ r = (m <- o ;; Ok (m, snd p)).
(** GALS_Advection_MPI_OpenMP.cpp:145-231, rank 0, time step t *)
Definition hyb_root_step (k kmix : Z) (F : flow T) (s : settings T) (every t : Z) : list (preader proc message) :=
  let get a := PRecv (fun x (p : proc) => (mpi_recv (s_ny s) a x (fst p), snd p)) in
  [ PRDo (on_memr (hyb_root_start k F s t)); get BA1; get BB1; PRDo (on_memr (hyb_root_middle k s)); get BA3; get BB3; get BC3;
    PRDo (on_memr (hyb_root_end k kmix F s t)); PRDo (fun p r => r = root_print s every t p) ].
(** GALS_Advection_MPI_OpenMP.cpp:235-288, rank 1, time step t *)
Definition hyb_helper_step (k size : Z) (F : flow T) (s : settings T) (t : Z) : list (pwriter proc message) :=
  let put a := PSend (fun p : proc => mpi_send size (s_nx s / 2) (s_ny s) a (fst p)) in
  [ PWDo (on_memr (hyb_helper_start k F s t)); put BA1; put BB1; PWDo (on_memr (hyb_helper_middle k s)); put BA3; put BB3; put BC3 ].
(** GALS_Advection_MPI_OpenMP.cpp:46-297 after the reading of argv, two processes, k threads each.
    Not modelled: as for ModelRefMpi. *)
Definition hyb_runs {TG : Trig T} (k kmix size : Z) (cap : nat) (F : flow T) (s : settings T) (r : pending proc message) : Prop :=
  exists n m, step_count s = Ok n /\ setup s = Ok m /\
    pexecutes cap (mkPConf (upto (hyb_root_step k kmix F s (print_every s n)) 0 (Z.to_nat n)) (m, [(nofZ 0, m)])
                           (upto (hyb_helper_step k size F s) 0 (Z.to_nat n)) (m, [(nofZ 0, m)]) []) r.
End Hybrid.

(** *** the command line *)
(** strtol(a, _, 10) of the C library (no code of /repo): white space, a sign, digits; the value is
    cut to the range of long; 0 without digits. *)
Definition is_space (c : ascii) : bool := let n := nat_of_ascii c in (Nat.eqb n 32 || (Nat.leb 9 n && Nat.leb n 13))%bool.
Fixpoint skip_space (a : string) : string :=
  match a with String c a' => if is_space c then skip_space a' else a | EmptyString => a end.
Fixpoint digits (acc : Z) (a : string) : Z :=
  match a with
  | String c a' => let n := Z.of_nat (nat_of_ascii c) - 48 in if ((0 <=? n) && (n <=? 9))%bool then digits (10 * acc + n) a' else acc
  | EmptyString => acc
  end.
Definition strtol (a : string) : Z :=
  match skip_space a with
  | String c a' => if Ascii.eqb c "-" then Z.max (- 2 ^ 63) (- digits 0 a') else Z.min (2 ^ 63 - 1) (if Ascii.eqb c "+" then digits 0 a' else digits 0 (String c a'))
  | EmptyString => 0
  end.
(** conversion of a long to int: modulo 2^32 *)
Definition to_int (z : Z) : Z := (z + 2 ^ 31) mod 2 ^ 32 - 2 ^ 31.
(** omp_set_num_threads(N): a value that is not positive leaves the number of threads to the library *)
Definition num_threads (N k : Z) : Prop := if 1 <=? N then k = N else 1 <= k.

Section CommandLine.
Context {T : Type} {NT : Num T} {TG : Trig T}.
(** GALS_Advection_OpenMP.cpp:68-71: args are the arguments after the program name.  argv[1] is a null
    pointer when there is none; reading through it is reported as OutOfBounds. *)
Definition openmp_program (args : list string) (F : flow T) (s : settings T) (r : outcome (mem T * list (T * mem T))) : Prop :=
  match args with
  | [] => r = UB OutOfBounds
  | a :: _ => exists k, num_threads (to_int (strtol a)) k /\ omp_main k k F s r
  end.
(** GALS_Advection_MPI_OpenMP.cpp:48-52, :62-66: None: the usage line and nothing else *)
Definition hybrid_program (size : Z) (cap : nat) (args : list string) (F : flow T) (s : settings T) (r : option (pending (proc (T := T)) (message (T := T)))) : Prop :=
  match args with
  | [a] => exists k r', num_threads (to_int (strtol a)) k /\ hyb_runs k k size cap F s r' /\ r = Some r'
  | _ => r = None
  end.
End CommandLine.
