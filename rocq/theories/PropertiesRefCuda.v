(** C53, C57, C58, C60, C87-C89: the CUDA program. *)
From Coq Require Import ZArith List Reals String.
From Verif Require Import Base Num NumB64 ModelVec ModelRefMath ModelRefMem ModelRef ModelRefCuda SpecRef SpecRefPar SpecRefRun SpecRefCuda
  ProofsRefKernel ProofsRefCudaRun ProofsRefRunCases ProofsRefCudaMain ProofsRefCudaReal ProofsRefCudaCases ProofsRefCudaEx.
Open Scope list_scope. Open Scope Z_scope.

(** C52: in binary64 the last node of 50 between -1 and 1 is not 1; for the double below 1, which is
    strictly inside the box, the serial search returns cell 49, which does not exist. *)
Theorem C52_rounding_refuted : let s := round_case in let v := before_one in s_nx s = 50 /\
  (s_xlim1 s <? v)%num = true /\ (v <? s_xlim2 s)%num = true /\ (node_x s 49 <? v)%num = true /\ locate (map (node_x s) (range 0 50)) v = 49.
Proof. exact (conj eq_refl rounding_gap). Qed.
Print Assumptions C52_rounding_refuted.

(** C53: strictly between the limits the two searches agree and only the nodes are read (reading
    another element, or one that is not there, would make the run differ for some m). *)
Theorem C53_same_cell_partial : forall a n (x : Z -> R) x1 x2 v k m, 2 <= n < 4294967296 -> sorted_nodes n x x1 x2 -> inside x1 x2 v ->
  (forall i, 0 <= i < n -> m (a, i, 0) = Some (D (x i))) -> run (locationAlgo a v n k) m = run (k (locate (map x (range 0 n)) v)) m.
Proof. exact location_inside. Qed.
Print Assumptions C53_same_cell_partial.
(** The search kernel, for every interleaving of its threads. *)
Theorem C53_search_kernel_partial : forall nx ny tile (x y : Z -> R) x1 x2 y1 y2 xa ya m r, 2 <= nx -> 2 <= ny -> indexable nx ny -> tiles tile nx ny ->
  sorted_nodes nx x x1 x2 -> sorted_nodes ny y y1 y2 -> nodes_at nx ny x y m ->
  holds Xadv ny nx xa (rows_of nx m) -> holds Yadv ny nx ya (rows_of nx m) ->
  present Tracker ny nx (rows_of nx m) -> present Cellx ny nx (rows_of nx m) -> present Celly ny nx (rows_of nx m) ->
  interleaved (map (find_kernel nx ny x1 x2 y1 y2) (launch tile nx ny)) m r ->
  exists m', r = Ok m' /\ only_changes [Tracker; Cellx; Celly] m m' /\
    forall i j, 0 <= i < ny -> 0 <= j < nx -> exists tr, rows_of nx m' (Tracker, i, j) = Some (U tr) /\ tracks x1 x2 y1 y2 (xa i j) (ya i j) tr /\
      (tr <> 4 -> exists cx cy, rows_of nx m' (Cellx, i, j) = Some (U cx) /\ rows_of nx m' (Celly, i, j) = Some (U cy) /\
         cell_around nx x x1 x2 (xa i j) cx /\ cell_around ny y y1 y2 (ya i j) cy /\
         (inside x1 x2 (xa i j) -> cx = locate (map x (range 0 nx)) (xa i j)) /\ (inside y1 y2 (ya i j) -> cy = locate (map y (range 0 ny)) (ya i j))) /\
      (tr = 4 -> rows_of nx m' (Cellx, i, j) = rows_of nx m (Cellx, i, j) /\ rows_of nx m' (Celly, i, j) = rows_of nx m (Celly, i, j)).
Proof. exact search_kernel. Qed.
Print Assumptions C53_search_kernel_partial.
Example C53_case : exists m, nodes_at 5 4 (node_x case_s) (node_y case_s) m /\
  holds Xadv 4 5 (fun _ j => IZR j - 1)%R (rows_of 5 m) /\ holds Yadv 4 5 (fun i _ => IZR i - 1)%R (rows_of 5 m) /\
  present Tracker 4 5 (rows_of 5 m) /\ present Cellx 4 5 (rows_of 5 m) /\ present Celly 4 5 (rows_of 5 m) /\
  sorted_nodes 5 (node_x case_s) 0 1 /\ sorted_nodes 4 (node_y case_s) 0 1 /\ tiles 1 5 4 /\ indexable 5 4.
Proof. exact flat_search. Qed.
(** Past the last node the CUDA search reads the element after the array. *)
Theorem C53_past_last_node_refuted : forall T (NT : Num T) a (v : T) n (x : Z -> T) k (m : mem T), 0 <= n ->
  (forall i, 0 <= i < n -> (x i <? v)%num = true) -> (forall i, 0 <= i < n -> m (a, i, 0) = Some (D (x i))) -> m (a, n, 0) = None ->
  run (locationAlgo a v n k) m = UB OutOfBounds.
Proof. exact @run_location_past. Qed.
Print Assumptions C53_past_last_node_refuted.
(** At or before the first node it returns 0, the serial search 2^32 - 1. *)
Theorem C53_first_node_refuted : forall T (NT : Num T) a (v : T) n (x : Z -> T) k (m : mem T), 0 < n -> (x 0 <? v)%num = false ->
  m (a, 0, 0) = Some (D (x 0)) -> run (locationAlgo a v n k) m = run (k 0) m /\ locate (map x (range 0 n)) v = 4294967295.
Proof. exact @location_first. Qed.
Print Assumptions C53_first_node_refuted.
(** In binary64 that happens for a position strictly inside the box (the one of C52). *)
Theorem C53_rounding_refuted : forall m k, nodes_at 50 50 (node_x round_case) (node_y round_case) m -> m (AX1, 50, 0) = None ->
  run (locationAlgo AX1 before_one 50 k) m = UB OutOfBounds.
Proof. exact rounding_past. Qed.
Print Assumptions C53_rounding_refuted.
Example C53_rounding_case : exists m, nodes_at 50 50 (node_x round_case) (node_y round_case) m /\ m (AX1, 50, 0) = None.
Proof. exact round_mem. Qed.

(** C57, the CUDA kernel, for every interleaving: exact but for node (ny-1,0), where the difference of
    psix along the top row is added. *)
Theorem C57_cuda_all_but_one_corner_partial : forall nx ny tile x0 y0 dx dy a b c (p q : R -> R) m r, 2 <= nx -> 2 <= ny -> indexable nx ny -> tiles tile nx ny ->
  dx <> 0%R -> dy <> 0%R ->
  let X := even_nodes x0 dx in let Y := even_nodes y0 dy in
  let px k l := (p (X l) + a * Y k + 2 * b * X l * Y k + c * Y k ^ 2)%R in
  let py k l := (q (Y k) + a * X l + b * X l ^ 2 + 2 * c * X l * Y k)%R in
  holds Psix ny nx px (rows_of nx m) -> holds Psiy ny nx py (rows_of nx m) -> present Psixy ny nx (rows_of nx m) ->
  interleaved (map (mixed_kernel nx ny dx dy) (launch tile nx ny)) m r ->
  exists m', r = Ok m' /\ only_changes [Psixy] m m' /\
    forall k l, 0 <= k < ny -> 0 <= l < nx ->
      rows_of nx m' (Psixy, k, l) = Some (D (a + 2 * b * X l + 2 * c * Y k +
        (if ((k =? ny - 1) && (l =? 0))%bool then (px (ny - 1)%Z 1%Z - px (ny - 1)%Z 0%Z) / (4 * dy) else 0)))%R.
Proof. exact mixed_kernel_data. Qed.
Print Assumptions C57_cuda_all_but_one_corner_partial.
Example C57_cuda_case : exists m, let X := even_nodes 0%R (1 / 4)%R in let Y := even_nodes 0%R (1 / 3)%R in
  holds Psix 4 5 (fun k l => exp (X l) + 1 * Y k + 2 * 2 * X l * Y k + 3 * Y k ^ 2)%R (rows_of 5 m) /\
  holds Psiy 4 5 (fun k l => cos (Y k) + 1 * X l + 2 * X l ^ 2 + 2 * 3 * X l * Y k)%R (rows_of 5 m) /\ present Psixy 4 5 (rows_of 5 m).
Proof. exact flat_mixed. Qed.
(** For phi = x^2, whose mixed derivative is 0, the kernel stores dx / (2 dy) there. *)
Theorem C57_cuda_corner_refuted : forall nx ny tile x0 dx dy m r, 2 <= nx -> 2 <= ny -> indexable nx ny -> tiles tile nx ny -> dx <> 0%R -> dy <> 0%R ->
  let X := even_nodes x0 dx in
  holds Psix ny nx (fun _ l => 2 * X l)%R (rows_of nx m) -> holds Psiy ny nx (fun _ _ => 0%R) (rows_of nx m) -> present Psixy ny nx (rows_of nx m) ->
  interleaved (map (mixed_kernel nx ny dx dy) (launch tile nx ny)) m r ->
  exists m', r = Ok m' /\ rows_of nx m' (Psixy, ny - 1, 0) = Some (D (dx / (2 * dy)))%R.
Proof. exact mixed_kernel_wrong. Qed.
Print Assumptions C57_cuda_corner_refuted.
Example C57_corner_case : exists m, holds Psix 4 5 (fun _ l => 2 * even_nodes 0%R (1 / 4)%R l)%R (rows_of 5 m) /\
  holds Psiy 4 5 (fun _ _ => 0%R) (rows_of 5 m) /\ present Psixy 4 5 (rows_of 5 m).
Proof. exact flat_wrong. Qed.

(** C58, CUDA: for each of the five kernels of a time step every interleaving of the threads ends like
    the threads run one after the other, and no data race is possible. *)
Theorem C58_kernels : forall T (NT : Num T) (F : flow T) s tile t k (m m' : mem T), 1 <= tile <= 32 -> indexable (s_nx s) (s_ny s) ->
  In k (step_kernels F s tile t) -> runs k m = Ok m' ->
  (forall r, interleaved k m r -> same_result r (Ok m')) /\ ~ data_race k m.
Proof. exact @step_kernels_serial. Qed.
Print Assumptions C58_kernels.
Example C58_kernels_case : forall F : flow R, exists k m m', In k (step_kernels F case_s 1 0) /\ runs k m = Ok m' /\ indexable (s_nx case_s) (s_ny case_s).
Proof. exact kernel_case. Qed.

(** C60: when the tile size divides nx and ny and a block has at most 1024 threads, every node is
    handled exactly once and nothing else. *)
Theorem C60_every_node_once_partial : forall tile nx ny, tiles tile nx ny -> 0 <= nx < 4294967296 -> 0 <= ny < 4294967296 ->
  NoDup (launch tile nx ny) /\ forall i j, In (i, j) (launch tile nx ny) <-> 0 <= i < ny /\ 0 <= j < nx.
Proof. exact launch_once. Qed.
Print Assumptions C60_every_node_once_partial.
(** For all tile sizes: no node twice, none outside the arrays. *)
Theorem C60_never_outside : forall tile nx ny, 1 <= tile <= 32 -> indexable nx ny ->
  NoDup (launch tile nx ny) /\ forall i j, In (i, j) (launch tile nx ny) -> 0 <= i < ny /\ 0 <= j < nx.
Proof. exact launch_safe. Qed.
Print Assumptions C60_never_outside.
Example C60_case : tiles 2 (s_nx cuda_case) (s_ny cuda_case) /\ indexable (s_nx cuda_case) (s_ny cuda_case).
Proof. exact (conj (proj1 (proj2 (proj2 (proj2 cuda_case_ok)))) (proj1 (proj2 (proj2 cuda_case_ok)))). Qed.
(** Otherwise nodes are left out: at the end of a row or column, or all of them. *)
Theorem C60_nodes_left_out_refuted : forall tile nx ny, 1 <= tile <= 32 -> 0 < nx < 4294967296 -> 0 < ny < 4294967296 -> ~ (tile | nx) \/ ~ (tile | ny) ->
  exists i j, 0 <= i < ny /\ 0 <= j < nx /\ ~ In (i, j) (launch tile nx ny).
Proof. exact launch_misses. Qed.
Print Assumptions C60_nodes_left_out_refuted.
Theorem C60_nothing_runs_refuted : forall tile nx ny, 1 <= tile -> 0 <= nx -> 0 <= ny -> 32 < tile \/ nx < tile \/ ny < tile -> launch tile nx ny = [].
Proof. exact launch_none. Qed.
Print Assumptions C60_nothing_runs_refuted.
(** A tile size that does not divide nx or ny leaves memory unwritten that the first time step reads:
    every execution is undefined. *)
Theorem C60_uneven_tiles_undefined_refuted : forall torn (F : flow R) s tile n r, proper s -> indexable (s_nx s) (s_ny s) -> 1 <= tile <= 32 ->
  tile <= s_nx s -> tile <= s_ny s -> ~ (tile | s_nx s) \/ ~ (tile | s_ny s) -> 1 <= n < 4294967296 ->
  (IZR n <= s_Tfinal s / s_dt s < IZR n + 1)%R -> cuda_main torn F s tile r -> exists e, r = UB e.
Proof. exact main_uneven. Qed.
Print Assumptions C60_uneven_tiles_undefined_refuted.
Example C60_uneven_case : launch 16 50 50 <> [] /\ ~ (16 | 50).
Proof. exact one_more_tile. Qed.

(** C87: a time step in which no node is traced past a corner of the box is defined and leaves the
    data of the OpenMP program's step (but for psixy at one corner), whatever the interleavings. *)
Theorem C87_step_partial : forall (F : flow R) s tile t f m r, proper s -> indexable (s_nx s) (s_ny s) -> tiles tile (s_nx s) (s_ny s) ->
  (forall i j, 0 <= i < s_ny s -> 0 <= j < s_nx s -> ~ past_corner F s t i j) ->
  nodes_at (s_nx s) (s_ny s) (node_x s) (node_y s) m -> device_holds (s_nx s) (s_ny s) f m -> cuda_step F s tile t m r ->
  exists m', r = Ok m' /\ nodes_at (s_nx s) (s_ny s) (node_x s) (node_y s) m' /\
    device_holds (s_nx s) (s_ny s) (next_cuda F s (node_x s) (node_y s) t f) m'.
Proof. exact step_cuda_R. Qed.
Print Assumptions C87_step_partial.
(** The whole program, for every execution; there is one. *)
Theorem C87_program_partial : forall torn (F : flow R) s tile, proper s -> indexable (s_nx s) (s_ny s) -> tiles tile (s_nx s) (s_ny s) ->
  forall n r, 0 <= n < 4294967296 -> (IZR n <= s_Tfinal s / s_dt s < IZR n + 1)%R -> 0 < print_every s n \/ n = 0 ->
  (forall k i j, 0 <= k < n -> 0 <= i < s_ny s -> 0 <= j < s_nx s -> ~ past_corner F s k i j) -> cuda_main torn F s tile r ->
  let x := node_x s in let y := node_y s in
  exists dev out, r = Ok (dev, out) /\ device_holds (s_nx s) (s_ny s) (after_cuda F s x y (Z.to_nat n) (initial x y)) dev /\
    Z.of_nat (length out) = 1 + n / print_every s n /\
    forall b tm mm, nth_error out b = Some (tm, mm) -> let q := Z.of_nat b * print_every s n in
      tm = (IZR q * s_dt s)%R /\ printed_cuda (s_nx s) (s_ny s) (after_cuda F s x y (Z.to_nat q) (initial x y)) (initial x y) mm.
Proof. exact main_cuda. Qed.
Print Assumptions C87_program_partial.
Theorem C87_some_execution : forall torn (F : flow R) s tile n, indexable (s_nx s) (s_ny s) -> 0 <= n < 4294967296 ->
  (IZR n <= s_Tfinal s / s_dt s < IZR n + 1)%R -> exists r, cuda_main torn F s tile r.
Proof. exact main_exists. Qed.
Print Assumptions C87_some_execution.
Example C87_case : proper cuda_case /\ indexable (s_nx cuda_case) (s_ny cuda_case) /\ tiles 2 (s_nx cuda_case) (s_ny cuda_case) /\
  (IZR 1 <= s_Tfinal cuda_case / s_dt cuda_case < IZR 1 + 1)%R /\ print_every cuda_case 1 = 1 /\
  (forall i j, ~ past_corner shrink_flow cuda_case 0 i j) /\
  forall f, exists m, nodes_at (s_nx cuda_case) (s_ny cuda_case) (node_x cuda_case) (node_y cuda_case) m /\ device_holds (s_nx cuda_case) (s_ny cuda_case) f m.
Proof.
  exact (conj (proj1 cuda_case_ok) (conj (proj1 (proj2 (proj2 cuda_case_ok))) (conj (proj1 (proj2 (proj2 (proj2 cuda_case_ok))))
   (conj (proj1 (proj2 (proj2 (proj2 (proj2 cuda_case_ok))))) (conj (proj2 (proj2 (proj2 (proj2 (proj2 cuda_case_ok)))))
   (conj shrink_inside (fun f => flat_device cuda_case f))))))).
Qed.

(** C88: a node traced past a corner makes the time step read a cell index that was never written;
    at the nodes of the corners this happens in the shipped set-up (vortex in the unit square) and in
    every constant velocity, so each execution of the program is undefined. *)
Theorem C88_past_corner_refuted : forall (F : flow R) s tile t f m r i j, proper s -> indexable (s_nx s) (s_ny s) -> tiles tile (s_nx s) (s_ny s) ->
  0 <= i < s_ny s -> 0 <= j < s_nx s -> past_corner F s t i j ->
  nodes_at (s_nx s) (s_ny s) (node_x s) (node_y s) m -> device_holds (s_nx s) (s_ny s) f m -> cuda_step F s tile t m r -> r = UB Uninitialised.
Proof. exact step_cuda_bad. Qed.
Print Assumptions C88_past_corner_refuted.
Theorem C88_vortex_refuted : forall torn s tile n r, proper s -> indexable (s_nx s) (s_ny s) -> tiles tile (s_nx s) (s_ny s) -> unit_square s ->
  1 <= n < 4294967296 -> (IZR n <= s_Tfinal s / s_dt s < IZR n + 1)%R -> cuda_main torn vortex s tile r -> r = UB Uninitialised.
Proof. exact main_vortex. Qed.
Print Assumptions C88_vortex_refuted.
Theorem C88_constant_velocity_refuted : forall torn (F : flow R) s tile n u v r, proper s -> indexable (s_nx s) (s_ny s) -> tiles tile (s_nx s) (s_ny s) ->
  velocity_is F (s_Tp s) (fun _ _ _ => u) (fun _ _ _ => v) -> (0 <= s_dt s)%R ->
  1 <= n < 4294967296 -> (IZR n <= s_Tfinal s / s_dt s < IZR n + 1)%R -> cuda_main torn F s tile r -> r = UB Uninitialised.
Proof. exact main_constant. Qed.
Print Assumptions C88_constant_velocity_refuted.
Example C88_case : proper cuda_case /\ unit_square cuda_case /\ indexable (s_nx cuda_case) (s_ny cuda_case) /\ tiles 2 (s_nx cuda_case) (s_ny cuda_case).
Proof. exact (conj (proj1 cuda_case_ok) (conj (proj1 (proj2 cuda_case_ok)) (conj (proj1 (proj2 (proj2 cuda_case_ok))) (proj1 (proj2 (proj2 (proj2 cuda_case_ok))))))). Qed.

(** C89: on 4x4 nodes with a defined execution the second printed block holds psixy and part of psiy
    from the start, while the device has 0 there. *)
Theorem C89_stale_psi_printed_refuted : forall torn r, cuda_main torn shrink_flow cuda_case 2 r -> exists dev out host, r = Ok (dev, out) /\
  nth_error out 1 = Some (1%R, host) /\
  dev (Psixy, 0, 0) = Some (D 0%R) /\ (exists v, host (MPsixy, 0, 0) = Some (D v) /\ v <> 0%R) /\
  dev (Psiy, 15, 0) = Some (D 0%R) /\ (exists v, host (MPsiy, 15, 0) = Some (D v) /\ v <> 0%R).
Proof. exact shrink_main. Qed.
Print Assumptions C89_stale_psi_printed_refuted.
