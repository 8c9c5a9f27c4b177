(** C52, C57-C59, C62, C63, C80-C86: the loops, the time step and the main of the reference code. *)
From Coq Require Import ZArith List Reals QArith String.
From Verif Require Import Base Num NumB64 ModelVec ModelRefMath ModelRefMem ModelRef SpecRef SpecRefPar SpecRefRun
  ProofsRefPar ProofsRefReal ProofsRefApi ProofsRefRace ProofsRefRunCases.
Open Scope list_scope. Open Scope Z_scope.

(** C52: the search fills in the tracker of every node, and for every position that is strictly
    between the limits of at least one axis a cell around the (clamped) position.  Missing: positions
    that are outside on both axes, for which no cell is stored (next theorem). *)
Theorem C52_cell_search_partial : forall nx ny (x y : Z -> R) x1 x2 y1 y2 xa ya m, 2 <= nx < 4294967296 -> 2 <= ny < 4294967296 ->
  sorted_nodes nx x x1 x2 -> sorted_nodes ny y y1 y2 -> nodes_at nx ny x y m -> holds Xadv ny nx xa m -> holds Yadv ny nx ya m ->
  present Tracker ny nx m -> present Cellx ny nx m -> present Celly ny nx m ->
  exists m', runs (find_advection_point_location_MPI nx ny x1 x2 y1 y2 0 nx) m = Ok m' /\
    only_changes [Tracker; Cellx; Celly] m m' /\
    forall i j, 0 <= i < ny -> 0 <= j < nx -> exists tr, m' (Tracker, i, j) = Some (U tr) /\ tracks x1 x2 y1 y2 (xa i j) (ya i j) tr /\
      (tr <> 4 -> exists cx cy, m' (Cellx, i, j) = Some (U cx) /\ m' (Celly, i, j) = Some (U cy) /\
         cell_around nx x x1 x2 (xa i j) cx /\ cell_around ny y y1 y2 (ya i j) cy) /\
      (tr = 4 -> m' (Cellx, i, j) = m (Cellx, i, j) /\ m' (Celly, i, j) = m (Celly, i, j)).
Proof. exact search_ok. Qed.
Print Assumptions C52_cell_search_partial.
Example C52_case : exists m, nodes_at 5 4 (node_x case_s) (node_y case_s) m /\ holds Xadv 4 5 (fun _ j => IZR j - 1)%R m /\ holds Yadv 4 5 (fun i _ => IZR i - 1)%R m /\
  present Tracker 4 5 m /\ holdsu Cellx 4 5 (fun _ _ => 0) m /\ holdsu Celly 4 5 (fun _ _ => 0) m /\
  sorted_nodes 5 (node_x case_s) 0 1 /\ sorted_nodes 4 (node_y case_s) 0 1 /\ (1 <= IZR 3 - 1)%R.
Proof. exact case_search. Qed.

(** The programs set the cells to (0,0) before the search; a position beyond the last corner keeps it. *)
Theorem C52_beyond_the_corner_refuted : forall nx ny (x y : Z -> R) x1 x2 y1 y2 xa ya m i j, 3 <= nx < 4294967296 -> 2 <= ny < 4294967296 ->
  sorted_nodes nx x x1 x2 -> sorted_nodes ny y y1 y2 -> nodes_at nx ny x y m -> holds Xadv ny nx xa m -> holds Yadv ny nx ya m ->
  present Tracker ny nx m -> holdsu Cellx ny nx (fun _ _ => 0) m -> holdsu Celly ny nx (fun _ _ => 0) m ->
  0 <= i < ny -> 0 <= j < nx -> (x2 <= xa i j)%R -> (y2 <= ya i j)%R ->
  exists m', runs (find_advection_point_location_MPI nx ny x1 x2 y1 y2 0 nx) m = Ok m' /\ m' (Cellx, i, j) = Some (U 0) /\
    ~ cell_around nx x x1 x2 (xa i j) 0.
Proof. exact search_corner. Qed.
Print Assumptions C52_beyond_the_corner_refuted.

(** C57: exact at every node, corners and edges included, when psix and psiy are the derivatives of
    P(x) + Q(y) + a x y + b x^2 y + c x y^2; nothing else changes but the function's own variables. *)
Theorem C57_mixed_derivatives : forall nx ny x0 y0 dx dy a b c (p q : R -> R) m, 2 <= nx < 4294967296 -> 2 <= ny < 4294967296 -> dx <> 0%R -> dy <> 0%R ->
  let X := even_nodes x0 dx in let Y := even_nodes y0 dy in
  holds Psix ny nx (fun k l => p (X l) + a * Y k + 2 * b * X l * Y k + c * Y k ^ 2)%R m ->
  holds Psiy ny nx (fun k l => q (Y k) + a * X l + b * X l ^ 2 + 2 * c * X l * Y k)%R m ->
  present Psixy ny nx m ->
  exists m', runs (update_mixed_derivatives nx ny dx dy 0 nx) (mixed_vars m) = Ok m' /\
    only_changes [Psixy; Dxy1; Dxy2; D1; D2; D3; D4] m m' /\
    holds Psixy ny nx (fun k l => a + 2 * b * X l + 2 * c * Y k)%R m'.
Proof. exact mixed_data. Qed.
Print Assumptions C57_mixed_derivatives.
Example C57_case : exists m, let X := even_nodes 0%R (1 / 4)%R in let Y := even_nodes 0%R (1 / 3)%R in
  holds Psix 4 5 (fun k l => exp (X l) + 1 * Y k + 2 * 2 * X l * Y k + 3 * Y k ^ 2)%R m /\
  holds Psiy 4 5 (fun k l => cos (Y k) + 1 * X l + 2 * X l ^ 2 + 2 * 3 * X l * Y k)%R m /\ present Psixy 4 5 m.
Proof. exact case_mixed. Qed.

(** C58: however the iterations are shared out among threads and however the accesses of the threads
    are interleaved, the three loops end with the memory of the serial loop, without a data race. *)
Theorem C58_back_tracing : forall T (NT : Num T) (F : flow T) rk3 t dt Tp ny lo hi teams m m' r,
  team_of (nodes ny lo hi) teams -> runs (advection_point_MPI F rk3 t dt Tp ny lo hi) m = Ok m' ->
  (interleaved (threads (adv_body F rk3 t dt Tp) teams) m r -> same_result r (Ok m')) /\
  ~ data_race (threads (adv_body F rk3 t dt Tp) teams) m.
Proof. exact @par_advection. Qed.
Print Assumptions C58_back_tracing.
Theorem C58_cell_search : forall T (NT : Num T) nx ny x1 x2 y1 y2 lo hi teams (m m' : mem T) r,
  team_of (nodes ny lo hi) teams -> runs (find_advection_point_location_MPI nx ny x1 x2 y1 y2 lo hi) m = Ok m' ->
  (interleaved (threads (find_body nx ny x1 x2 y1 y2) teams) m r -> same_result r (Ok m')) /\
  ~ data_race (threads (find_body nx ny x1 x2 y1 y2) teams) m.
Proof. exact @par_find. Qed.
Print Assumptions C58_cell_search.
Theorem C58_data_update : forall T (NT : Num T) (F : flow T) sch rk3 t dt Tp ny lo hi teams m m' r,
  team_of (nodes ny lo hi) teams -> runs (update_levelset_data F sch rk3 t dt Tp ny lo hi) m = Ok m' ->
  (interleaved (threads (update_body F sch rk3 t dt Tp) teams) m r -> same_result r (Ok m')) /\
  ~ data_race (threads (update_body F sch rk3 t dt Tp) teams) m.
Proof. exact @par_update. Qed.
Print Assumptions C58_data_update.
Example C58_case : team_of (nodes 4 0 5) case_teams /\ forall (F : flow R) rk3 t dt Tp, exists (m m1 m2 m3 : mem R),
  runs (advection_point_MPI F rk3 t dt Tp 4 0 5) m = Ok m1 /\
  runs (find_advection_point_location_MPI 5 4 0%R 1%R 0%R 1%R 0 5) m = Ok m2 /\
  runs (update_levelset_data F "Heuns"%string rk3 t dt Tp 4 0 5) m = Ok m3.
Proof. exact (conj case_team case_loops). Qed.

(** C59: the variables of the mixed-derivative loop are shared.  Under schedule(static), as soon as
    two threads have an iteration there is a data race; so there is under any distribution that gives
    two corners, or two nodes off the boundary, to different threads. *)
Theorem C59_static_schedule_races_refuted : forall T (NT : Num T) nx ny (dx dy : T) px py teams m,
  2 <= nx < 4294967296 -> 2 <= ny < 4294967296 ->
  holds Psix ny nx px m -> holds Psiy ny nx py m -> present Psixy ny nx m ->
  static_chunks (nodes ny 0 nx) teams -> two_busy teams ->
  data_race (threads (mixed_body nx ny dx dy) teams) (mixed_vars m).
Proof. exact @race_static. Qed.
Print Assumptions C59_static_schedule_races_refuted.
Example C59_case : static_chunks (nodes 4 0 5) [firstn 7 (nodes 4 0 5); skipn 7 (nodes 4 0 5)] /\ two_busy [firstn 7 (nodes 4 0 5); skipn 7 (nodes 4 0 5)].
Proof. exact case_static. Qed.
Theorem C59_any_schedule_races_refuted : forall T (NT : Num T) nx ny (dx dy : T) px py t1 ta t2 tb t3 u v m,
  2 <= nx < 4294967296 -> 2 <= ny < 4294967296 ->
  holds Psix ny nx px m -> holds Psiy ny nx py m -> present Psixy ny nx m ->
  team_of (nodes ny 0 nx) (t1 ++ ta :: t2 ++ tb :: t3) -> In u ta -> In v tb ->
  (corner nx ny u /\ corner nx ny v) \/ (off_boundary nx ny u /\ off_boundary nx ny v) ->
  data_race (threads (mixed_body nx ny dx dy) (t1 ++ ta :: t2 ++ tb :: t3)) (mixed_vars m).
Proof. exact @race_any. Qed.
Print Assumptions C59_any_schedule_races_refuted.
(** On 3x2 nodes with one row per thread an interleaving stores 0 where the serial loop stores 3/4. *)
Theorem C59_wrong_result_refuted : exists m1 m2 r1 r2,
  runs (update_mixed_derivatives 3 2 1%Q 1%Q 0 3) (mixed_vars race_mem) = Ok m1 /\
  interleaved (threads (mixed_body 3 2 1%Q 1%Q) race_teams) (mixed_vars race_mem) (Ok m2) /\
  m1 (Psixy, 0, 2) = Some (D r1) /\ (r1 == Qmake 3 4)%Q /\ m2 (Psixy, 0, 2) = Some (D r2) /\ (r2 == 0)%Q.
Proof. exact wrong_result. Qed.
Print Assumptions C59_wrong_result_refuted.

(** C62: the two functions agree off the last row and the last column; the serial one leaves those
    as they were, and nothing but xadv and yadv changes. *)
Theorem C62_same_positions_partial : forall (F : flow R) rk3 t dt Tp nx ny (x y : Z -> R) m, 1 <= nx < 4294967296 -> 1 <= ny < 4294967296 ->
  nodes_at nx ny x y m -> present Xadv ny nx m -> present Yadv ny nx m ->
  exists m1 m2, runs (advection_point F rk3 t dt Tp nx ny) m = Ok m1 /\ runs (advection_point_MPI F rk3 t dt Tp ny 0 nx) m = Ok m2 /\
    (forall i j, 0 <= i < ny -> 0 <= j < nx ->
      m2 (Xadv, i, j) = Some (D (fst (back_trace F rk3 (x j) (y i) t dt Tp))) /\ m2 (Yadv, i, j) = Some (D (snd (back_trace F rk3 (x j) (y i) t dt Tp))) /\
      (i < ny - 1 -> j < nx - 1 -> m1 (Xadv, i, j) = m2 (Xadv, i, j) /\ m1 (Yadv, i, j) = m2 (Yadv, i, j)) /\
      (i = ny - 1 \/ j = nx - 1 -> m1 (Xadv, i, j) = m (Xadv, i, j) /\ m1 (Yadv, i, j) = m (Yadv, i, j))) /\
    only_changes [Xadv; Yadv] m m1 /\ only_changes [Xadv; Yadv] m m2.
Proof. exact trace_both. Qed.
Print Assumptions C62_same_positions_partial.
(** In the shipped flow and box they differ at every node of the last column: 0 against 1. *)
Theorem C62_last_column_refuted : forall (s : settings R) t m i, proper s -> unit_square s -> nodes_at (s_nx s) (s_ny s) (node_x s) (node_y s) m ->
  holds Xadv (s_ny s) (s_nx s) (fun _ _ => 0%R) m -> holds Yadv (s_ny s) (s_nx s) (fun _ _ => 0%R) m -> 0 <= i < s_ny s ->
  exists m1 m2, runs (advection_point vortex (s_rk3 s) t (s_dt s) (s_Tp s) (s_nx s) (s_ny s)) m = Ok m1 /\
    runs (advection_point_MPI vortex (s_rk3 s) t (s_dt s) (s_Tp s) (s_ny s) 0 (s_nx s)) m = Ok m2 /\
    m1 (Xadv, i, s_nx s - 1) = Some (D 0%R) /\ m2 (Xadv, i, s_nx s - 1) = Some (D 1%R).
Proof. exact trace_vortex. Qed.
Print Assumptions C62_last_column_refuted.
Example C62_case : proper case_s /\ unit_square case_s /\ exists m, nodes_at 5 4 (node_x case_s) (node_y case_s) m /\
  holds Xadv 4 5 (fun _ _ => 0%R) m /\ holds Yadv 4 5 (fun _ _ => 0%R) m.
Proof. exact (conj (proj1 case_proper) (conj (proj1 (proj2 case_proper)) case_trace)). Qed.

(** C63: n = floor(Tfinal/dt) steps; the initial state and one block after every [every] steps, where
    [every] is printstep (option 1) or n; each block carries the time and the data of its step. *)
Theorem C63_steps_and_blocks : forall whole (F : flow R) (s : settings R) n,
  let nx := s_nx s in let ny := s_ny s in let x := node_x s in let y := node_y s in
  let every := if s_option s =? 1 then s_printstep s else n in
  3 <= nx < 4294967296 -> 3 <= ny < 4294967296 -> (s_xlim1 s < s_xlim2 s)%R -> (s_ylim1 s < s_ylim2 s)%R ->
  0 <= n < 4294967296 -> (IZR n <= s_Tfinal s / s_dt s < IZR n + 1)%R -> 0 < every \/ n = 0 ->
  exists m out, main_ whole F s = Ok (m, out) /\ contains nx ny (after whole F s x y (Z.to_nat n) (initial x y)) m /\
    Z.of_nat (length out) = 1 + n / every /\
    forall b tm mm, nth_error out b = Some (tm, mm) ->
      let q := Z.of_nat b * every in
      tm = (IZR q * s_dt s)%R /\ contains nx ny (after whole F s x y (Z.to_nat q) (initial x y)) mm.
Proof. exact main_blocks. Qed.
Print Assumptions C63_steps_and_blocks.
Example C63_case : proper case_s /\ (IZR 8 <= s_Tfinal case_s / s_dt case_s < IZR 8 + 1)%R /\ print_every case_s 8 = 2.
Proof. exact (conj (proj1 case_proper) case_main). Qed.
(** printstep 0 is a division by zero in the first step *)
Theorem C63_printstep_zero : forall whole (F : flow R) (s : settings R) n,
  3 <= s_nx s < 4294967296 -> 3 <= s_ny s < 4294967296 -> (s_xlim1 s < s_xlim2 s)%R -> (s_ylim1 s < s_ylim2 s)%R ->
  1 <= n < 4294967296 -> (IZR n <= s_Tfinal s / s_dt s < IZR n + 1)%R -> s_option s = 1 -> s_printstep s = 0 ->
  main_ whole F s = UB DivByZero.
Proof. exact main_div_zero. Qed.
Print Assumptions C63_printstep_zero.

(** C80: the step is defined; a node traced to a position strictly inside the box gets the Hermite
    value of a cell around that position, and psi from the Hermite gradient there. *)
Theorem C80_step_inside : forall whole (F : flow R) s t f m, proper s ->
  nodes_at (s_nx s) (s_ny s) (node_x s) (node_y s) m -> contains (s_nx s) (s_ny s) f m ->
  exists m', step whole F s t m = Ok m' /\
    forall i j, 0 <= i < s_ny s -> 0 <= j < s_nx s -> whole = true \/ (i < s_ny s - 1 /\ j < s_nx s - 1) ->
      let p := back_trace F (s_rk3 s) (node_x s j) (node_y s i) t (s_dt s) (s_Tp s) in
      inside (s_xlim1 s) (s_xlim2 s) (fst p) -> inside (s_ylim1 s) (s_ylim2 s) (snd p) ->
      exists cx cy, cell_around (s_nx s) (node_x s) (s_xlim1 s) (s_xlim2 s) (fst p) cx /\
        cell_around (s_ny s) (node_y s) (s_ylim1 s) (s_ylim2 s) (snd p) cy /\
        let H (g : quad R -> quad R -> quad R -> quad R -> R -> R -> R -> R -> R -> R -> R) :=
          g (quad_at (SpecRefRun.f_phi f) cy cx) (quad_at (f_x f) cy cx) (quad_at (f_y f) cy cx) (quad_at (f_xy f) cy cx)
            (fst p) (snd p) (node_x s cx) (node_y s cy) (s_dx s) (s_dy s) in
        m' (MPhi, i, j) = Some (D (H hp)) /\
        (s_psischeme s = "SuperConsistent"%string ->
          let r := SuperConsistentScheme F (s_rk3 s) (node_x s j) (node_y s i) (H hermx) (H hermy) t (s_dt s) (s_Tp s) in
          m' (MPsix, i, j) = Some (D (fst r)) /\ m' (MPsiy, i, j) = Some (D (snd r))) /\
        (s_psischeme s = "Heuns"%string ->
          let r := Heuns_internal F (node_x s j) (node_y s i) (fst p) (snd p) (H hermx) (H hermy) t (s_dt s) (s_Tp s) in
          m' (MPsix, i, j) = Some (D (fst r)) /\ m' (MPsiy, i, j) = Some (D (snd r))).
Proof. exact step_inside. Qed.
Print Assumptions C80_step_inside.
Example C80_case : proper case_s /\ forall (s : settings R) f, exists m, nodes_at (s_nx s) (s_ny s) (node_x s) (node_y s) m /\ contains (s_nx s) (s_ny s) f m.
Proof. exact (conj (proj1 case_proper) case_state). Qed.

(** C81: an axis with two nodes passes the set-up but the first step reads past its coordinates. *)
Theorem C81_two_nodes_refuted : forall whole (F : flow R) (s : settings R) n,
  2 <= s_nx s < 4294967296 -> 2 <= s_ny s < 4294967296 -> s_nx s = 2 \/ s_ny s = 2 ->
  1 <= n < 4294967296 -> (IZR n <= s_Tfinal s / s_dt s < IZR n + 1)%R -> main_ whole F s = UB OutOfBounds.
Proof. exact main_two. Qed.
Print Assumptions C81_two_nodes_refuted.

(** C82: any number of steps of the OpenMP program in a constant velocity moves a plane exactly, at
    all nodes, inflow boundaries included. *)
Theorem C82_planes_move_exactly : forall (F : flow R) s a b c u v k m, proper s ->
  velocity_is F (s_Tp s) (fun _ _ _ => u) (fun _ _ _ => v) -> true_gradients F (s_Tp s) ->
  nodes_at (s_nx s) (s_ny s) (node_x s) (node_y s) m -> contains (s_nx s) (s_ny s) (plane (node_x s) (node_y s) a b c) m ->
  exists m', steps true F s k m = Ok m' /\
    contains (s_nx s) (s_ny s) (plane (node_x s) (node_y s) (a - b * (u * (INR k * s_dt s)) - c * (v * (INR k * s_dt s)))%R b c) m'.
Proof. exact steps_plane. Qed.
Print Assumptions C82_planes_move_exactly.
Example C82_case : forall u v Tp, velocity_is (case_flow u v) Tp (fun _ _ _ => u) (fun _ _ _ => v) /\ true_gradients (case_flow u v) Tp.
Proof. exact case_flow_ok. Qed.

(** C83: without velocity phi, psix and psiy stay, whatever they are, at every traced node. *)
Theorem C83_rest : forall whole (F : flow R) s t f m i j, proper s ->
  velocity_is F (s_Tp s) (fun _ _ _ => 0%R) (fun _ _ _ => 0%R) -> true_gradients F (s_Tp s) ->
  nodes_at (s_nx s) (s_ny s) (node_x s) (node_y s) m -> contains (s_nx s) (s_ny s) f m ->
  0 <= i < s_ny s -> 0 <= j < s_nx s -> whole = true \/ (i < s_ny s - 1 /\ j < s_nx s - 1) ->
  exists m', step whole F s t m = Ok m' /\ m' (MPhi, i, j) = m (MPhi, i, j) /\ m' (MPsix, i, j) = m (MPsix, i, j) /\ m' (MPsiy, i, j) = m (MPsiy, i, j).
Proof. exact step_rest. Qed.
Print Assumptions C83_rest.

(** C84: in the vortex flow on the unit square the boundary nodes keep phi, psix and psiy. *)
Theorem C84_walls : forall whole s k f m i j, proper s -> unit_square s ->
  nodes_at (s_nx s) (s_ny s) (node_x s) (node_y s) m -> contains (s_nx s) (s_ny s) f m ->
  0 <= i < s_ny s -> 0 <= j < s_nx s -> (i = 0 \/ i = s_ny s - 1 \/ j = 0 \/ j = s_nx s - 1) ->
  exists m', steps whole vortex s k m = Ok m' /\ m' (MPhi, i, j) = m (MPhi, i, j) /\ m' (MPsix, i, j) = m (MPsix, i, j) /\ m' (MPsiy, i, j) = m (MPsiy, i, j).
Proof. exact steps_wall. Qed.
Print Assumptions C84_walls.

(** C85: there the serial program and the OpenMP program (one thread) hold the same data. *)
Theorem C85_serial_and_openmp : forall s k f m, proper s -> unit_square s ->
  nodes_at (s_nx s) (s_ny s) (node_x s) (node_y s) m -> contains (s_nx s) (s_ny s) f m ->
  exists m1 m2 g, steps false vortex s k m = Ok m1 /\ steps true vortex s k m = Ok m2 /\
    contains (s_nx s) (s_ny s) g m1 /\ contains (s_nx s) (s_ny s) g m2.
Proof. exact steps_same. Qed.
Print Assumptions C85_serial_and_openmp.

(** C86: in a box around the origin the serial program gives all nodes of the last row and column
    the value at the origin. *)
Theorem C86_last_row_and_column_refuted : forall (F : flow R) s t a b c m, proper s -> (s_xlim1 s < 0 < s_xlim2 s)%R -> (s_ylim1 s < 0 < s_ylim2 s)%R ->
  nodes_at (s_nx s) (s_ny s) (node_x s) (node_y s) m -> contains (s_nx s) (s_ny s) (plane (node_x s) (node_y s) a b c) m ->
  exists m', step false F s t m = Ok m' /\
    forall i j, 0 <= i < s_ny s -> 0 <= j < s_nx s -> i = s_ny s - 1 \/ j = s_nx s - 1 -> m' (MPhi, i, j) = Some (D a).
Proof. exact step_origin. Qed.
Print Assumptions C86_last_row_and_column_refuted.
Example C86_case : proper case_t /\ (s_xlim1 case_t < 0 < s_xlim2 case_t)%R /\ (s_ylim1 case_t < 0 < s_ylim2 case_t)%R.
Proof. exact (proj2 (proj2 case_proper)). Qed.
