(** C94-C97: the first serial program. *)
From Coq Require Import ZArith List Reals String.
From Verif Require Import Base Num NumB64 ModelVec ModelRefMath ModelRefMem ModelRef ModelRefOld SpecRef SpecRefPar SpecRefRun SpecRefOld
  ProofsRefOldApi ProofsRefRunCases.
Open Scope list_scope. Open Scope Z_scope.

(** C94: with at least two nodes per axis and fewer than 2^31 nodes the program ends, without undefined
    behaviour, with the data n steps after the initial data. *)
Theorem C94_first_program : forall (F : flow R) s n, 2 <= s_nx s -> 2 <= s_ny s -> s_nx s * s_ny s < 2147483648 ->
  0 <= n < 2147483648 -> (IZR n <= s_Tfinal s / s_dt s < IZR n + 1)%R ->
  exists m, old_main F s = Ok m /\
    contains (s_nx s) (s_ny s) (old_after F s (node_x s) (node_y s) (Z.to_nat n) (initial (node_x s) (node_y s))) m.
Proof. exact main_R. Qed.
Print Assumptions C94_first_program.
Example C94_case : (IZR 8 <= s_Tfinal case_s / s_dt case_s < IZR 8 + 1)%R /\ print_every case_s 8 = 2.
Proof. exact case_main. Qed.
(** From 2^31 nodes on the (unused) number of nodes overflows. *)
Theorem C94_many_nodes_refuted : forall (F : flow R) s n, 2147483648 <= s_nx s * s_ny s ->
  0 <= n < 2147483648 -> (IZR n <= s_Tfinal s / s_dt s < IZR n + 1)%R -> old_main F s = UB SignedOverflow.
Proof. exact main_overflow. Qed.
Print Assumptions C94_many_nodes_refuted.

(** C95: the first program and the later ones hold the same data after any number of steps, as long as no node
    is traced back farther than one cell or exactly onto a limit of the box.  Missing: the other
    positions (next theorem and C96). *)
Theorem C95_same_results_partial : forall (F : flow R) s k f m, proper s ->
  nodes_at (s_nx s) (s_ny s) (node_x s) (node_y s) m -> contains (s_nx s) (s_ny s) f m -> present Tracker (s_ny s) (s_nx s) m ->
  (forall t i j, 0 <= t < Z.of_nat k -> 0 <= i < s_ny s -> 0 <= j < s_nx s -> one_cell F s t i j /\ off_limits F s t i j) ->
  exists m1 m2 g, old_steps F s 0 k m = Ok m1 /\ steps true F s k m = Ok m2 /\ contains (s_nx s) (s_ny s) g m1 /\ contains (s_nx s) (s_ny s) g m2.
Proof. exact runs_agree. Qed.
Print Assumptions C95_same_results_partial.
Example C95_case : forall t i j, one_cell (case_flow 1 1) case_s t i j /\ (0 <= i < 4 -> 0 <= j < 5 -> off_limits (case_flow 1 1) case_s t i j).
Proof. exact case_near. Qed.
(** In the shipped flow and box the nodes of the walls stay on the limits: after the first step psix
    differs at each node of the left and right walls but those on y = 0, 3/4, 1. *)
Theorem C95_walls_refuted : forall s i j m, proper s -> unit_square s -> 0 < i < s_ny s - 1 -> j = 0 \/ j = s_nx s - 1 ->
  s_psischeme s = "SuperConsistent"%string -> s_backtrace s = "RK3"%string -> (0 < s_dt s < s_Tp s / 2)%R -> node_y s i <> (3 / 4)%R ->
  nodes_at (s_nx s) (s_ny s) (node_x s) (node_y s) m -> contains (s_nx s) (s_ny s) (initial (node_x s) (node_y s)) m -> present Tracker (s_ny s) (s_nx s) m ->
  exists m1 m2 a b, old_step vortex s 0 m = Ok m1 /\ step true vortex s 0 m = Ok m2 /\
    m1 (MPsix, i, j) = Some (D a) /\ m2 (MPsix, i, j) = Some (D b) /\ a <> b.
Proof. exact walls_differ. Qed.
Print Assumptions C95_walls_refuted.
Example C95_walls_case : proper case_s /\ unit_square case_s /\ s_psischeme case_s = "SuperConsistent"%string /\ s_backtrace case_s = "RK3"%string /\
  (0 < s_dt case_s < s_Tp case_s / 2)%R /\ node_y case_s 1 <> (3 / 4)%R.
Proof. exact case_walls. Qed.
Example C95_memory_case : forall (s : settings R) f, exists m, nodes_at (s_nx s) (s_ny s) (node_x s) (node_y s) m /\ contains (s_nx s) (s_ny s) f m /\ present Tracker (s_ny s) (s_nx s) m.
Proof. exact case_old. Qed.

(** C96: a node traced back inside the box but farther than one cell keeps its data, unless it is a corner
    of the grid. *)
Theorem C96_long_steps_refuted : forall (F : flow R) s t f m i j, proper s ->
  nodes_at (s_nx s) (s_ny s) (node_x s) (node_y s) m -> contains (s_nx s) (s_ny s) f m -> present Tracker (s_ny s) (s_nx s) m ->
  0 <= i < s_ny s -> 0 <= j < s_nx s -> grid_corner (s_nx s) (s_ny s) i j = false ->
  let p := back_trace F (s_rk3 s) (node_x s j) (node_y s i) t (s_dt s) (s_Tp s) in
  (s_xlim1 s <= fst p <= s_xlim2 s)%R -> (s_ylim1 s <= snd p <= s_ylim2 s)%R ->
  (s_dx s < Rabs (fst p - node_x s j))%R \/ (s_dy s < Rabs (snd p - node_y s i))%R ->
  exists m', old_step F s t m = Ok m' /\ m' (MPhi, i, j) = m (MPhi, i, j) /\ m' (MPsix, i, j) = m (MPsix, i, j) /\ m' (MPsiy, i, j) = m (MPsiy, i, j).
Proof. exact step_far. Qed.
Print Assumptions C96_long_steps_refuted.
(** so a plane is not moved by a constant velocity *)
Theorem C96_planes_refuted : forall (F : flow R) s t a b c u v m i j, proper s ->
  velocity_is F (s_Tp s) (fun _ _ _ => u) (fun _ _ _ => v) ->
  nodes_at (s_nx s) (s_ny s) (node_x s) (node_y s) m -> contains (s_nx s) (s_ny s) (plane (node_x s) (node_y s) a b c) m -> present Tracker (s_ny s) (s_nx s) m ->
  0 <= i < s_ny s -> 0 <= j < s_nx s -> grid_corner (s_nx s) (s_ny s) i j = false ->
  (s_xlim1 s <= node_x s j - u * s_dt s <= s_xlim2 s)%R -> (s_ylim1 s <= node_y s i - v * s_dt s <= s_ylim2 s)%R ->
  (s_dx s < Rabs (u * s_dt s))%R -> (b * u + c * v)%R <> 0%R ->
  exists m' r, old_step F s t m = Ok m' /\ m' (MPhi, i, j) = Some (D r) /\ r <> (a + b * (node_x s j - u * s_dt s) + c * (node_y s i - v * s_dt s))%R.
Proof. exact step_far_plane. Qed.
Print Assumptions C96_planes_refuted.
Example C96_case : grid_corner 5 4 1 3 = false /\ (0 <= node_x case_s 3 - 4 * s_dt case_s <= 1)%R /\ (0 <= node_y case_s 1 - 0 * s_dt case_s <= 1)%R /\
  (s_dx case_s < Rabs (4 * s_dt case_s))%R.
Proof. exact case_far. Qed.

(** C97: a plane is transported exactly by a constant velocity of at most one cell per step, any number
    of steps, positions beyond or on the limits included. *)
Theorem C97_planes_move_exactly : forall (F : flow R) s a b c u v k m, proper s ->
  velocity_is F (s_Tp s) (fun _ _ _ => u) (fun _ _ _ => v) -> true_gradients F (s_Tp s) ->
  (Rabs (u * s_dt s) <= s_dx s)%R -> (Rabs (v * s_dt s) <= s_dy s)%R ->
  nodes_at (s_nx s) (s_ny s) (node_x s) (node_y s) m -> contains (s_nx s) (s_ny s) (plane (node_x s) (node_y s) a b c) m -> present Tracker (s_ny s) (s_nx s) m ->
  exists m', old_steps F s 0 k m = Ok m' /\
    contains (s_nx s) (s_ny s) (plane (node_x s) (node_y s) (a - b * (u * (INR k * s_dt s)) - c * (v * (INR k * s_dt s)))%R b c) m'.
Proof. exact old_steps_plane. Qed.
Print Assumptions C97_planes_move_exactly.
Example C97_case : forall u v Tp, velocity_is (case_flow u v) Tp (fun _ _ _ => u) (fun _ _ _ => v) /\ true_gradients (case_flow u v) Tp.
Proof. exact case_flow_ok. Qed.
