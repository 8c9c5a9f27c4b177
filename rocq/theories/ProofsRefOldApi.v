(** The first serial program: the statements of the properties and their concrete cases. *)
From Coq Require Import ZArith List Bool Lia String Reals Lra.
From Verif Require Import Base Num NumB64 ModelVec ModelRefMath ModelRefMem ModelRef ModelRefOld SpecRef SpecRefPar SpecRefRun SpecRefOld ProofsBase ProofsGridProps ProofsRefHermite ProofsRefTrace
  ProofsRefMem ProofsRefSearch ProofsRefStep ProofsRefMain ProofsRefReal ProofsRefExact ProofsRefFlows ProofsRefApi ProofsRefOld ProofsRefOldReal ProofsRefRunCases.
Open Scope R_scope.

Lemma old_count_R (s : settings R) n : (0 <= n < 2147483648)%Z -> IZR n <= s_Tfinal s / s_dt s < IZR n + 1 -> old_count_steps s = Ok n.
Proof.
  intros N Q. unfold old_count_steps. cbv zeta. change (s_Tfinal s / s_dt s)%num with (s_Tfinal s / s_dt s).
  set (q := s_Tfinal s / s_dt s) in *. clearbody q. change (q <? nofZ 0)%num with (Rltb q 0).
  assert (0 <= IZR n) by (apply IZR_le; lia).
  destruct (Rltb_spec q 0); [lra|]. change (nfloor q) with (Rfloor q). rewrite (Rfloor_unique q n) by exact Q.
  replace ((-2147483648 <=? n) && (n <=? 2147483647))%Z%bool with true by lia. reflexivity.
Qed.
Lemma main_R (F : flow R) s n : (2 <= s_nx s)%Z -> (2 <= s_ny s)%Z -> (s_nx s * s_ny s < 2147483648)%Z ->
  (0 <= n < 2147483648)%Z -> IZR n <= s_Tfinal s / s_dt s < IZR n + 1 ->
  exists m, old_main F s = Ok m /\
    contains (s_nx s) (s_ny s) (old_after F s (node_x s) (node_y s) (Z.to_nat n) (initial (node_x s) (node_y s))) m.
Proof. intros. apply old_main_ok; try assumption. apply old_count_R; assumption. Qed.
Lemma main_overflow (F : flow R) s n : (2147483648 <= s_nx s * s_ny s)%Z ->
  (0 <= n < 2147483648)%Z -> IZR n <= s_Tfinal s / s_dt s < IZR n + 1 -> old_main F s = UB SignedOverflow.
Proof.
  intros O N Q. unfold old_main. rewrite (old_count_R s n N Q). cbn [bind]. unfold old_setup. cbv zeta.
  replace (2147483647 <? s_nx s * s_ny s)%Z with true by lia. reflexivity.
Qed.

Lemma runs_agree (F : flow R) s k f m : proper s ->
  nodes_at (s_nx s) (s_ny s) (node_x s) (node_y s) m -> contains (s_nx s) (s_ny s) f m -> present Tracker (s_ny s) (s_nx s) m ->
  (forall t i j, (0 <= t < Z.of_nat k)%Z -> (0 <= i < s_ny s)%Z -> (0 <= j < s_nx s)%Z -> one_cell F s t i j /\ off_limits F s t i j) ->
  exists m1 m2 g, old_steps F s 0 k m = Ok m1 /\ steps true F s k m = Ok m2 /\ contains (s_nx s) (s_ny s) g m1 /\ contains (s_nx s) (s_ny s) g m2.
Proof.
  intros P Hn Hc Ht H. pose proof P as (N1 & N2 & _).
  destruct (old_steps_ok F s (node_x s) (node_y s) k ltac:(lia) ltac:(lia) 0 f m Hn Hc Ht) as (m1 & R1 & _ & C1).
  destruct (steps_after true F s k f m P Hn Hc) as (m2 & R2 & _ & C2).
  exists m1, m2. eexists. split; [exact R1|]. split; [exact R2|]. split; [|exact C2].
  rewrite Nat.add_0_r in C1. eapply contains_agree; [|exact C1]. apply after_old_new; assumption.
Qed.

Lemma step_far (F : flow R) s t f m i j : proper s ->
  nodes_at (s_nx s) (s_ny s) (node_x s) (node_y s) m -> contains (s_nx s) (s_ny s) f m -> present Tracker (s_ny s) (s_nx s) m ->
  (0 <= i < s_ny s)%Z -> (0 <= j < s_nx s)%Z -> grid_corner (s_nx s) (s_ny s) i j = false ->
  let p := back_trace F (s_rk3 s) (node_x s j) (node_y s i) t (s_dt s) (s_Tp s) in
  s_xlim1 s <= fst p <= s_xlim2 s -> s_ylim1 s <= snd p <= s_ylim2 s ->
  s_dx s < Rabs (fst p - node_x s j) \/ s_dy s < Rabs (snd p - node_y s i) ->
  exists m', old_step F s t m = Ok m' /\ m' (MPhi, i, j) = m (MPhi, i, j) /\ m' (MPsix, i, j) = m (MPsix, i, j) /\ m' (MPsiy, i, j) = m (MPsiy, i, j).
Proof.
  intros P Hn Hc Ht Hi Hj Hg p Bx By Far. pose proof P as (N1 & N2 & _).
  destruct (old_step_ok F s (node_x s) (node_y s) t f m ltac:(lia) ltac:(lia) Hn Hc Ht) as (m1 & R1 & _ & C1 & _).
  exists m1. split; [exact R1|].
  pose proof (far_kept s F t f i j P Hi Hj Bx By Far Hg) as E.
  destruct C1 as (_ & _ & _ & _ & A1 & A2 & A3 & _). destruct Hc as (_ & _ & _ & _ & B1 & B2 & B3 & _).
  rewrite (A1 i j Hi Hj), (A2 i j Hi Hj), (A3 i j Hi Hj), (B1 i j Hi Hj), (B2 i j Hi Hj), (B3 i j Hi Hj).
  unfold old_next. cbv zeta. cbn [SpecRefRun.f_phi f_x f_y]. rewrite E. auto.
Qed.
Lemma step_far_plane (F : flow R) s t a b c u v m i j : proper s ->
  velocity_is F (s_Tp s) (fun _ _ _ => u) (fun _ _ _ => v) ->
  nodes_at (s_nx s) (s_ny s) (node_x s) (node_y s) m -> contains (s_nx s) (s_ny s) (plane (node_x s) (node_y s) a b c) m -> present Tracker (s_ny s) (s_nx s) m ->
  (0 <= i < s_ny s)%Z -> (0 <= j < s_nx s)%Z -> grid_corner (s_nx s) (s_ny s) i j = false ->
  s_xlim1 s <= node_x s j - u * s_dt s <= s_xlim2 s -> s_ylim1 s <= node_y s i - v * s_dt s <= s_ylim2 s ->
  s_dx s < Rabs (u * s_dt s) -> b * u + c * v <> 0 ->
  exists m' r, old_step F s t m = Ok m' /\ m' (MPhi, i, j) = Some (D r) /\ r <> a + b * (node_x s j - u * s_dt s) + c * (node_y s i - v * s_dt s).
Proof.
  intros P V Hn Hc Ht Hi Hj Hg Bx By Far Nz.
  pose proof (step_far F s t _ m i j P Hn Hc Ht Hi Hj Hg) as H. cbv zeta in H.
  rewrite (trace_constant _ _ _ _ _ _ _ _ _ V) in H. cbn [fst snd] in H.
  destruct (H Bx By) as (m1 & R1 & E & _).
  { left. replace (node_x s j - u * s_dt s - node_x s j) with (- (u * s_dt s)) by ring. rewrite Rabs_Ropp. exact Far. }
  exists m1, (a + b * node_x s j + c * node_y s i). split; [exact R1|]. split.
  { rewrite E. destruct Hc as (_ & _ & _ & _ & B1 & _). rewrite (B1 i j Hi Hj). reflexivity. }
  intros Q. assert (Z0 : (b * u + c * v) * s_dt s = 0) by lra. apply Rmult_integral in Z0 as [Z0|Z0]; [exact (Nz Z0)|].
  rewrite Z0, Rmult_0_r, Rabs_R0 in Far. pose proof (dx_pos s P). lra.
Qed.

Lemma old_steps_plane (F : flow R) s a b c u v k m : proper s ->
  velocity_is F (s_Tp s) (fun _ _ _ => u) (fun _ _ _ => v) -> true_gradients F (s_Tp s) ->
  Rabs (u * s_dt s) <= s_dx s -> Rabs (v * s_dt s) <= s_dy s ->
  nodes_at (s_nx s) (s_ny s) (node_x s) (node_y s) m -> contains (s_nx s) (s_ny s) (plane (node_x s) (node_y s) a b c) m -> present Tracker (s_ny s) (s_nx s) m ->
  exists m', old_steps F s 0 k m = Ok m' /\
    contains (s_nx s) (s_ny s) (plane (node_x s) (node_y s) (a - b * (u * (INR k * s_dt s)) - c * (v * (INR k * s_dt s))) b c) m'.
Proof.
  intros P V G Cu Cv Hn Hc Ht. pose proof P as (N1 & N2 & _).
  destruct (old_steps_ok F s (node_x s) (node_y s) k ltac:(lia) ltac:(lia) 0 _ m Hn Hc Ht) as (m1 & R1 & _ & C1).
  exists m1. split; [exact R1|]. rewrite Nat.add_0_r in C1. eapply contains_agree; [|exact C1].
  apply old_after_plane; try assumption. eapply flat_of_true; eauto.
Qed.

Lemma walls_differ s i j m : proper s -> unit_square s -> (0 < i < s_ny s - 1)%Z -> (j = 0 \/ j = s_nx s - 1)%Z ->
  s_psischeme s = "SuperConsistent"%string -> s_backtrace s = "RK3"%string -> 0 < s_dt s < s_Tp s / 2 -> node_y s i <> 3 / 4 ->
  nodes_at (s_nx s) (s_ny s) (node_x s) (node_y s) m -> contains (s_nx s) (s_ny s) (initial (node_x s) (node_y s)) m -> present Tracker (s_ny s) (s_nx s) m ->
  exists m1 m2 a b, old_step vortex s 0 m = Ok m1 /\ step true vortex s 0 m = Ok m2 /\
    m1 (MPsix, i, j) = Some (D a) /\ m2 (MPsix, i, j) = Some (D b) /\ a <> b.
Proof.
  intros P U Hi Hj Sc Bt Dt Hy Hn Hc Ht.
  assert (Fy : f_y (initial (node_x s) (node_y s)) i j <> 0).
  { unfold initial. cbn [f_y]. unfold derivyinit, init_yo, bump. nr. intros E.
    apply Rmult_integral in E as [E|E].
    - apply Rmult_integral in E as [E|E]; lra.
    - revert E. apply Rgt_not_eq. apply exp_pos. }
  destruct (wall_differs s _ i j m P U Hi Hj Sc Bt Dt Fy Hn Hc Ht) as (m1 & m2 & a & b & R1 & R2 & V1 & V2 & _ & D).
  exists m1, m2, a, b. auto.
Qed.

(** cases *)
Lemma case_old (s : settings R) f : exists m, nodes_at (s_nx s) (s_ny s) (node_x s) (node_y s) m /\ contains (s_nx s) (s_ny s) f m /\ present Tracker (s_ny s) (s_nx s) m.
Proof.
  destruct (mem_of_ok (s_nx s) (s_ny s) (node_x s) (node_y s) f (fun _ _ => 0%R) (fun _ _ => 0%R) 0 0 0) as (H1 & H2 & _ & _ & H5 & _).
  eexists. split; [exact H1|]. split; [exact H2|]. eapply holdsu_present. exact H5.
Qed.
(** 5 by 4 nodes, cells of 1/4 by 1/3; a velocity of (1, 1), time step 1/8 *)
Lemma case_near : forall t i j, one_cell (case_flow 1 1) case_s t i j /\ ((0 <= i < 4)%Z -> (0 <= j < 5)%Z -> off_limits (case_flow 1 1) case_s t i j).
Proof.
  intros t i j. unfold one_cell, off_limits. cbv zeta. rewrite (trace_constant _ _ 1 1) by (intros x y q; split; reflexivity). cbn [fst snd].
  assert (X : forall j, node_x case_s j = 1 / 4 * IZR j) by (intros; unfold node_x, case_s, s_dx; cbn; lra).
  assert (Y : forall i, node_y case_s i = 1 / 3 * IZR i) by (intros; unfold node_y, case_s, s_dy; cbn; lra).
  assert (Ex : s_dx case_s = 1 / 4) by (unfold s_dx, case_s; cbn; lra). assert (Ey : s_dy case_s = 1 / 3) by (unfold s_dy, case_s; cbn; lra).
  rewrite Ex, Ey, X, Y. change (s_dt case_s) with (1 / 8). change (s_xlim1 case_s) with 0. change (s_xlim2 case_s) with 1. change (s_ylim1 case_s) with 0. change (s_ylim2 case_s) with 1.
  split; [split; apply Rabs_le; lra|]. intros Hi Hj.
  assert (I : (i = 0 \/ i = 1 \/ i = 2 \/ i = 3)%Z) by lia. assert (J : (j = 0 \/ j = 1 \/ j = 2 \/ j = 3 \/ j = 4)%Z) by lia.
  destruct I as [->|[->|[->| ->]]]; destruct J as [->|[->|[->|[->| ->]]]]; repeat split; solve [apply Rlt_not_eq; lra | apply Rgt_not_eq; lra].
Qed.
(** a velocity of (4, 0): half the box in one step, node 3 of row 1 comes from node 1 *)
Lemma case_far : grid_corner 5 4 1 3 = false /\ 0 <= node_x case_s 3 - 4 * s_dt case_s <= 1 /\ 0 <= node_y case_s 1 - 0 * s_dt case_s <= 1 /\
  s_dx case_s < Rabs (4 * s_dt case_s).
Proof. split; [reflexivity|]. unfold node_x, node_y, s_dx, s_dy, case_s. cbn. split; [lra|]. split; [lra|]. unfold Rabs. destruct Rcase_abs; lra. Qed.
Lemma case_walls : proper case_s /\ unit_square case_s /\ s_psischeme case_s = "SuperConsistent"%string /\ s_backtrace case_s = "RK3"%string /\
  0 < s_dt case_s < s_Tp case_s / 2 /\ node_y case_s 1 <> 3 / 4.
Proof.
  destruct case_proper as (P & U & _). split; [exact P|]. split; [exact U|]. split; [reflexivity|]. split; [reflexivity|].
  unfold node_y, s_dy, case_s. cbn. split; [lra|]. apply Rlt_not_eq. lra.
Qed.
