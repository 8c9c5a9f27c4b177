(** The reference programs over the reals. *)
From Coq Require Import ZArith List Permutation Bool Lia String Reals Lra.
From Verif Require Import Base Num ModelVec ModelRefMath ModelRefMem ModelRef SpecRefPar SpecRefRun ProofsBase ProofsGridProps ProofsRefMem ProofsRefPar ProofsRefRun ProofsRefUpd ProofsRefMix ProofsRefSearch ProofsRefStep ProofsRefMain.
Open Scope Z_scope.

Lemma even_sorted n (lo hi : R) : 2 <= n < 4294967296 -> (lo < hi)%R -> sorted_nodes n (even_nodes lo ((hi - lo) / nofZ (u32 (n - 1)))%num) lo hi.
Proof.
  intros N L. rewrite u32_small by lia. unfold sorted_nodes, even_nodes. cbn [nadd nmul ndiv nsub nofZ NumR].
  assert (P : (0 < IZR (n - 1))%R) by (apply IZR_lt; lia).
  assert (Q : (0 < (hi - lo) / IZR (n - 1))%R) by (apply Rdiv_lt_0_compat; lra).
  repeat split.
  - lra.
  - field. lra.
  - intros i j H1 H2 H3. assert (IZR i < IZR j)%R by (apply IZR_lt; lia).
    apply Rplus_lt_compat_l, Rmult_lt_compat_l; assumption.
Qed.

Lemma where_bounds whole (F : flow R) s x y t i j :
  2 <= s_nx s < 4294967296 -> 2 <= s_ny s < 4294967296 ->
  sorted_nodes (s_nx s) x (s_xlim1 s) (s_xlim2 s) -> sorted_nodes (s_ny s) y (s_ylim1 s) (s_ylim2 s) ->
  let c := snd (where_ whole F s x y t i j) in 0 <= fst c < s_nx s - 1 /\ 0 <= snd c < s_ny s - 1.
Proof.
  intros N1 N2 S1 S2. unfold where_. cbv zeta. cbn [snd].
  pose proof (found_spec (s_nx s) (s_ny s) x y (s_xlim1 s) (s_xlim2 s) (s_ylim1 s) (s_ylim2 s)
    (fst (foot whole F s x y t i j)) (snd (foot whole F s x y t i j)) N1 N2 S1 S2) as (_ & _ & _ & _ & H).
  destruct (snd (found _ _ _ _ _ _ _ _ _ _)) as [c|].
  - destruct H as (_ & (A & B & _) & (C & E & _)). lia.
  - cbn [fst snd]. lia.
Qed.

Lemma step_R whole (F : flow R) s t f m :
  let nx := s_nx s in let ny := s_ny s in let x := xs_of s in let y := ys_of s in
  3 <= nx < 4294967296 -> 3 <= ny < 4294967296 -> (s_xlim1 s < s_xlim2 s)%R -> (s_ylim1 s < s_ylim2 s)%R ->
  nodes_at nx ny x y m -> contains nx ny f m ->
  exists m', step whole F s t m = Ok m' /\ nodes_at nx ny x y m' /\ contains nx ny (next whole F s x y t f) m' /\
    (forall i j, 0 <= i < ny -> 0 <= j < nx -> m' (Xadv, i, j) = Some (D (fst (foot whole F s x y t i j))) /\
       m' (Yadv, i, j) = Some (D (snd (foot whole F s x y t i j))) /\
       m' (Tracker, i, j) = Some (U (fst (where_ whole F s x y t i j))) /\
       m' (Cellx, i, j) = Some (U (fst (snd (where_ whole F s x y t i j)))) /\
       m' (Celly, i, j) = Some (U (snd (snd (where_ whole F s x y t i j))))).
Proof.
  intros nx ny x y N1 N2 L1 L2 Hn Hf. apply step_next; auto. intros i j Hi Hj. apply where_bounds; try (unfold nx, ny in *; lia).
  - apply even_sorted; [unfold nx in *; lia|assumption].
  - apply even_sorted; [unfold ny in *; lia|assumption].
Qed.

Lemma step_count_R (s : settings R) n : 0 <= n < 4294967296 -> (IZR n <= s_Tfinal s / s_dt s < IZR n + 1)%R -> step_count s = Ok n.
Proof.
  intros N Q. unfold step_count. cbv zeta. change (s_Tfinal s / s_dt s)%num with (s_Tfinal s / s_dt s)%R.
  set (q := (s_Tfinal s / s_dt s)%R) in *. clearbody q. change (q <? nofZ 0)%num with (Rltb q 0).
  assert (0 <= IZR n)%R by (apply IZR_le; lia).
  destruct (Rltb_spec q 0); [lra|]. change (nfloor q) with (Rfloor q). rewrite (Rfloor_unique q n) by exact Q.
  replace ((0 <=? n) && (n <=? 4294967295))%bool with true by lia. reflexivity.
Qed.
Lemma time_at_num q (dt : R) : 0 <= q < 4294967296 -> time_at q dt = (IZR q * dt)%R.
Proof. intros. unfold time_at. rewrite u32_small by lia. reflexivity. Qed.

Lemma after_step whole (F : flow R) s f0 :
  let nx := s_nx s in let ny := s_ny s in let x := xs_of s in let y := ys_of s in
  3 <= nx < 4294967296 -> 3 <= ny < 4294967296 -> (s_xlim1 s < s_xlim2 s)%R -> (s_ylim1 s < s_ylim2 s)%R ->
  forall k m, nodes_at nx ny x y m -> contains nx ny (after whole F s x y k f0) m ->
     exists m', step whole F s (Z.of_nat k) m = Ok m' /\ nodes_at nx ny x y m' /\ contains nx ny (after whole F s x y (S k) f0) m'.
Proof.
  intros nx ny x y N1 N2 L1 L2 k m Hn Hf. destruct (step_R whole F s (Z.of_nat k) _ m N1 N2 L1 L2 Hn Hf) as (m' & R1 & A & B & _).
  exists m'. auto.
Qed.

Lemma main_blocks whole (F : flow R) (s : settings R) n :
  let nx := s_nx s in let ny := s_ny s in let x := xs_of s in let y := ys_of s in let every := print_every s n in
  3 <= nx < 4294967296 -> 3 <= ny < 4294967296 -> (s_xlim1 s < s_xlim2 s)%R -> (s_ylim1 s < s_ylim2 s)%R ->
  0 <= n < 4294967296 -> (IZR n <= s_Tfinal s / s_dt s < IZR n + 1)%R -> 0 < every \/ n = 0 ->
  exists m out, main_ whole F s = Ok (m, out) /\ contains nx ny (after whole F s x y (Z.to_nat n) (initial x y)) m /\
    Z.of_nat (length out) = 1 + n / every /\
    forall b tm mm, nth_error out b = Some (tm, mm) ->
      let q := Z.of_nat b * every in
      tm = (IZR q * s_dt s)%R /\ contains nx ny (after whole F s x y (Z.to_nat q) (initial x y)) mm.
Proof.
  intros nx ny x y every N1 N2 L1 L2 Hn Hq He. unfold main_. rewrite (step_count_R s n Hn Hq). cbn [bind].
  destruct (setup_ok s) as (m0 & R0 & A0 & B0 & _). rewrite R0. cbn [bind]. fold nx ny in A0, B0. fold x y in A0, B0. fold every.
  change 0 with (Z.of_nat 0) at 1.
  destruct (Z.eq_dec n 0) as [->|N0].
  - cbn [Z.to_nat time_steps]. eexists _, _. split; [reflexivity|]. split; [exact B0|]. cbn [length].
    split; [rewrite Zdiv_0_l; reflexivity|]. intros [|b] tm mm; cbn [nth_error]; [|destruct b; discriminate].
    intros E. injection E as <- <-. cbn. split; [cbn; lra|exact B0].
  - assert (0 < every) by lia.
    destruct (loop_blocks whole F s x y (initial x y) every) with (left := Z.to_nat n) (k := 0%nat) (m := m0) (out := [(0%R, m0)])
      as (m1 & out & R1 & A1 & B1 & Len & Blk); auto.
    + apply after_step; auto.
    + lia.
    + intros [|b] tm mm; cbn [nth_error]; [|destruct b; discriminate]. intros E. injection E as <- <-.
      exists 0%nat. split; [lia|]. split; [|exact B0]. rewrite time_at_num by lia. cbn. lra.
    + exists m1, out. split; [exact R1|]. split; [exact B1|]. rewrite Nat.add_0_l, Z2Nat.id in Len by lia. split; [exact Len|].
      intros b tm mm Hb. destruct (Blk b tm mm Hb) as (q' & Q1 & Q2 & Q3). rewrite <- Q1, Nat2Z.id. split; [|exact Q3].
      rewrite Q2. apply time_at_num. split; [lia|].
      assert (Hlt : (b < length out)%nat) by (apply nth_error_Some; congruence).
      assert (Z.of_nat b <= n / every) by lia. assert (Z.of_nat b * every <= n / every * every) by (apply Z.mul_le_mono_nonneg_r; lia).
      pose proof (Z.mul_div_le n every ltac:(lia)). lia.
Qed.

Lemma main_div_zero whole (F : flow R) (s : settings R) n :
  3 <= s_nx s < 4294967296 -> 3 <= s_ny s < 4294967296 -> (s_xlim1 s < s_xlim2 s)%R -> (s_ylim1 s < s_ylim2 s)%R ->
  1 <= n < 4294967296 -> (IZR n <= s_Tfinal s / s_dt s < IZR n + 1)%R -> s_option s = 1 -> s_printstep s = 0 ->
  main_ whole F s = UB DivByZero.
Proof.
  intros N1 N2 L1 L2 Hn Hq Ho Hp. unfold main_. rewrite (step_count_R s n) by (lia || assumption). cbn [bind].
  destruct (setup_ok s) as (m0 & R0 & A0 & B0 & _). rewrite R0. cbn [bind]. unfold print_every. rewrite Ho, Hp. cbn [Z.eqb Pos.eqb].
  destruct (Z.to_nat n) as [|n'] eqn:En; [lia|]. cbn [time_steps].
  destruct (step_R whole F s 0 _ m0 N1 N2 L1 L2 A0 B0) as (m1 & R1 & _). rewrite R1. reflexivity.
Qed.

(** two nodes on an axis *)
Lemma main_two whole (F : flow R) (s : settings R) n :
  2 <= s_nx s < 4294967296 -> 2 <= s_ny s < 4294967296 -> s_nx s = 2 \/ s_ny s = 2 ->
  1 <= n < 4294967296 -> (IZR n <= s_Tfinal s / s_dt s < IZR n + 1)%R -> main_ whole F s = UB OutOfBounds.
Proof.
  intros N1 N2 H2 Hn Hq. unfold main_. rewrite (step_count_R s n) by (lia || assumption). cbn [bind].
  destruct (setup_ok s) as (m0 & R0 & [Hx Hy] & B0 & Ox & Oy). rewrite R0. cbn [bind].
  destruct (Z.to_nat n) as [|n'] eqn:En; [lia|]. cbn [time_steps].
  enough (E : step whole F s 0 m0 = UB OutOfBounds) by (rewrite E; reflexivity).
  unfold step. set (nx := s_nx s) in *. set (ny := s_ny s) in *.
  set (ma := alloc Yadv ny nx (D (nofZ 0)) (alloc Xadv ny nx (D (nofZ 0)) (alloc Tracker ny nx (U 0) m0))).
  set (rows := if whole then ny else ny - 1). set (hi := if whole then nx else nx - 1).
  destruct (adv_loop F (s_rk3 s) 0 (s_dt s) (s_Tp s) nx ny (xs_of s) (ys_of s) rows 0 hi ma) as (m1 & R1 & V1).
  { split; intros; unfold ma; rewrite !alloc_other by reflexivity; auto. }
  { intros i j Hi Hj. unfold ma. rewrite alloc_other by reflexivity. rewrite alloc_in by assumption. congruence. }
  { intros i j Hi Hj. unfold ma. rewrite alloc_in by assumption. congruence. }
  { lia. } { unfold hi; destruct whole; lia. } { unfold rows; destruct whole; lia. }
  assert (E1 : (if whole then advection_point_MPI F (s_rk3 s) 0 (s_dt s) (s_Tp s) ny 0 nx
             else advection_point F (s_rk3 s) 0 (s_dt s) (s_Tp s) nx ny) = map (adv_body F (s_rk3 s) 0 (s_dt s) (s_Tp s)) (nodes rows 0 hi)).
  { unfold rows, hi, advection_point, advection_point_MPI. destruct whole; [reflexivity|]. rewrite !u32_small by lia. reflexivity. }
  rewrite E1, R1. cbn [bind]. clear E1 R1.
  assert (K1 : forall a i j, existsb (arr_eqb a) [Xadv; Yadv; Tracker] = false -> m1 (a, i, j) = m0 (a, i, j)).
  { intros a i j Ha. rewrite V1. destruct a; try discriminate; unfold ma; rewrite !alloc_other by reflexivity; reflexivity. }
  assert (XY : forall a, a = Xadv \/ a = Yadv -> exists g, holds a ny nx g m1).
  { intros a Ha.
    exists (fun i j => match m1 (a, i, j) with Some (D v) => v | _ => 0%R end).
    intros i j Hi Hj. rewrite V1. destruct Ha as [-> | ->]; destruct in_rng; try reflexivity;
      unfold ma; [rewrite alloc_other by reflexivity|]; rewrite alloc_in by assumption; reflexivity. }
  destruct (XY Xadv (or_introl eq_refl)) as [gx Gx]. destruct (XY Yadv (or_intror eq_refl)) as [gy Gy]. clear XY.
  set (m2 := alloc Celly ny nx (U 0) (alloc Cellx ny nx (U 0) m1)).
  assert (K2 : forall a i j, arr_eqb Celly a = false -> arr_eqb Cellx a = false -> m2 (a, i, j) = m1 (a, i, j)).
  { intros. unfold m2. rewrite !alloc_other by assumption. reflexivity. }
  destruct (find_loop nx ny (s_xlim1 s) (s_xlim2 s) (s_ylim1 s) (s_ylim2 s) (xs_of s) (ys_of s) gx gy 0 nx m2) as (m3 & R3 & V3); try lia.
  { split; intros; rewrite K2, K1 by reflexivity; auto. }
  { intros i j Hi Hj. rewrite K2 by reflexivity. auto. }
  { intros i j Hi Hj. rewrite K2 by reflexivity. auto. }
  { intros i j Hi Hj. rewrite K2, V1 by reflexivity. unfold ma. rewrite !alloc_other by reflexivity. rewrite alloc_in by assumption. congruence. }
  { intros i j Hi Hj. unfold m2. rewrite alloc_other by reflexivity. rewrite alloc_in by assumption. congruence. }
  { intros i j Hi Hj. unfold m2. rewrite alloc_in by assumption. congruence. }
  rewrite R3. cbn [bind]. clear R3.
  assert (K3 : forall a i, a = AX1 \/ a = AY1 -> m3 (a, i, 0) = m0 (a, i, 0)).
  { intros a i Ha. rewrite V3. destruct Ha as [-> | ->]; destruct in_rng; rewrite K2, K1 by reflexivity; reflexivity. }
  unfold update_levelset_data, runs. rewrite forM_map.
  replace (nodes ny 0 nx) with ((0, 0) :: tl (nodes ny 0 nx)).
  2: { unfold nodes, range. rewrite !Z.sub_0_r. destruct (Z.to_nat ny) eqn:Ey; [lia|]. destruct (Z.to_nat nx) eqn:Ex; [lia|]. reflexivity. }
  cbn [forM].
  match goal with |- bind (bind ?a _) _ = _ => enough (E : a = UB OutOfBounds) by (rewrite E; reflexivity) end.
  unfold update_body, rd. cbn [run].
  destruct (Z.eq_dec nx 2) as [E2|E2].
  - rewrite K3 by auto. rewrite Ox by lia. reflexivity.
  - rewrite K3, Hx by (auto; lia). cbn [run]. rewrite K3, Hx by (auto; lia). cbn [run]. rewrite K3, Oy by (auto; lia). reflexivity.
Qed.
