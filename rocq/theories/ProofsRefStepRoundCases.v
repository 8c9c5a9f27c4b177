(** A case for one time step of the reference programs in double arithmetic. *)
From Coq Require Import ZArith List Bool String Lia Reals Lra.
From Flocq Require Import Core BinarySingleNaN.
From Verif Require Import Base Num NumB64 ModelVec ModelGrid ModelRefMath ModelRefMem ModelRef SpecGrid SpecB64 SpecRound SpecRef SpecRefRun SpecRefOrder SpecRefStep SpecRefRound SpecRefTraceRound SpecRefStepRound
  ProofsRefMem ProofsRefRun ProofsB64 ProofsB64Ops ProofsRound ProofsRefStepCases ProofsRefScale ProofsRefSolve ProofsSensitiveCases ProofsRefStepErr ProofsRefRound ProofsRefTraceRound ProofsRefTraceRoundCases ProofsRefStepRound.
Import ListNotations.
Open Scope R_scope.

(** a memory with the coordinates of the nodes and given data *)
Definition state64 (s : settings b64) (f : fields b64) : mem b64 := fun l =>
  match l with (a, i, j) =>
    match a with
    | AX1 => if (j =? 0)%Z then Some (ModelRefMem.D (node_x s i)) else None
    | AY1 => if (j =? 0)%Z then Some (ModelRefMem.D (node_y s i)) else None
    | Phi | MPhi => Some (ModelRefMem.D (SpecRefRun.f_phi f i j)) | Psix | MPsix => Some (ModelRefMem.D (f_x f i j))
    | Psiy | MPsiy => Some (ModelRefMem.D (f_y f i j)) | Psixy | MPsixy => Some (ModelRefMem.D (f_xy f i j))
    | Xadv | Yadv => Some (ModelRefMem.D (node_x s 0)) | _ => Some (U 0)
    end end.
Lemma state_any s f : exists m, nodes_at (s_nx s) (s_ny s) (node_x s) (node_y s) m /\ contains (s_nx s) (s_ny s) f m.
Proof. exists (state64 s f). split; [split; intros i Hi; reflexivity|]. unfold contains, holds. repeat apply conj; intros i j Hi Hj; reflexivity. Qed.
(** the unit square with 5 by 5 nodes *)
Definition quarter : settings b64 := mkSet (b64_make 0 0) (b64_make 1 0) 5 (b64_make 0 0) (b64_make 1 0) 5
  (b64_make 1 (-7)) (b64_make 1 0) (b64_make 1 0) 1 1 "SuperConsistent" "RK3".
(** sin x sin y and its derivatives as multiples of 2^-40 *)
Definition ripple_held (r : settings R) : fields b64 := let h i j a b := near64 (ripple a b (node_x r j) (node_y r i)) in
  mkFields (fun i j => h i j 0%nat 0%nat) (fun i j => h i j 1%nat 0%nat) (fun i j => h i j 0%nat 1%nat) (fun i j => h i j 1%nat 1%nat).
Lemma real_of (z : b64) sf : B2SF z = sf -> is_finite_SF sf = true -> is_finite z = true /\ real z = SF2R radix2 sf.
Proof. intros E F. split; [rewrite <- is_finite_SF_B2SF, E; exact F|]. unfold real. rewrite <- SF2R_B2SF, E. reflexivity. Qed.
Lemma quarter_real : let r := real_settings quarter in s_xlim1 r = 0 /\ s_xlim2 r = 1 /\ s_ylim1 r = 0 /\ s_ylim2 r = 1 /\ s_dt r = / 128 /\ s_Tp r = 1.
Proof.
  destruct (int64 1) as (_ & E1); [cbn; lia|]. destruct (int64 0) as (_ & E0); [cbn; lia|]. cbn [real_settings quarter s_xlim1 s_xlim2 s_ylim1 s_ylim2 s_dt s_Tp].
  repeat split; try exact E1; try exact E0. unfold real; cbn; unfold F2R; cbn; lra.
Qed.
Lemma quarter_dx : s_dx (real_settings quarter) = / 4 /\ s_dy (real_settings quarter) = / 4.
Proof.
  destruct quarter_real as (E1 & E2 & E3 & E4 & _). unfold s_dx, s_dy. rewrite E1, E2, E3, E4. change (u32 (s_nx (real_settings quarter) - 1)) with 4%Z.
  change (u32 (s_ny (real_settings quarter) - 1)) with 4%Z. cbn [nsub ndiv nofZ NumR]. split; lra.
Qed.
Lemma quarter_node j : node_x (real_settings quarter) j = IZR j / 4 /\ node_y (real_settings quarter) j = IZR j / 4.
Proof.
  destruct quarter_real as (E1 & _ & E3 & _). destruct quarter_dx as (D1 & D2). unfold node_x, node_y, even_nodes. rewrite E1, E3, D1, D2. cbn [nadd nmul nofZ NumR]. split; lra.
Qed.
Ltac by_sf := match goal with |- is_finite ?z = true /\ _ => let v := eval vm_compute in (B2SF z) in destruct (real_of z v ltac:(vm_compute; reflexivity) ltac:(reflexivity)) as (?F & ?E) end.
Lemma quarter_node64 j : (0 <= j < 5)%Z -> is_finite (node_x quarter j) = true /\ real (node_x quarter j) = IZR j / 4.
Proof.
  intros H. assert (j = 0 \/ j = 1 \/ j = 2 \/ j = 3 \/ j = 4)%Z as [->|[->|[->|[->| ->]]]] by lia;
  by_sf; (split; [exact F|]); rewrite E; unfold SF2R, F2R; cbn; lra.
Qed.
Lemma quarter_exact : exact_grid quarter.
Proof.
  destruct quarter_dx as (D1 & D2).
  assert (A : exact_axis 5 (b64_make 0 0) (b64_make 1 0) (node_x quarter 2 - node_x quarter 1)%num (node_x quarter) (node_x (real_settings quarter)) (/ 4)).
  { split; [reflexivity|]. split; [reflexivity|]. split. { intros j Hj. rewrite (proj1 (quarter_node j)). apply quarter_node64. exact Hj. }
    assert (Q : is_finite (node_x quarter 2 - node_x quarter 1)%num = true /\ real (node_x quarter 2 - node_x quarter 1)%num = / 4).
    { by_sf. split; [exact F|]. rewrite E. unfold SF2R, F2R. cbn. lra. }
    destruct Q as (Q1 & Q2). split; [exact Q1|]. split; [exact Q2|]. split; [apply (bpow_le radix2 (-200) (-2)); lia|apply Rle_trans with 1; [lra|apply (bpow_le radix2 0 200); lia]]. }
  split; [rewrite D1; exact A|rewrite D2; exact A].
Qed.
Lemma near64_size z : Rabs z <= 1 -> is_finite (near64 z) = true /\ Rabs (real (near64 z)) <= 2.
Proof.
  intros H. destruct (near64_ok z H) as (F & E). split; [exact F|]. replace (real (near64 z)) with (z + (real (near64 z) - z)) by ring. eapply Rle_trans; [apply Rabs_triang|].
  assert (bpow radix2 (-41) <= 1) by (apply (bpow_le radix2 (-41) 0); lia). lra.
Qed.
Lemma quarter_case : let s := quarter in let r := real_settings s in let f := ripple_held r in let e := bpow radix2 (-41) in
  proper r /\ exact_grid s /\ box_within s 1 /\ (exists m, nodes_at (s_nx s) (s_ny s) (node_x s) (node_y s) m /\ contains (s_nx s) (s_ny s) f m) /\ field_size s f 2 /\
  smooth2 ripple /\ bounded_in_box r ripple (fun _ _ => 1) /\ near_samples r ripple (real_fields f) e e e /\
  bpow radix2 (-53) <= e <= / 4096 /\ moderate 1 /\ is_finite (s_dt s) = true /\ moderate (real (s_dt s)) /\
  1 * real (s_dt s) <= 1 /\ step_number 5 /\ (IZR 5 + 1) * real (s_dt s) <= 1 /\ 0 < 8 /\ 8 <= 32 /\ 8 * 1 <= 8 /\
  flow_near64 vortex_held vortex (s_Tp s) 1 e /\ graded_velocity 3 1 8 vortex (s_Tp r) /\
  let lo := IZR 5 * s_dt r in let hi := (IZR 5 + 1) * s_dt r in let E := origin_bound (s_rk3 s) (s_dt r) 1 8 + trace_factor (s_rk3 s) 8 * e * 1 in
  exists P Q, follows vortex (s_Tp r) lo hi P Q /\ P hi = node_x r 2 /\ Q hi = node_y r 1 /\
    inside (s_xlim1 r + E) (s_xlim2 r - E) (P lo) /\ inside (s_ylim1 r + E) (s_ylim2 r - E) (Q lo).
Proof.
  intros s r f e. destruct quarter_real as (E1 & E2 & E3 & E4 & E5 & E6). fold s r in E1, E2, E3, E4, E5, E6. destruct quarter_dx as (D1 & D2). fold s r in D1, D2.
  assert (Ed : real (s_dt s) = / 128) by exact E5.
  split. { split; [cbn; lia|]. split; [cbn; lia|]. rewrite E1, E2, E3, E4. lra. }
  split; [apply quarter_exact|]. split.
  { unfold box_within. change (real (s_xlim1 s)) with (s_xlim1 r). change (real (s_xlim2 s)) with (s_xlim2 r). change (real (s_ylim1 s)) with (s_ylim1 r). change (real (s_ylim2 s)) with (s_ylim2 r).
    rewrite E1, E2, E3, E4. lra. }
  split; [apply state_any|]. split.
  { split; [apply (moderate_int 2); lia|]. intros i j _ _. fold r. rewrite D1, D2. cbn [f ripple_held SpecRefRun.f_phi f_x f_y f_xy].
    pose proof (fun a b => near64_size (ripple a b (node_x r j) (node_y r i)) (ripple_bound a b _ _)) as N.
    destruct (N 0%nat 0%nat) as (F1 & N1), (N 1%nat 0%nat) as (F2 & N2), (N 0%nat 1%nat) as (F3 & N3), (N 1%nat 1%nat) as (F4 & N4).
    split; [exact F1|]. split; [exact F2|]. split; [exact F3|]. split; [exact F4|]. repeat split; lra. }
  split; [apply ripple_smooth|]. split; [intros i j u v _ _ _ _; apply ripple_bound|]. split.
  { intros i j _ _. cbn [f ripple_held real_fields SpecRefRun.f_phi f_x f_y f_xy]. repeat split; apply near64_ok, ripple_bound. }
  split. { unfold e. split; [apply bpow_le; lia|]. change (/ 4096) with (bpow radix2 (-12)). apply bpow_le. lia. }
  split; [apply (moderate_int 1); lia|]. split; [reflexivity|]. rewrite Ed.
  split. { split; [apply (bpow_le radix2 (-200) (-7)); lia|apply Rle_trans with 1; [lra|apply (bpow_le radix2 0 200); lia]]. }
  split; [lra|]. split; [split; lia|]. split; [lra|]. split; [lra|]. split; [lra|]. split; [lra|].
  split; [apply held_near; exact E6|].
  assert (G : forall n, graded_velocity n 1 8 vortex (s_Tp r)).
  { intros n. rewrite E6. apply vortex_graded; [pose proof PI_4; lra|]. pose proof PI_4. pose proof PI_RGT_0. replace (PI / 1) with PI by field. rewrite Rabs_pos_eq; lra. }
  split; [apply G|]. intros lo hi E. assert (Lh : lo <= hi) by (unfold lo, hi; rewrite E5; lra).
  destruct (one_through vortex (s_Tp r) 1 8 lo hi (node_x r 2) (node_y r 1) (G 1%nat) Lh) as (P & Q & HF & HP & HQ & HB & _).
  exists P, Q. split; [exact HF|]. split; [exact HP|]. split; [exact HQ|]. destruct (HB lo ltac:(lra)) as (B1 & B2).
  assert (HE : 0 <= E <= / 100).
  { assert (Q1 : 0 <= e <= / 1000000000). { unfold e. split; [apply bpow_ge_0|]. apply Rle_trans with (bpow radix2 (-30)); [apply bpow_le; lia|]. change (bpow radix2 (-30)) with (/ 1073741824). lra. }
    unfold E. change (s_rk3 s) with true. unfold trace_factor, origin_bound. rewrite E5. lra. }
  assert (HD : hi - lo = / 128) by (unfold hi, lo; rewrite E5; lra).
  rewrite HD in B1, B2. destruct (quarter_node 2) as (N2 & _). destruct (quarter_node 1) as (_ & N1). fold s r in N1, N2. rewrite N2 in B1. rewrite N1 in B2.
  apply abs_both in B1. apply abs_both in B2. unfold inside. rewrite E1, E2, E3, E4. lra.
Qed.

(** *** whole runs *)
Lemma zero_time (dt : b64) : is_finite dt = true -> 0 < real dt -> (#0)%num = time_at 0 dt.
Proof.
  destruct dt as [sg| | |sg mm e H]; cbn [is_finite]; try discriminate; intros _; unfold real; cbn [B2R]; [lra|].
  destruct sg; [|reflexivity]. intros P. exfalso. cbn [cond_Zopp] in P. unfold F2R in P. cbn [Fnum Fexp] in P. pose proof (bpow_gt_0 radix2 e).
  assert (IZR (Z.neg mm) < 0) by (apply IZR_lt; lia). assert (IZR (Z.neg mm) * bpow radix2 e < 0) by (rewrite <- (Rmult_0_l (bpow radix2 e)); apply Rmult_lt_compat_r; assumption).
  change (IZR (- Z.pos mm)) with (IZR (Z.neg mm)) in P. lra.
Qed.
Theorem run64 : forall (TG : Trig b64) whole (G : flow b64) (s : settings b64) n, proper (real_settings s) -> exact_grid s -> is_finite (s_dt s) = true -> 0 < real (s_dt s) ->
  step_count s = Ok n -> (0 < print_every s n)%Z -> let every := print_every s n in let x := node_x s in let y := node_y s in
  exists m out, main_ whole G s = Ok (m, out) /\ contains (s_nx s) (s_ny s) (after whole G s x y (Z.to_nat n) (initial x y)) m /\
    Z.of_nat (List.length out) = (1 + n / every)%Z /\
    forall b tm mm, nth_error out b = Some (tm, mm) -> let q := (Z.of_nat b * every)%Z in
      tm = time_at q (s_dt s) /\ contains (s_nx s) (s_ny s) (after whole G s x y (Z.to_nat q) (initial x y)) mm.
Proof.
  intros TG whole G s n HP HE HF Hd Hn He every x y. unfold main_. rewrite Hn. cbn [bind].
  assert (Bn : (0 <= n <= 4294967295)%Z).
  { revert Hn. unfold step_count. cbv zeta. match goal with |- context [if ?c then Ok ?k else _] => generalize k; intros k' end. destruct ((0 <=? k')%Z && (k' <=? 4294967295)%Z)%bool eqn:Q; [|discriminate].
    intros E. injection E as <-. lia. }
  destruct (ProofsRefMain.setup_ok s) as (m0 & R0 & A0 & B0 & _). rewrite R0. cbn [bind].
  change (ProofsRefMain.xs_of s) with x in A0, B0. change (ProofsRefMain.ys_of s) with y in A0, B0. fold every.
  change 0%Z with (Z.of_nat 0) at 1.
  destruct (ProofsRefMain.loop_blocks whole G s x y (initial x y) every) with (left := Z.to_nat n) (k := 0%nat) (m := m0) (out := [(nofZ 0 : b64, m0)])
    as (m1 & out & R1 & A1 & B1 & Len & Blk); auto.
  - intros k m Hm Hc. exact (step64 whole G s HP HE (Z.of_nat k) _ m Hm Hc).
  - lia.
  - intros [|b] tm mm; cbn [nth_error]; [|destruct b; discriminate]. intros E. injection E as <- <-.
    exists 0%nat. split; [reflexivity|]. split; [|exact B0]. apply zero_time; assumption.
  - exists m1, out. split; [exact R1|]. split; [exact B1|]. rewrite Nat.add_0_l, Z2Nat.id in Len by lia. split; [exact Len|].
    intros b tm mm Hb. destruct (Blk b tm mm Hb) as (q' & Q1 & Q2 & Q3). cbv zeta. rewrite <- Q1, Nat2Z.id. split; [exact Q2|exact Q3].
Qed.
Lemma run_case : proper (real_settings quarter) /\ exact_grid quarter /\ is_finite (s_dt quarter) = true /\ 0 < real (s_dt quarter) /\ step_count quarter = Ok 128%Z /\ print_every quarter 128 = 1%Z.
Proof.
  destruct quarter_case as (A & B & _). destruct quarter_real as (_ & _ & _ & _ & E & _). split; [exact A|]. split; [exact B|]. split; [reflexivity|].
  split. { change (real (s_dt quarter)) with (s_dt (real_settings quarter)). rewrite E. lra. }
  split; [vm_compute; reflexivity|reflexivity].
Qed.
