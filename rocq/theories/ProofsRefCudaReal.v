(** The CUDA program over the reals: cells, time steps, printed blocks, failures. *)
From Coq Require Import ZArith List Permutation Bool Lia String Reals Lra.
From Verif Require Import Base Num NumB64 ModelVec ModelRefMath ModelRefMem ModelRef ModelRefCuda SpecRefPar SpecRefRun SpecRefCuda
  ProofsBase ProofsGridProps ProofsRefMem ProofsRefPar ProofsRefRun ProofsRefUpd ProofsRefMix ProofsRefSearch ProofsRefStep ProofsRefMain ProofsRefReal ProofsRefKernel ProofsRefCudaRun ProofsRefCudaStep ProofsRefCudaMain.
Open Scope Z_scope.

Lemma lb_inside n x lo hi (v : R) : 2 <= n < 4294967296 -> sorted_nodes n x lo hi -> inside lo hi v -> 0 < lower_bound (map x (range 0 n)) v < n.
Proof.
  intros N (H0 & H1 & H) [V1 V2]. rewrite range_seq by lia.
  pose proof (lb_range x v (Z.to_nat n) 0) as B. cbv zeta in B.
  set (c := lower_bound _ v) in *. clearbody c. rewrite Z2Nat.id in B by lia.
  destruct B as (B1 & B2 & B3); [intros; apply H; lia|].
  assert (c <> 0). { intros ->. rewrite Z.add_0_l in B3. specialize (B3 ltac:(lia)). subst lo. lra. }
  assert (c <> n). { intros ->. specialize (B2 (n - 1) ltac:(lia)). subst hi. lra. }
  lia.
Qed.
Lemma searchable_R nx ny x1 x2 y1 y2 x y (xa ya : R) : 2 <= nx < 4294967296 -> 2 <= ny < 4294967296 ->
  sorted_nodes nx x x1 x2 -> sorted_nodes ny y y1 y2 -> searchable nx ny x1 x2 y1 y2 x y xa ya.
Proof.
  intros N1 N2 S1 S2. split; intros H; apply insideb in H; [apply (lb_inside nx x x1 x2)|apply (lb_inside ny y y1 y2)]; assumption.
Qed.
Lemma node_sorted s : proper s -> sorted_nodes (s_nx s) (xs_of s) (s_xlim1 s) (s_xlim2 s) /\ sorted_nodes (s_ny s) (ys_of s) (s_ylim1 s) (s_ylim2 s).
Proof. intros (N1 & N2 & L1 & L2). split; apply even_sorted; (lia || assumption). Qed.

Definition cell_of (F : flow R) (s : settings R) (t i j : Z) : Z * option (Z * Z) :=
  let p := back_trace F true (xs_of s j) (ys_of s i) t (s_dt s) (s_Tp s) in
  found (s_nx s) (s_ny s) (s_xlim1 s) (s_xlim2 s) (s_ylim1 s) (s_ylim2 s) (map (xs_of s) (range 0 (s_nx s))) (map (ys_of s) (range 0 (s_ny s))) (fst p) (snd p).
Lemma cells_fine F s t : proper s -> forall i j, 0 <= i < s_ny s -> 0 <= j < s_nx s ->
  let p := back_trace F true (xs_of s j) (ys_of s i) t (s_dt s) (s_Tp s) in
  searchable (s_nx s) (s_ny s) (s_xlim1 s) (s_xlim2 s) (s_ylim1 s) (s_ylim2 s) (xs_of s) (ys_of s) (fst p) (snd p) /\
  match snd (cell_of F s t i j) with Some c => 0 <= fst c < s_nx s - 1 /\ 0 <= snd c < s_ny s - 1 | None => fst (cell_of F s t i j) = 4 end.
Proof.
  intros P i j Hi Hj p. destruct (node_sorted s P) as [S1 S2]. destruct P as (N1 & N2 & _).
  split; [apply searchable_R; (lia || assumption)|]. unfold cell_of. fold p.
  pose proof (found_spec (s_nx s) (s_ny s) (xs_of s) (ys_of s) (s_xlim1 s) (s_xlim2 s) (s_ylim1 s) (s_ylim2 s) (fst p) (snd p) ltac:(lia) ltac:(lia) S1 S2) as (_ & _ & _ & _ & K).
  cbv zeta. destruct (snd (found _ _ _ _ _ _ _ _ _ _)) as [c|]; [|exact K].
  destruct K as (_ & (A & B & _) & (C & E & _)). lia.
Qed.
Lemma cell_none F s t i j : proper s -> snd (cell_of F s t i j) = None <-> past_corner F s t i j.
Proof.
  intros P. destruct (node_sorted s P) as [S1 S2]. destruct P as (N1 & N2 & _). unfold cell_of, past_corner. cbv zeta.
  change (node_x s j) with (xs_of s j). change (node_y s i) with (ys_of s i). set (p := back_trace _ _ _ _ _ _ _).
  pose proof (found_spec (s_nx s) (s_ny s) (xs_of s) (ys_of s) (s_xlim1 s) (s_xlim2 s) (s_ylim1 s) (s_ylim2 s) (fst p) (snd p) ltac:(lia) ltac:(lia) S1 S2) as (_ & _ & _ & K4 & K).
  destruct (snd (found _ _ _ _ _ _ _ _ _ _)) as [c|].
  - split; [discriminate|]. intros H. exfalso. destruct K as [K _]. apply K, K4, H.
  - split; [|reflexivity]. intros _. apply K4, K.
Qed.

(** one step *)
Lemma step_cuda_R F s tile t f m r : proper s -> indexable (s_nx s) (s_ny s) -> tiles tile (s_nx s) (s_ny s) ->
  (forall i j, 0 <= i < s_ny s -> 0 <= j < s_nx s -> ~ past_corner F s t i j) ->
  nodes_at (s_nx s) (s_ny s) (xs_of s) (ys_of s) m -> device_holds (s_nx s) (s_ny s) f m -> cuda_step F s tile t m r ->
  exists m', r = Ok m' /\ nodes_at (s_nx s) (s_ny s) (xs_of s) (ys_of s) m' /\ device_holds (s_nx s) (s_ny s) (next_cuda F s (xs_of s) (ys_of s) t f) m'.
Proof.
  intros P Hn Ht Hc Hnd Hf H. pose proof P as (N1 & N2 & _).
  destruct (cuda_step_next F s tile t (xs_of s) (ys_of s) ltac:(lia) ltac:(lia) Hn Ht (cells_fine F s t P) f m r) as (m' & E & A & B & _); auto.
  - intros i j Hi Hj K. apply (Hc i j Hi Hj). apply cell_none; assumption.
  - exists m'. auto.
Qed.
Lemma step_cuda_bad F s tile t f m r i j : proper s -> indexable (s_nx s) (s_ny s) -> tiles tile (s_nx s) (s_ny s) ->
  0 <= i < s_ny s -> 0 <= j < s_nx s -> past_corner F s t i j ->
  nodes_at (s_nx s) (s_ny s) (xs_of s) (ys_of s) m -> device_holds (s_nx s) (s_ny s) f m -> cuda_step F s tile t m r -> r = UB Uninitialised.
Proof.
  intros P Hn Ht Hi Hj Hc Hnd Hf H. pose proof P as (N1 & N2 & _).
  apply (cuda_step_undef F s tile t (xs_of s) (ys_of s) ltac:(lia) ltac:(lia) Hn Ht (cells_fine F s t P) f m r); auto.
  exists i, j. split; [exact Hi|]. split; [exact Hj|]. apply cell_none; assumption.
Qed.

(** printing *)
Lemma copy_back_prints (torn : option (val R) -> option (val R) -> option (val R)) nx ny f g f0 dev host : indexable nx ny ->
  device_holds nx ny f dev -> printed_cuda nx ny g f0 host -> printed_cuda nx ny f f0 (copy_back torn (gridcells nx ny) dev host).
Proof.
  intros Hn (_ & _ & _ & _ & A1 & A2 & A3) (_ & _ & B3 & B4). rewrite cells_small by exact Hn. unfold printed_cuda, holds, rows_of in *. cbv zeta in *.
  split; [|split; [|split]].
  - intros i j Hi Hj. pose proof (cell_in nx ny i j Hi Hj). cbn [copy_back]. replace ((0 <=? i * nx + j) && (i * nx + j <? nx * ny))%bool with true by lia. auto.
  - intros i j Hi Hj. pose proof (cell_in nx ny i j Hi Hj). cbn [copy_back]. replace ((0 <=? i * nx + j) && (i * nx + j <? nx * ny))%bool with true by lia. auto.
  - intros i j Hi Hj. cbn [copy_back]. auto.
  - intros i j Hi Hj. pose proof (cell_in nx ny i j Hi Hj). cbn [copy_back]. destruct (B4 i j Hi Hj) as [_ B5]. split; intros H1.
    + replace ((0 <=? i * nx + j) && (2 * (i * nx + j) + 2 <=? nx * ny))%bool with true by lia. auto.
    + replace ((0 <=? i * nx + j) && (2 * (i * nx + j) + 2 <=? nx * ny))%bool with false by lia.
      replace ((0 <=? i * nx + j) && (2 * (i * nx + j) + 1 =? nx * ny))%bool with false by lia. auto.
Qed.

(** counting printed blocks *)
Lemma blocks_div k every : 0 < every -> Z.of_nat (S k) / every = Z.of_nat k / every + (if Z.of_nat (S k) mod every =? 0 then 1 else 0).
Proof.
  intros He. destruct (Z.eqb_spec (Z.of_nat (S k) mod every) 0) as [E|E].
  - apply Z.mod_divide in E as [q E]; [|lia]. rewrite E. rewrite Z.div_mul by lia.
    replace (Z.of_nat k) with ((q - 1) * every + (every - 1)) by (rewrite Z.mul_sub_distr_r; lia). rewrite Z.div_add_l by lia. rewrite Z.div_small by lia. lia.
  - assert (0 < Z.of_nat (S k) mod every < every) by (pose proof (Z.mod_pos_bound (Z.of_nat (S k)) every He); lia).
    pose proof (Z.div_mod (Z.of_nat (S k)) every ltac:(lia)) as DM. rewrite Z.add_0_r.
    apply (Z.div_unique_pos (Z.of_nat k) every (Z.of_nat (S k) / every) (Z.of_nat (S k) mod every - 1)); lia.
Qed.
Definition blocks {A} (every : Z) (P : nat -> A -> Prop) (k : nat) (out : list A) : Prop :=
  Z.of_nat (length out) = 1 + Z.of_nat k / every /\
  forall n b, nth_error out n = Some b -> exists q, Z.of_nat q = Z.of_nat n * every /\ P q b.
Lemma blocks_push {A} every (P : nat -> A -> Prop) k out b : 0 < every -> Z.of_nat (S k) mod every = 0 -> blocks every P k out -> P (S k) b ->
  blocks every P (S k) (out ++ [b]).
Proof.
  intros He E [Hl Ho] Hb. pose proof (blocks_div k every He) as D. rewrite E in D. cbn [Z.eqb] in D. split.
  - rewrite app_length. cbn [length]. lia.
  - intros n b' H. destruct (Nat.lt_ge_cases n (length out)) as [L|L].
    + rewrite nth_error_app1 in H by exact L. eauto.
    + rewrite nth_error_app2 in H by exact L.
      assert (n = length out) as ->.
      { destruct (n - length out)%nat as [|n1] eqn:En; [lia|]. cbn in H. destruct n1; discriminate. }
      rewrite Nat.sub_diag in H. cbn in H. injection H as <-. exists (S k). split; [|exact Hb].
      rewrite Hl. apply Z.mod_divide in E as [q E]; [|lia]. rewrite E in D |- *. rewrite Z.div_mul in D by lia. replace (1 + Z.of_nat k / every) with q by lia. reflexivity.
Qed.
Lemma blocks_skip {A} every (P : nat -> A -> Prop) k out : 0 < every -> Z.of_nat (S k) mod every <> 0 -> blocks every P k out -> blocks every P (S k) out.
Proof.
  intros He E [Hl Ho]. split; [|exact Ho]. rewrite (blocks_div k every He). rewrite (proj2 (Z.eqb_neq _ _) E). lia.
Qed.

Section Loop.
Variables (torn : option (val R) -> option (val R) -> option (val R)) (F : flow R) (s : settings R) (tile : Z).
Let nx := s_nx s.
Let ny := s_ny s.
Let x := xs_of s.
Let y := ys_of s.
Hypothesis P : proper s.
Hypothesis Hn : indexable nx ny.
Hypothesis Ht : tiles tile nx ny.

Lemma loop_cuda f0 every n : 0 < every ->
  (forall k i j, 0 <= k < n -> 0 <= i < ny -> 0 <= j < nx -> ~ past_corner F s k i j) -> n < 4294967296 ->
  forall left k dev host out r, cuda_loop torn F s tile every (Z.of_nat k) left dev host out r ->
  Z.of_nat k + Z.of_nat left <= n ->
  nodes_at nx ny x y dev -> device_holds nx ny (after_cuda F s x y k f0) dev -> (exists g, printed_cuda nx ny g f0 host) ->
  blocks every (fun q b => fst b = time_at (Z.of_nat q) (s_dt s) /\ printed_cuda nx ny (after_cuda F s x y q f0) f0 (snd b)) k out ->
  exists dev' out', r = Ok (dev', out') /\ nodes_at nx ny x y dev' /\ device_holds nx ny (after_cuda F s x y (k + left) f0) dev' /\
    blocks every (fun q b => fst b = time_at (Z.of_nat q) (s_dt s) /\ printed_cuda nx ny (after_cuda F s x y q f0) f0 (snd b)) (k + left) out'.
Proof.
  intros He Hc Hb. induction left as [|left IH]; intros k dev host out r H B Hnd Hd [g Hp] Ho.
  - inversion H; subst. exists dev, out. rewrite Nat.add_0_r. auto.
  - assert (S1 : forall r1, cuda_step F s tile (Z.of_nat k) dev r1 -> exists dev', r1 = Ok dev' /\ nodes_at nx ny x y dev' /\
        device_holds nx ny (after_cuda F s x y (S k) f0) dev').
    { intros r1 H1. apply (step_cuda_R F s tile (Z.of_nat k) (after_cuda F s x y k f0) dev r1 P Hn Ht); auto.
      intros i j Hi Hj. apply Hc; (lia || assumption). }
    replace (k + S left)%nat with (S k + left)%nat by lia.
    inversion H as [|? ? ? ? ? e Hs|? ? ? dev' ? ? Hs He0|? ? ? dev' ? ? ? Hs He0 Hm ? Hl|? ? ? dev' ? ? ? Hs He0 Hm Hl]; subst.
    + destruct (S1 _ Hs) as (? & K & _). discriminate.
    + lia.
    + destruct (S1 _ Hs) as (d & K & A1 & A2). injection K as <-. rewrite u32_small in Hm by lia.
      replace (Z.of_nat k + 1) with (Z.of_nat (S k)) in * by lia.
      assert (Hp' : printed_cuda nx ny (after_cuda F s x y (S k) f0) f0 (copy_back torn (gridcells nx ny) dev' host)) by (eapply copy_back_prints; eauto).
      eapply IH in Hl; [exact Hl|lia|exact A1|exact A2|eauto|].
      apply blocks_push; auto.
    + destruct (S1 _ Hs) as (d & K & A1 & A2). injection K as <-. rewrite u32_small in Hm by lia.
      replace (Z.of_nat k + 1) with (Z.of_nat (S k)) in * by lia.
      eapply IH in Hl; [exact Hl|lia|exact A1|exact A2|eauto|]. apply blocks_skip; auto.
Qed.

(** the device after the initialising kernels *)
Lemma init_R m r : cuda_arrays s = Ok m -> launches (init_kernels s tile) m r ->
  exists dev, r = Ok dev /\ nodes_at nx ny x y dev /\ device_holds nx ny (initial x y) dev.
Proof.
  intros Hm Hr. destruct (cuda_arrays_ok s Hn) as (m0 & E & Hnd & Hu & _). rewrite E in Hm. injection Hm as <-.
  destruct (init_stage s tile x y m0 r Ht Hn Hnd) as (dev & -> & A1 & A2 & _); [|exact Hr|].
  { intros a i j Ha Hi Hj. rewrite Hu by assumption. congruence. }
  exists dev. split; [reflexivity|]. split; [exact A1|]. unfold device_holds, holds, rows_of in *. cbv zeta in *. fold nx ny in A2.
  assert (Q : forall i j, f_phi (init_fields x y) i j = f_phi (initial x y) i j).
  { intros i j. cbn [f_phi init_fields initial]. unfold init_dev, initialize. cbn [nadd nsub nofZ NumR]. cbn. ring. }
  destruct A2 as (B1 & B2 & B3 & B4 & B5 & B6 & B7). repeat split; intros i j Hi Hj; rewrite ?B1, ?B2, ?B3, ?B4, ?B5, ?B6, ?B7 by assumption; rewrite <- ?Q; reflexivity.
Qed.

Lemma main_cuda n r : 0 <= n < 4294967296 -> (IZR n <= s_Tfinal s / s_dt s < IZR n + 1)%R -> 0 < print_every s n \/ n = 0 ->
  (forall k i j, 0 <= k < n -> 0 <= i < ny -> 0 <= j < nx -> ~ past_corner F s k i j) ->
  cuda_main torn F s tile r ->
  exists dev out, r = Ok (dev, out) /\ device_holds nx ny (after_cuda F s x y (Z.to_nat n) (initial x y)) dev /\
    Z.of_nat (length out) = 1 + n / print_every s n /\
    forall b tm mm, nth_error out b = Some (tm, mm) -> let q := Z.of_nat b * print_every s n in
      tm = (IZR q * s_dt s)%R /\ printed_cuda nx ny (after_cuda F s x y (Z.to_nat q) (initial x y)) (initial x y) mm.
Proof.
  intros Bn Hq He Hc H. pose proof (step_count_R s n Bn Hq) as Hs. pose proof (proj1 Ht) as Ht1.
  destruct (host_setup_ok s Hn) as (host & Hh & Ph).
  inversion H as [e K|? K1 K2|n' m e K1 K2 K3 K4|n' e K1 K2 K3|n' m dev host' r' K1 K2 K3 K4 K5 K6]; subst.
  - congruence.
  - lia.
  - destruct (init_R m _ K3 K4) as (? & K & _). discriminate.
  - congruence.
  - rewrite Hs in K1. injection K1 as <-. rewrite Hh in K5. injection K5 as <-.
    destruct (init_R m _ K3 K4) as (d & K & A1 & A2). injection K as <-.
    destruct (Z.eq_dec n 0) as [->|N0].
    + inversion K6; subst. exists dev, [(nofZ 0, host)]. split; [reflexivity|]. split; [exact A2|]. cbn [length].
      split; [rewrite Zdiv_0_l; reflexivity|]. intros [|b] tm mm; cbn [nth_error]; [|destruct b; discriminate].
      intros E. injection E as <- <-. cbn. split; [cbn; lra|exact Ph].
    + assert (He' : 0 < print_every s n) by lia. set (every := print_every s n) in *. clearbody every.
      change 0 with (Z.of_nat 0) in K6 at 1.
      destruct (loop_cuda (initial x y) every n He' Hc (proj2 Bn) _ _ _ _ _ _ K6) as (dev' & out & -> & B1 & B2 & L & Blk); auto.
      * lia.
      * exists (initial x y). exact Ph.
      * split; [cbn [length Z.of_nat]; rewrite Zdiv_0_l; reflexivity|]. intros [|b] [tm mm]; cbn [nth_error]; [|destruct b; discriminate].
        intros E. injection E as <- <-. exists 0%nat. split; [lia|]. cbn [fst snd]. split; [|exact Ph]. rewrite time_at_num by lia. cbn. lra.
      * exists dev', out. split; [reflexivity|]. rewrite Nat.add_0_l in *. split; [exact B2|]. rewrite Z2Nat.id in L by lia. split; [exact L|].
        intros b tm mm Hb. destruct (Blk b _ Hb) as (q' & Q1 & Q2 & Q3). cbn [fst snd] in *. rewrite <- Q1, Nat2Z.id. split; [|exact Q3].
        rewrite Q2. apply time_at_num. split; [lia|].
        assert (Hlt : (b < length out)%nat) by (apply nth_error_Some; congruence).
        assert (Z.of_nat b <= n / every) by lia. assert (Z.of_nat b * every <= n / every * every) by (apply Z.mul_le_mono_nonneg_r; lia).
        pose proof (Z.mul_div_le n every ltac:(lia)). lia.
Qed.

(** a position beyond a corner in the first step *)
Lemma main_corner n r i j : 1 <= n < 4294967296 -> (IZR n <= s_Tfinal s / s_dt s < IZR n + 1)%R ->
  0 <= i < ny -> 0 <= j < nx -> past_corner F s 0 i j -> cuda_main torn F s tile r -> r = UB Uninitialised.
Proof.
  intros Bn Hq Hi Hj Hc H. pose proof (step_count_R s n ltac:(lia) Hq) as Hs. pose proof (proj1 Ht) as Ht1.
  destruct (host_setup_ok s Hn) as (host & Hh & Ph).
  inversion H as [e K|? K1 K2|n' m e K1 K2 K3 K4|n' e K1 K2 K3|n' m dev host' r' K1 K2 K3 K4 K5 K6]; subst.
  - congruence.
  - lia.
  - destruct (init_R m _ K3 K4) as (? & K & _). discriminate.
  - congruence.
  - rewrite Hs in K1. injection K1 as <-. destruct (init_R m _ K3 K4) as (d & K & A1 & A2). injection K as <-.
    destruct (Z.to_nat n) as [|n'] eqn:En; [lia|].
    assert (S1 : forall r1, cuda_step F s tile 0 dev r1 -> r1 = UB Uninitialised).
    { intros r1 H1. exact (step_cuda_bad F s tile 0 _ dev r1 i j P Hn Ht Hi Hj Hc A1 A2 H1). }
    inversion K6 as [|? ? ? ? ? e Hst|? ? ? dev' ? ? Hst He0|? ? ? dev' ? ? ? Hst He0 Hm ? Hl|? ? ? dev' ? ? ? Hst He0 Hm Hl]; subst;
      specialize (S1 _ Hst); congruence.
Qed.
End Loop.

(** there is an execution *)
Lemma loop_exists torn (F : flow R) s tile every left : forall t dev host out, exists r, cuda_loop torn F s tile every t left dev host out r.
Proof.
  induction left as [|left IH]; intros t dev host out; [eexists; constructor|].
  destruct (launches_execution (step_kernels F s tile t) (step_arrays (s_nx s) (s_ny s) dev)) as [r Hr].
  assert (C : (exists m1, r = Ok m1) \/ exists e, r = UB e) by (clear -Hr; induction Hr; eauto).
  destruct C as [[dev' ->]|[e ->]]; [|eexists; eapply loop_ub; exact Hr].
  destruct (Z.eq_dec every 0) as [E|E]; [eexists; eapply loop_zero; eauto|].
  destruct (Z.eq_dec (u32 (t + 1) mod every) 0) as [E2|E2].
  - edestruct IH as [r Hr2]. eexists. eapply loop_print; eauto.
  - edestruct IH as [r Hr2]. eexists. eapply loop_quiet; eauto.
Qed.
Lemma main_exists torn (F : flow R) s tile n : indexable (s_nx s) (s_ny s) -> 0 <= n < 4294967296 -> (IZR n <= s_Tfinal s / s_dt s < IZR n + 1)%R ->
  exists r, cuda_main torn F s tile r.
Proof.
  intros Hn Bn Hq. pose proof (step_count_R s n Bn Hq) as Hs. destruct (Z.eq_dec tile 0) as [->|T0]; [eexists; eapply main_tile; eauto|].
  destruct (cuda_arrays_ok s Hn) as (m & Hm & _). destruct (host_setup_ok s Hn) as (host & Hh & _).
  destruct (launches_execution (init_kernels s tile) m) as [r Hr].
  assert (C : (exists m1, r = Ok m1) \/ exists e, r = UB e) by (clear -Hr; induction Hr; eauto).
  destruct C as [[dev ->]|[e ->]]; [|eexists; eapply main_init; eauto].
  destruct (loop_exists torn F s tile (print_every s n) (Z.to_nat n) 0 dev host [(nofZ 0, host)]) as [r' Hr']. eexists. eapply main_run; eauto.
Qed.
