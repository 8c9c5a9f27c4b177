(** The CUDA program: tile sizes, corners, mixed derivatives, search, printed psi; instances. *)
From Coq Require Import ZArith List Permutation Bool Lia String Reals Lra.
From Verif Require Import Base Num NumB64 ModelVec ModelRefMath ModelRefMem ModelRef ModelRefCuda SpecRef SpecRefPar SpecRefRun SpecRefCuda
  ProofsBase ProofsGridProps ProofsRefMem ProofsRefPar ProofsRefRun ProofsRefUpd ProofsRefMix ProofsRefSearch ProofsRefStep ProofsRefMain ProofsRefReal
  ProofsRefHermite ProofsRefTrace ProofsRefExact ProofsRefFlows ProofsRefKernel ProofsRefCudaRun ProofsRefCudaStep ProofsRefCudaMain ProofsRefCudaReal.
Open Scope Z_scope.

(** *** launches *)
Lemma launch_once tile nx ny : tiles tile nx ny -> 0 <= nx < 4294967296 -> 0 <= ny < 4294967296 ->
  NoDup (launch tile nx ny) /\ forall i j, In (i, j) (launch tile nx ny) <-> 0 <= i < ny /\ 0 <= j < nx.
Proof.
  intros Ht Hx Hy. split; [apply launch_nodup; [apply Ht|assumption..]|]. intros i j.
  pose proof (launch_all tile nx ny Ht Hx Hy) as P. rewrite <- in_nodes. split; apply Permutation_in; [exact P|symmetry; exact P].
Qed.
Lemma launch_safe tile nx ny : 1 <= tile <= 32 -> indexable nx ny ->
  NoDup (launch tile nx ny) /\ forall i j, In (i, j) (launch tile nx ny) -> 0 <= i < ny /\ 0 <= j < nx.
Proof. intros Ht Hn. split; [apply launch_nodup; [exact Ht|apply Hn..]|]. intros i j. apply launch_bounds; assumption. Qed.
Lemma launch_none tile nx ny : 1 <= tile -> 0 <= nx -> 0 <= ny -> 32 < tile \/ nx < tile \/ ny < tile -> launch tile nx ny = [].
Proof.
  intros T1 Hx Hy H. unfold launch. destruct (Z.ltb_spec 1024 (tile * tile)); [reflexivity|].
  assert (tile <= 32) by nia. destruct H as [H|[H|H]]; [lia| |].
  - rewrite (Z.div_small nx tile) by lia. cbn [range Z.sub Z.to_nat seq map flat_map].
    induction (range 0 (ny / tile)) as [|b l IH]; [reflexivity|]. exact IH.
  - rewrite (Z.div_small ny tile) by lia. reflexivity.
Qed.

(** *** a tile size that does not divide *)
Section Uneven.
Context {T : Type} {NT : Num T} {TG : Trig T}.
Variables (F : flow T) (s : settings T) (tile : Z).
Let nx := s_nx s.
Let ny := s_ny s.
Hypothesis N1 : 3 <= nx.
Hypothesis N2 : 3 <= ny.
Hypothesis Hn : indexable nx ny.
Hypothesis Ht : 1 <= tile <= 32.
Hypothesis Tx : tile <= nx.
Hypothesis Ty : tile <= ny.

Lemma frame_kernel (body : Z * Z -> prog T) A B m m' : (forall a, existsb (arr_eqb a) A = true -> existsb (arr_eqb a) B = false) ->
  (forall ij, touches (own nx B ij) (of_arrs A) (body ij)) -> interleaved (map body (launch tile nx ny)) m (Ok m') ->
  forall a i j, ~ In (i, j) (launch tile nx ny) -> 0 <= i < ny -> 0 <= j < nx -> m' (a, i * nx + j, 0) = m (a, i * nx + j, 0).
Proof.
  intros Hd Hb Hi. destruct (kernel_frame nx ny (launch tile nx ny) body A B Hn) with (m := m) (r := Ok m') (m' := m') as [_ K]; auto.
  intros i j H. eapply launch_bounds; eauto.
Qed.
(** the initialising kernels *)
Lemma init_misses m dev : launches (init_kernels s tile) m (Ok dev) ->
  forall a i j, ~ In (i, j) (launch tile nx ny) -> 0 <= i < ny -> 0 <= j < nx -> dev (a, i * nx + j, 0) = m (a, i * nx + j, 0).
Proof.
  intros H a i j Hn' Hi Hj. unfold init_kernels in H. cbv zeta in H. fold nx ny in H.
  inversion H as [|? ? ? m1 ? K1 L1|]; subst. inversion L1 as [|? ? ? m2 ? K2 L2|]; subst. inversion L2; subst.
  rewrite (frame_kernel (fun ij => init_kernel nx ij Phi Psix Psiy Psixy) [AX1; AY1] [Phi; Psix; Psiy; Psixy] _ _ ltac:(intros []; cbn; congruence) ltac:(intros; apply init_kernel_touches) K2) by assumption.
  apply (frame_kernel (fun ij => init_kernel nx ij MPhi MPsix MPsiy MPsixy) [AX1; AY1] [MPhi; MPsix; MPsiy; MPsixy] _ _ ltac:(intros []; cbn; congruence) ltac:(intros; apply init_kernel_touches) K1); assumption.
Qed.
(** the first step *)
Lemma step_misses t m r : (exists i j, 0 <= i < ny /\ 0 <= j < nx /\ ~ In (i, j) (launch tile nx ny) /\
    exists i' j', In (i', j') (launch tile nx ny) /\
      forall m1 : mem T, m1 (Psix, i * nx + j, 0) = Some Undef -> m1 (Psiy, i * nx + j, 0) = Some Undef -> run (mixed_kernel nx ny (s_dx s) (s_dy s) (i', j')) m1 = UB Uninitialised) ->
  (forall i j, 0 <= i < ny -> 0 <= j < nx -> ~ In (i, j) (launch tile nx ny) -> m (Psix, i * nx + j, 0) = Some Undef /\ m (Psiy, i * nx + j, 0) = Some Undef) ->
  cuda_step F s tile t m r -> exists e, r = UB e.
Proof.
  intros (i & j & Hi & Hj & Hnin & i' & j' & Hin' & Hrun) Hu H.
  destruct (Hu i j Hi Hj Hnin) as [Ux Uy]. unfold cuda_step, step_kernels in H. cbv zeta in H. fold nx ny in H.
  set (m0 := step_arrays nx ny m) in *.
  assert (Ux0 : m0 (Psix, i * nx + j, 0) = Some Undef) by (unfold m0, step_arrays; rewrite malloc_other by reflexivity; exact Ux).
  assert (Uy0 : m0 (Psiy, i * nx + j, 0) = Some Undef) by (unfold m0, step_arrays; rewrite malloc_other by reflexivity; exact Uy).
  clearbody m0.
  inversion H as [|? ? ? m1 ? K1 L1|]; subst; [|eauto]. clear H.
  assert (Q1 : forall a, m1 (a, i * nx + j, 0) = m0 (a, i * nx + j, 0)).
  { intros a. apply (frame_kernel (adv_kernel F nx t (s_dt s) (s_Tp s)) [AX1; AY1] [Xadv; Yadv]); auto; [intros []; cbn; congruence|intros; apply adv_kernel_touches]. }
  inversion L1 as [|? ? ? m2 ? K2 L2|]; subst; [|eauto]. clear L1.
  assert (Q2 : forall a, m2 (a, i * nx + j, 0) = m1 (a, i * nx + j, 0)).
  { intros a. apply (frame_kernel (find_kernel nx ny (s_xlim1 s) (s_xlim2 s) (s_ylim1 s) (s_ylim2 s)) [AX1; AY1; Xadv; Yadv] [Tracker; Cellx; Celly]); auto; [intros []; cbn; congruence|intros; apply find_kernel_touches]. }
  inversion L2 as [|? ? ? m3 ? K3 L3|]; subst; [|eauto]. clear L2.
  assert (Q3 : forall a, m3 (a, i * nx + j, 0) = m2 (a, i * nx + j, 0)).
  { intros a. apply (frame_kernel (update_kernel F nx t (s_dt s) (s_Tp s)) [AX1; AY1; Xadv; Yadv; Cellx; Celly; Tracker; MPhi; MPsix; MPsiy; Psixy] [Phi; Psix; Psiy]); auto; [intros []; cbn; congruence|intros; apply update_kernel_touches]. }
  inversion L3 as [|? ? ? m4 ? K4 L4|]; subst; [|eauto]. clear L3.
  assert (Q4 : forall a, m4 (a, i * nx + j, 0) = m3 (a, i * nx + j, 0)).
  { intros a. apply (frame_kernel (copy_kernel nx) [Phi; Psix; Psiy] [MPhi; MPsix; MPsiy]); auto; [intros []; cbn; congruence|intros; apply copy_kernel_touches]. }
  assert (Bad : forall r', interleaved (map (mixed_kernel nx ny (s_dx s) (s_dy s)) (launch tile nx ny)) m4 r' -> exists e, r' = UB e).
  { intros r' K5. apply (kernel_bad nx ny (launch tile nx ny) (mixed_kernel nx ny (s_dx s) (s_dy s)) [Psix; Psiy] [Psixy] Hn) with (m := m4) (i := i') (j := j') (e := Uninitialised); auto.
    - apply launch_nodup; [exact Ht|apply Hn..].
    - intros; eapply launch_bounds; eauto.
    - intros []; cbn; congruence.
    - intros; apply mixed_kernel_touches.
    - apply Hrun; rewrite Q4, Q3, Q2, Q1; assumption. }
  inversion L4 as [|? ? ? m5 ? K5 L5|]; subst; [|eauto]. destruct (Bad _ K5) as [e E]. discriminate.
Qed.
Lemma uneven_node : ~ (tile | nx) \/ ~ (tile | ny) -> exists i j, 0 <= i < ny /\ 0 <= j < nx /\ ~ In (i, j) (launch tile nx ny) /\
    exists i' j', In (i', j') (launch tile nx ny) /\
      forall m1 : mem T, m1 (Psix, i * nx + j, 0) = Some Undef -> m1 (Psiy, i * nx + j, 0) = Some Undef -> run (mixed_kernel nx ny (s_dx s) (s_dy s) (i', j')) m1 = UB Uninitialised.
Proof.
  destruct Hn as (B1 & B2 & _). intros Hd.
  assert (Qx : 1 <= nx / tile) by (apply Z.div_le_lower_bound; lia). assert (Qy : 1 <= ny / tile) by (apply Z.div_le_lower_bound; lia).
  pose proof (Z.mul_div_le nx tile ltac:(lia)) as Lx. pose proof (Z.mul_div_le ny tile ltac:(lia)) as Ly.
  assert (tile <> 1). { intros ->. destruct Hd as [H|H]; apply H; apply Z.divide_1_l. }
  set (c := tile * (nx / tile)) in *. set (d := tile * (ny / tile)) in *.
  assert (2 <= c) by (unfold c; nia). assert (2 <= d) by (unfold d; nia).
  destruct Hd as [H'|H'].
  - assert (c <> nx) by (intros E; apply H'; exists (nx / tile); rewrite <- E at 1; unfold c; lia).
    exists 0, c. split; [lia|]. split; [lia|]. split; [rewrite launch_in by lia; fold c d; lia|].
    exists 0, (c - 1). split; [rewrite launch_in by lia; fold c d; lia|]. intros m1 _ U. apply mixed_undef_x; try assumption; try lia.
    replace (c - 1 + 1) with (0 * nx + c) by lia. exact U.
  - assert (d <> ny) by (intros E; apply H'; exists (ny / tile); rewrite <- E at 1; unfold d; lia).
    exists d, 0. split; [lia|]. split; [lia|]. split; [rewrite launch_in by lia; fold c d; lia|].
    exists (d - 1), 0. split; [rewrite launch_in by lia; fold c d; lia|]. intros m1 U _. apply mixed_undef_y; try assumption; try lia.
    replace ((d - 1 + 1) * nx) with (d * nx + 0) by lia. exact U.
Qed.
End Uneven.

Lemma main_uneven torn (F : flow R) s tile n r : proper s -> indexable (s_nx s) (s_ny s) -> 1 <= tile <= 32 -> tile <= s_nx s -> tile <= s_ny s ->
  ~ (tile | s_nx s) \/ ~ (tile | s_ny s) -> 1 <= n < 4294967296 -> (IZR n <= s_Tfinal s / s_dt s < IZR n + 1)%R ->
  cuda_main torn F s tile r -> exists e, r = UB e.
Proof.
  intros P Hn Ht Tx Ty Hd Bn Hq H. pose proof P as (N1 & N2 & _). pose proof (step_count_R s n ltac:(lia) Hq) as Hs.
  destruct (cuda_arrays_ok s Hn) as (m0 & Hm0 & _ & Hu & _).
  inversion H as [e K|? K1 K2|n' m e K1 K2 K3 K4|n' e K1 K2 K3|n' m dev host' r' K1 K2 K3 K4 K5 K6]; subst; try (eexists; reflexivity).
  rewrite Hs in K1. injection K1 as <-. rewrite Hm0 in K3. injection K3 as <-.
  destruct (Z.to_nat n) as [|k] eqn:En; [lia|].
  assert (S1 : forall r1, cuda_step F s tile 0 dev r1 -> exists e, r1 = UB e).
  { intros r1 H1. apply (step_misses F s tile Hn Ht 0 dev r1); [|intros i j Hi Hj Hnin|exact H1].
    - apply uneven_node; try assumption; lia.
    - rewrite !(init_misses s tile Hn Ht m0 dev K4) by assumption. split; apply Hu; (reflexivity || assumption). }
  inversion K6 as [|? ? ? ? ? e Hst|? ? ? dev' ? ? Hst He0|? ? ? dev' ? ? ? Hst He0 Hm ? Hl|? ? ? dev' ? ? ? Hst He0 Hm Hl]; subst;
    destruct (S1 _ Hst) as [e' E]; try discriminate; eauto.
Qed.

(** *** corners *)
Lemma vortex_corner s t : proper s -> unit_square s -> past_corner vortex s t 0 0.
Proof.
  intros P U. pose proof P as (N1 & N2 & _). destruct (wall_rests s 0 0 P U ltac:(lia) ltac:(lia) ltac:(auto)) as (Hr & Hx & Hy). cbv zeta in *.
  unfold past_corner. cbv zeta. rewrite (rest_trace vortex (s_Tp s) _ _ true t (s_dt s) Hr). cbn [fst snd].
  destruct U as (-> & -> & -> & ->). unfold inside. destruct (Hx (or_introl eq_refl)) as [-> | ->]; destruct (Hy (or_introl eq_refl)) as [-> | ->]; lra.
Qed.
Lemma constant_corner F s t u v : proper s -> velocity_is F (s_Tp s) (fun _ _ _ => u) (fun _ _ _ => v) -> (0 <= s_dt s)%R ->
  exists i j, 0 <= i < s_ny s /\ 0 <= j < s_nx s /\ past_corner F s t i j.
Proof.
  intros P HF Hdt. pose proof P as (N1 & N2 & _). destruct (node_sorted s P) as [(X0 & X1 & _) (Y0 & Y1 & _)].
  exists (if Rle_dec 0 v then 0 else s_ny s - 1), (if Rle_dec 0 u then 0 else s_nx s - 1).
  split; [destruct Rle_dec; lia|]. split; [destruct Rle_dec; lia|].
  unfold past_corner. cbv zeta. rewrite (trace_constant F (s_Tp s) u v) by exact HF. cbn [fst snd].
  change (node_x s) with (xs_of s). change (node_y s) with (ys_of s). unfold inside.
  split.
  - destruct (Rle_dec 0 u).
    + rewrite X0. assert (0 <= u * s_dt s)%R by (apply Rmult_le_pos; assumption). lra.
    + rewrite X1. assert (0 <= - u * s_dt s)%R by (apply Rmult_le_pos; lra). lra.
  - destruct (Rle_dec 0 v).
    + rewrite Y0. assert (0 <= v * s_dt s)%R by (apply Rmult_le_pos; assumption). lra.
    + rewrite Y1. assert (0 <= - v * s_dt s)%R by (apply Rmult_le_pos; lra). lra.
Qed.
Lemma main_vortex torn s tile n r : proper s -> indexable (s_nx s) (s_ny s) -> tiles tile (s_nx s) (s_ny s) -> unit_square s ->
  1 <= n < 4294967296 -> (IZR n <= s_Tfinal s / s_dt s < IZR n + 1)%R -> cuda_main torn vortex s tile r -> r = UB Uninitialised.
Proof.
  intros P Hn Ht U Bn Hq H. pose proof P as (N1 & N2 & _). apply (main_corner torn vortex s tile P Hn Ht n r 0 0); try lia; try assumption. apply vortex_corner; assumption.
Qed.
Lemma main_constant torn F s tile n u v r : proper s -> indexable (s_nx s) (s_ny s) -> tiles tile (s_nx s) (s_ny s) ->
  velocity_is F (s_Tp s) (fun _ _ _ => u) (fun _ _ _ => v) -> (0 <= s_dt s)%R ->
  1 <= n < 4294967296 -> (IZR n <= s_Tfinal s / s_dt s < IZR n + 1)%R -> cuda_main torn F s tile r -> r = UB Uninitialised.
Proof.
  intros P Hn Ht HF Hdt Bn Hq H. destruct (constant_corner F s 0 u v P HF Hdt) as (i & j & Hi & Hj & Hc). eapply main_corner; eauto.
Qed.

(** *** mixed derivatives *)
Lemma mixed_cuda_exact nx ny x0 y0 dx dy a b c (p q : R -> R) k l : 2 <= nx -> 2 <= ny -> 0 <= k < ny -> 0 <= l < nx -> dx <> 0%R -> dy <> 0%R ->
  let X := even_nodes x0 dx in let Y := even_nodes y0 dy in
  let px k l := (p (X l) + a * Y k + 2 * b * X l * Y k + c * Y k ^ 2)%R in
  let py k l := (q (Y k) + a * X l + b * X l ^ 2 + 2 * c * X l * Y k)%R in
  mixed_cuda nx ny dx dy px py k l = (a + 2 * b * X l + 2 * c * Y k +
    (if ((k =? ny - 1)%Z && (l =? 0)%Z)%bool then (px (ny - 1)%Z 1%Z - px (ny - 1)%Z 0%Z) / (4 * dy) else 0))%R.
Proof.
  intros N1 N2 Hk Hl Dx Dy X Y px py. pose proof (mixed_exact nx ny x0 y0 dx dy a b c p q k l N1 N2 Hk Hl Dx Dy) as E. cbv zeta in E. fold X Y in E.
  fold px py in E. unfold mixed_cuda. destruct ((k =? ny - 1) && (l =? 0))%bool eqn:B.
  - apply andb_prop in B as [B1 B2]. apply Z.eqb_eq in B1, B2. subst k l. rewrite <- E. unfold mixed_val.
    replace (ny - 1 =? 0) with false by lia. rewrite !Z.eqb_refl. cbv zeta. cbn [orb andb negb]. unfold comb, sx, sy. cbn [nadd nsub nmul ndiv nofZ NumR].
    field. auto.
  - rewrite E. ring.
Qed.
Lemma mixed_kernel_data nx ny tile x0 y0 dx dy a b c (p q : R -> R) m r : 2 <= nx -> 2 <= ny -> indexable nx ny -> tiles tile nx ny -> dx <> 0%R -> dy <> 0%R ->
  let X := even_nodes x0 dx in let Y := even_nodes y0 dy in
  let px k l := (p (X l) + a * Y k + 2 * b * X l * Y k + c * Y k ^ 2)%R in
  let py k l := (q (Y k) + a * X l + b * X l ^ 2 + 2 * c * X l * Y k)%R in
  holds Psix ny nx px (rows_of nx m) -> holds Psiy ny nx py (rows_of nx m) -> present Psixy ny nx (rows_of nx m) ->
  interleaved (map (mixed_kernel nx ny dx dy) (launch tile nx ny)) m r ->
  exists m', r = Ok m' /\ only_changes [Psixy] m m' /\
    (forall k l, 0 <= k < ny -> 0 <= l < nx -> rows_of nx m' (Psixy, k, l) = Some (D (a + 2 * b * X l + 2 * c * Y k +
      (if ((k =? ny - 1)%Z && (l =? 0)%Z)%bool then (px (ny - 1)%Z 1%Z - px (ny - 1)%Z 0%Z) / (4 * dy) else 0))%R)).
Proof.
  intros N1 N2 Hn Ht Dx Dy X Y px py Hx Hy Hp Hi.
  destruct (launch_once tile nx ny Ht (proj1 Hn) (proj1 (proj2 Hn))) as [Nd Il].
  destruct (kernel_result nx ny (launch tile nx ny) (mixed_kernel nx ny dx dy) [Psix; Psiy] [Psixy] Hn Nd) with (m := m)
    (fin := fun l : loc => match l with (_, k, l) => Some (D (mixed_cuda nx ny dx dy px py k l)) end) (r := r) as (m' & E & V & O & _); auto.
  - intros i j H. apply Il, H.
  - intros []; cbn; congruence.
  - intros; apply mixed_kernel_touches.
  - intros k l H. apply Il in H as [Hk Hl]. destruct (mixed_kernel_run nx ny Hn dx dy px py m k l N1 N2 Hk Hl Hx Hy Hp) as (m1 & R1 & V1).
    exists m1. split; [exact R1|]. intros []; cbn; try discriminate; intros _; exact V1.
  - exists m'. split; [exact E|]. split; [intros a0 i j Ha; apply O, Ha|]. intros k l Hk Hl. unfold rows_of.
    rewrite V by (apply Il || reflexivity; auto). f_equal. f_equal. apply mixed_cuda_exact; assumption.
Qed.
Lemma mixed_kernel_wrong nx ny tile x0 dx dy m r : 2 <= nx -> 2 <= ny -> indexable nx ny -> tiles tile nx ny -> dx <> 0%R -> dy <> 0%R ->
  let X := even_nodes x0 dx in
  holds Psix ny nx (fun _ l => 2 * X l)%R (rows_of nx m) -> holds Psiy ny nx (fun _ _ => 0)%R (rows_of nx m) -> present Psixy ny nx (rows_of nx m) ->
  interleaved (map (mixed_kernel nx ny dx dy) (launch tile nx ny)) m r ->
  exists m', r = Ok m' /\ rows_of nx m' (Psixy, ny - 1, 0) = Some (D (dx / (2 * dy))%R).
Proof.
  intros N1 N2 Hn Ht Dx Dy X Hx Hy Hp Hi.
  destruct (mixed_kernel_data nx ny tile x0 0 dx dy 0 0 0 (fun x => 2 * x)%R (fun _ => 0%R) m r N1 N2 Hn Ht Dx Dy) as (m' & E & _ & V); auto.
  - intros i j Hi' Hj'. rewrite (Hx i j Hi' Hj'). f_equal. f_equal. fold X. ring.
  - intros i j Hi' Hj'. rewrite (Hy i j Hi' Hj'). f_equal. f_equal. ring.
  - exists m'. split; [exact E|]. rewrite (V (ny - 1) 0) by lia. rewrite !Z.eqb_refl. cbn [andb]. f_equal. f_equal.
    fold X. replace (X 1) with (X 0%Z + dx)%R by (unfold X, even_nodes; cbn [nadd nmul nofZ NumR]; ring). field. exact Dy.
Qed.

(** *** the search *)
Lemma search_kernel nx ny tile (x y : Z -> R) x1 x2 y1 y2 xa ya m r : 2 <= nx -> 2 <= ny -> indexable nx ny -> tiles tile nx ny ->
  sorted_nodes nx x x1 x2 -> sorted_nodes ny y y1 y2 -> nodes_at nx ny x y m ->
  holds Xadv ny nx xa (rows_of nx m) -> holds Yadv ny nx ya (rows_of nx m) ->
  present Tracker ny nx (rows_of nx m) -> present Cellx ny nx (rows_of nx m) -> present Celly ny nx (rows_of nx m) ->
  interleaved (map (find_kernel nx ny x1 x2 y1 y2) (launch tile nx ny)) m r ->
  exists m', r = Ok m' /\ only_changes [Tracker; Cellx; Celly] m m' /\
    forall i j, 0 <= i < ny -> 0 <= j < nx -> exists tr, rows_of nx m' (Tracker, i, j) = Some (U tr) /\ tracks x1 x2 y1 y2 (xa i j) (ya i j) tr /\
      (tr <> 4 -> exists cx cy, rows_of nx m' (Cellx, i, j) = Some (U cx) /\ rows_of nx m' (Celly, i, j) = Some (U cy) /\
         cell_around nx x x1 x2 (xa i j) cx /\ cell_around ny y y1 y2 (ya i j) cy /\
         (inside x1 x2 (xa i j) -> cx = locate (map x (range 0 nx)) (xa i j)) /\
         (inside y1 y2 (ya i j) -> cy = locate (map y (range 0 ny)) (ya i j))) /\
      (tr = 4 -> rows_of nx m' (Cellx, i, j) = rows_of nx m (Cellx, i, j) /\ rows_of nx m' (Celly, i, j) = rows_of nx m (Celly, i, j)).
Proof.
  intros N1 N2 Hn Ht S1 S2 Hnd Hx Hy P1 P2 P3 Hi. destruct Hn as (B1 & B2 & B3) eqn:En. clear En. assert (Hn' : indexable nx ny) by exact (conj B1 (conj B2 B3)).
  destruct (launch_once tile nx ny Ht B1 B2) as [Nd Il].
  set (fnd i j := found nx ny x1 x2 y1 y2 (map x (range 0 nx)) (map y (range 0 ny)) (xa i j) (ya i j)).
  assert (FS : forall i j, let r := fnd i j in (fst r = 1 <-> inside x1 x2 (xa i j) /\ inside y1 y2 (ya i j)) /\ (fst r = 2 <-> inside x1 x2 (xa i j) /\ ~ inside y1 y2 (ya i j)) /\
    (fst r = 3 <-> ~ inside x1 x2 (xa i j) /\ inside y1 y2 (ya i j)) /\ (fst r = 4 <-> ~ inside x1 x2 (xa i j) /\ ~ inside y1 y2 (ya i j)) /\
    match snd r with Some c => fst r <> 4 /\ cell_around nx x x1 x2 (xa i j) (fst c) /\ cell_around ny y y1 y2 (ya i j) (snd c) | None => fst r = 4 end).
  { intros i j. apply found_spec; (lia || assumption). }
  destruct (kernel_result nx ny (launch tile nx ny) (find_kernel nx ny x1 x2 y1 y2) [AX1; AY1; Xadv; Yadv] [Tracker; Cellx; Celly] Hn' Nd) with (m := m)
    (fin := fun l : loc => match l with (a, i, j) => match a with Tracker => Some (U (fst (fnd i j)))
        | Cellx => match snd (fnd i j) with Some c => Some (U (fst c)) | None => m (Cellx, i * nx + j, 0) end
        | _ => match snd (fnd i j) with Some c => Some (U (snd c)) | None => m (Celly, i * nx + j, 0) end end end) (r := r) as (m' & E & V & O & _); auto.
  - intros i j H. apply Il, H.
  - intros []; cbn; congruence.
  - intros; apply find_kernel_touches.
  - intros i j H. apply Il in H as [Hi' Hj'].
    destruct (find_kernel_run nx ny Hn' x1 x2 y1 y2 x y (xa i j) (ya i j) m i j) as (m1 & R1 & V1 & V2); try assumption.
    + apply (Hx i j Hi' Hj').
    + apply (Hy i j Hi' Hj').
    + apply searchable_R; (lia || assumption).
    + exists m1. split; [exact R1|]. fold (fnd i j) in V1, V2. destruct (FS i j) as (_ & _ & _ & _ & K). destruct (snd (fnd i j)) as [c|].
      * destruct V2. intros []; cbn; try discriminate; intros _; assumption.
      * destruct (V2 K). intros []; cbn; try discriminate; intros _; assumption.
  - exists m'. split; [exact E|]. split; [intros a i j Ha; apply O, Ha|]. intros i j Hi' Hj'. exists (fst (fnd i j)). unfold rows_of.
    assert (Hin : In (i, j) (launch tile nx ny)) by (apply Il; auto).
    rewrite (V Tracker) by (assumption || reflexivity). split; [reflexivity|].
    rewrite (V Cellx), (V Celly) by (assumption || reflexivity). destruct (FS i j) as (F1 & F2 & F3 & F4 & F5). split; [|split].
    + unfold tracks. assert (D : forall lo hi v, inside lo hi v \/ ~ inside lo hi v).
      { intros lo hi v. unfold inside. destruct (Rlt_dec lo v); destruct (Rlt_dec v hi); intuition. }
      destruct (D x1 x2 (xa i j)), (D y1 y2 (ya i j)); tauto.
    + intros N4. destruct (snd (fnd i j)) as [c|] eqn:Ec; [|congruence]. destruct F5 as (_ & C1 & C2). exists (fst c), (snd c).
      split; [reflexivity|]. split; [reflexivity|]. split; [exact C1|]. split; [exact C2|].
      revert Ec. unfold fnd, found. cbv zeta. split; intros In_; apply insideb in In_; rewrite In_ in Ec.
      * destruct ((y1 <? ya i j) && (ya i j <? y2))%num%bool; cbn [snd] in Ec; [injection Ec as <-; reflexivity|].
        destruct (ya i j <=? y1)%num; [injection Ec as <-; reflexivity|]. destruct (y2 <=? ya i j)%num; [injection Ec as <-; reflexivity|discriminate].
      * destruct ((x1 <? xa i j) && (xa i j <? x2))%num%bool; cbn [snd] in Ec; [injection Ec as <-; reflexivity|].
        destruct (xa i j <=? x1)%num; [injection Ec as <-; reflexivity|]. destruct (x2 <=? xa i j)%num; [injection Ec as <-; reflexivity|discriminate].
    + intros E4. destruct (snd (fnd i j)) as [c|]; [|auto]. destruct F5. congruence.
Qed.

(** *** printed data *)
Definition shrink_flow : flow R := let l t := (6 * t - 4 * t * t)%R in
  mkFlow (fun x _ t _ => l t * (x - 1 / 2))%R (fun _ y t _ => l t * (y - 3 / 4))%R
    (fun _ _ t _ => l t) (fun _ _ _ _ => 0%R) (fun _ _ _ _ => 0%R) (fun _ _ t _ => l t).
Definition cuda_case : settings R := mkSet 0%R 1%R 4 0%R 1%R 4 1%R 1%R 1%R 0 1 "SuperConsistent" "RK3".
Lemma shrink_true Tp : true_gradients shrink_flow Tp.
Proof.
  intros x y t. cbn [shrink_flow Velx Vely gradUx gradUy gradVx gradVy]. set (k := (6 * t - 4 * t * t)%R). split.
  - apply (d_ext (fun u v => k * u + 0 * v + - (k / 2))%R); [intros; field|apply d_lin].
  - apply (d_ext (fun u v => 0 * u + k * v + - (3 * k / 4))%R); [intros; field|apply d_lin].
Qed.
Lemma shrink_trace x y Tp : back_trace shrink_flow true x y 0 1%R Tp = (1 / 2, 3 / 4)%R.
Proof.
  unfold back_trace, third_back, second_back, euler_back, time_mid. cbv zeta. rewrite !time_at_num by lia. cbn [shrink_flow Velx Vely fst snd].
  cbn [nadd nsub nmul ndiv nofZ NumR Z.add]. f_equal; field.
Qed.
Lemma shrink_factors x y rx ry Tp : SuperConsistentScheme shrink_flow true x y rx ry 0 1%R Tp = (0, 0)%R.
Proof.
  unfold SuperConsistentScheme, time_mid. cbv zeta. rewrite !time_at_num by lia. cbn [shrink_flow gradUx gradUy gradVx gradVy].
  cbn [nadd nsub nmul ndiv nofZ NumR Z.add]. f_equal; field.
Qed.
Lemma cuda_case_ok : proper cuda_case /\ unit_square cuda_case /\ indexable (s_nx cuda_case) (s_ny cuda_case) /\ tiles 2 (s_nx cuda_case) (s_ny cuda_case) /\
  (IZR 1 <= s_Tfinal cuda_case / s_dt cuda_case < IZR 1 + 1)%R /\ print_every cuda_case 1 = 1.
Proof.
  unfold proper, unit_square, indexable, tiles, cuda_case. cbn. repeat split; try lia; try lra; try (exists 2; reflexivity); field_simplify; lra.
Qed.
Lemma shrink_inside i j : ~ past_corner shrink_flow cuda_case 0 i j.
Proof.
  unfold past_corner. cbv zeta. change (s_dt cuda_case) with 1%R. rewrite shrink_trace. cbn [fst snd cuda_case s_xlim1 s_xlim2 s_ylim1 s_ylim2]. unfold inside. intros [H _]. apply H. lra.
Qed.
Lemma shrink_next f i j : let g := next_cuda shrink_flow cuda_case (xs_of cuda_case) (ys_of cuda_case) 0 f in
  f_x g i j = 0%R /\ f_y g i j = 0%R /\ f_xy g 0 0 = 0%R.
Proof.
  assert (N : forall k l, let n := new_node true shrink_flow (compiled cuda_case) (xs_of cuda_case) (ys_of cuda_case) 0 f k l in snd (fst n) = 0%R /\ snd n = 0%R).
  { intros k l. unfold new_node, where_, foot. cbv zeta. cbn [orb]. change (s_rk3 (compiled cuda_case)) with true. change (s_dt (compiled cuda_case)) with 1%R.
    rewrite shrink_trace. cbn [fst snd]. set (fn := found _ _ _ _ _ _ _ _ _ _).
    assert (E : fst fn = 1).
    { unfold fn, found. cbv zeta. cbn [compiled cuda_case s_xlim1 s_xlim2 s_ylim1 s_ylim2].
      rewrite (proj2 (insideb 0 1 (1 / 2))%R), (proj2 (insideb 0 1 (3 / 4))%R) by (unfold inside; lra). reflexivity. }
    rewrite E. unfold updated. cbv zeta. cbn [compiled s_psischeme String.eqb Ascii.eqb Bool.eqb]. cbn [fst snd].
    rewrite shrink_factors. auto. }
  cbv zeta. unfold next_cuda, next. cbv zeta. cbn [f_x f_y f_xy]. split; [apply N|]. split; [apply N|].
  unfold mixed_cuda, mixed_val, comb, sx, sy. cbv zeta. cbn [cuda_case s_nx s_ny Z.sub Z.eqb Z.add Z.opp Pos.sub Pos.pred_double Z.pos_sub Pos.eqb andb orb negb].
  cbv beta. rewrite !(fun k l => proj1 (N k l)), !(fun k l => proj2 (N k l)). cbn [nadd nsub nmul ndiv nofZ NumR].
  unfold Rdiv. ring.
Qed.
Lemma shrink_main torn r : cuda_main torn shrink_flow cuda_case 2 r -> exists dev out host, r = Ok (dev, out) /\ nth_error out 1 = Some (1%R, host) /\
  dev (Psixy, 0, 0) = Some (D 0%R) /\ (exists v, host (MPsixy, 0, 0) = Some (D v) /\ v <> 0%R) /\
  dev (Psiy, 15, 0) = Some (D 0%R) /\ (exists v, host (MPsiy, 15, 0) = Some (D v) /\ v <> 0%R).
Proof.
  intros H. destruct cuda_case_ok as (P & _ & Hn & Ht & Hq & He).
  destruct (main_cuda torn shrink_flow cuda_case 2 P Hn Ht 1 r ltac:(lia) Hq) as (dev & out & -> & Hd & Hl & Hb); [rewrite He; lia| |exact H|].
  { intros k i j Hk _ _. replace k with 0 by lia. apply shrink_inside. }
  rewrite He in Hl, Hb. change (1 + 1 / 1) with 2 in Hl. set (f0 := initial (xs_of cuda_case) (ys_of cuda_case)) in *.
  destruct (nth_error out 1) as [[tm host]|] eqn:En.
  2:{ exfalso. apply nth_error_None in En. lia. }
  destruct (Hb 1%nat tm host En) as [E1 Hp]. change (Z.of_nat 1 * 1) with 1 in *.
  exists dev, out, host. split; [reflexivity|]. split; [rewrite En, E1; f_equal; f_equal; cbn; lra|].
  change (Z.to_nat 1) with 1%nat in *. cbn [after_cuda] in Hd, Hp. change (Z.of_nat 0) with 0 in Hd, Hp. cbn [s_nx s_ny cuda_case] in Hd, Hp. fold cuda_case in Hd, Hp.
  destruct (shrink_next f0 3 3) as (_ & Z1 & Z2). cbv zeta in Z1, Z2.
  destruct Hd as (_ & _ & D3 & D4 & _). destruct Hp as (_ & _ & P3 & P4). cbv zeta in *.
  split; [|split; [|split]].
  - specialize (D4 0 0 ltac:(lia) ltac:(lia)). unfold rows_of in D4. rewrite Z2 in D4. exact D4.
  - specialize (P3 0 0 ltac:(lia) ltac:(lia)). eexists. split; [exact P3|]. unfold f0, initial. cbn [f_xy]. unfold derivxyinit.
    replace (ys_of cuda_case 0) with 0%R by (unfold ys_of, even_nodes; cbn; ring). replace (xs_of cuda_case 0) with 0%R by (unfold xs_of, even_nodes; cbn; ring).
    unfold bump, init_xo, init_yo. cbn [nadd nsub nmul ndiv nofZ NumR nexp TrigR]. apply Rgt_not_eq. 
    match goal with |- (?a * exp ?e > 0)%R => pose proof (exp_pos e); assert (a = 3 / 2)%R as -> by field; lra end.
  - specialize (D3 3 3 ltac:(lia) ltac:(lia)). unfold rows_of in D3. rewrite Z1 in D3. exact D3.
  - destruct (P4 3 3 ltac:(lia) ltac:(lia)) as [_ K]. specialize (K ltac:(lia)). eexists. split; [exact K|]. unfold f0, initial. cbn [f_y]. unfold derivyinit.
    replace (ys_of cuda_case 3) with 1%R by (unfold ys_of, even_nodes, s_dy; cbn; field).
    unfold bump, init_xo, init_yo. cbn [nadd nsub nmul ndiv nofZ NumR nexp TrigR]. apply Rlt_not_eq.
    match goal with |- (?a * exp ?e < 0)%R => pose proof (exp_pos e); assert (a = - (1 / 2))%R as -> by field; lra end.
Qed.

(** *** binary64: the last node computed lies below the limit *)
Definition round_case : settings b64 := let z := b64_make in
  mkSet (z (-1) 0) (z 1 0) 50 (z (-1) 0) (z 1 0) 50 (z 1 0) (z 1 0) (z 1 0) 0 1 "SuperConsistent" "RK3".
(** 1 - 2^-53, the double before 1 *)
Definition before_one : b64 := b64_make 9007199254740991 (-53).
Lemma rounding_gap : let s := round_case in let v := before_one in
  (s_xlim1 s <? v)%num = true /\ (v <? s_xlim2 s)%num = true /\ (node_x s 49 <? v)%num = true /\ locate (map (node_x s) (range 0 50)) v = 49.
Proof. vm_compute. auto. Qed.
Lemma rounding_past m k : nodes_at 50 50 (node_x round_case) (node_y round_case) m -> m (AX1, 50, 0) = None ->
  run (locationAlgo AX1 before_one 50 k) m = UB OutOfBounds.
Proof.
  intros [Hx _] Ho. apply (run_location_past AX1 before_one 50 (node_x round_case)); [lia| |exact Hx|exact Ho].
  intros i Hi. assert (In i (range 0 50)) by (apply in_range; lia).
  assert (A : forallb (fun i => (node_x round_case i <? before_one)%num) (range 0 50) = true) by (vm_compute; reflexivity).
  rewrite forallb_forall in A. apply A. assumption.
Qed.
