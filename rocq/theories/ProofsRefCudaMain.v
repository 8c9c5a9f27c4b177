(** The CUDA program: kernels against their serial loops, initial state, time loop. *)
From Coq Require Import ZArith List Permutation Bool Lia String Reals Lra.
From Verif Require Import Base Num NumB64 ModelVec ModelRefMath ModelRefMem ModelRef ModelRefCuda SpecRefPar SpecRefRun SpecRefCuda
  ProofsBase ProofsGridProps ProofsRefMem ProofsRefPar ProofsRefRun ProofsRefUpd ProofsRefMix ProofsRefSearch ProofsRefStep ProofsRefMain ProofsRefReal ProofsRefKernel ProofsRefCudaRun ProofsRefCudaStep.
Open Scope Z_scope.

(** a kernel whose threads write apart, run in any order, ends like its serial loop *)
Section Serial.
Context {T I : Type}.
Variables (body : I -> prog T) (W : I -> loc -> bool) (R : loc -> bool).
Hypothesis Hbody : forall i, touches (W i) R (body i).
Hypothesis HR : forall i l, R l = true -> W i l = false.
Lemma kernel_serial is m m' : separate W is -> runs (map body is) m = Ok m' ->
  (forall r, interleaved (map body is) m r -> same_result r (Ok m')) /\ ~ data_race (map body is) m.
Proof.
  intros Hs Hr. destruct (serial_alone body W R Hbody HR is m m' Hs Hr) as [Ha Hf].
  set (ts := map (fun i => mkThr (body i) (W i) m') is).
  assert (E : map body is = map th_p ts) by (unfold ts; rewrite map_map; reflexivity).
  assert (F1 : Forall (fine R m) ts).
  { unfold ts. rewrite Forall_map, Forall_forall. intros i Hi. split; [apply Hbody|]. split; [intros l Hl; eapply HR; eauto|apply Ha; exact Hi]. }
  assert (F2 : ForallOrdPairs apart ts).
  { unfold ts. clear -Hs. induction Hs as [|i is H1 H2 IH]; cbn [map]; constructor; [|exact IH]. rewrite Forall_map. eapply Forall_impl; [|exact H1]. cbn. auto. }
  split.
  - intros r Hi. rewrite E in Hi. destruct (interleaved_fine R _ _ _ Hi _ eq_refl F1 F2) as (m2 & -> & I1 & I2).
    exists m2, m'. repeat split. intros l. destruct (anyW W is l) eqn:Ea.
    + apply existsb_exists in Ea as (i & Hin & Hl). rewrite (I1 (mkThr (body i) (W i) m') l); [reflexivity| |exact Hl].
      unfold ts. apply in_map_iff. eauto.
    + rewrite I2; [symmetry; apply Hf, Ea|]. intros u Hu. unfold ts in Hu. apply in_map_iff in Hu as (i & <- & Hin). cbn.
      destruct (W i l) eqn:El; [|reflexivity]. rewrite <- Ea. symmetry. eapply anyW_in; eauto.
  - intros (qs & n & Hreach & Hc). rewrite E in Hreach.
    destruct (reaches_fine R _ _ _ _ Hreach _ eq_refl F1 F2) as (us & -> & G1 & G2). exact (no_conflict R us n G1 G2 Hc).
Qed.
End Serial.

Section Main.
Context {T : Type} {NT : Num T}.
Implicit Types (m : mem T).

(** every kernel of a time step, whatever the tile size *)
Lemma launch_bounds tile nx ny i j : 1 <= tile <= 32 -> indexable nx ny -> In (i, j) (launch tile nx ny) -> 0 <= i < ny /\ 0 <= j < nx.
Proof.
  intros Ht (B1 & B2 & _) H. apply launch_in in H; [|assumption..].
  pose proof (Z.mul_div_le nx tile ltac:(lia)). pose proof (Z.mul_div_le ny tile ltac:(lia)). lia.
Qed.
Lemma own_separate tile nx ny B : 1 <= tile <= 32 -> indexable nx ny -> separate (own nx B) (launch tile nx ny).
Proof.
  intros Ht Hn. pose proof (launch_nodup tile nx ny Ht (proj1 Hn) (proj1 (proj2 Hn))) as N.
  assert (Hin : forall i j, In (i, j) (launch tile nx ny) -> 0 <= i < ny /\ 0 <= j < nx) by (intros; eapply launch_bounds; eauto).
  pose proof (fun ij ij' l => own_apart nx ny (launch tile nx ny) B Hn Hin ij ij' l) as A.
  set (is := launch tile nx ny) in *. clearbody is. unfold separate.
  assert (G : forall js, (forall i, In i js -> In i is) -> NoDup js -> ForallOrdPairs (fun i j => forall l, own nx B i l = true -> own nx B j l = false) js).
  { induction js as [|i js IH]; intros Hs Hd; constructor.
    - inversion Hd; subst. rewrite Forall_forall. intros j Hj l. apply A; [apply Hs; left; reflexivity|apply Hs; right; exact Hj|congruence].
    - inversion Hd; subst. apply IH; [|assumption]. intros; apply Hs; right; assumption. }
  apply G; auto.
Qed.
Lemma step_kernels_serial (F : flow T) (s : settings T) tile t k m m' : 1 <= tile <= 32 -> indexable (s_nx s) (s_ny s) ->
  In k (step_kernels F s tile t) -> runs k m = Ok m' ->
  (forall r, interleaved k m r -> same_result r (Ok m')) /\ ~ data_race k m.
Proof.
  intros Ht Hn Hk Hr. unfold step_kernels in Hk. cbv zeta in Hk. cbn [In] in Hk.
  destruct Hk as [<-|[<-|[<-|[<-|[<-|[]]]]]].
  - apply (kernel_serial _ (own (s_nx s) [Xadv; Yadv]) (of_arrs [AX1; AY1])); auto using own_separate.
    + intros; apply adv_kernel_touches.
    + intros i l. apply foot_apart. intros []; cbn; congruence.
  - apply (kernel_serial _ (own (s_nx s) [Tracker; Cellx; Celly]) (of_arrs [AX1; AY1; Xadv; Yadv])); auto using own_separate.
    + intros; apply find_kernel_touches.
    + intros i l. apply foot_apart. intros []; cbn; congruence.
  - apply (kernel_serial _ (own (s_nx s) [Phi; Psix; Psiy]) (of_arrs [AX1; AY1; Xadv; Yadv; Cellx; Celly; Tracker; MPhi; MPsix; MPsiy; Psixy])); auto using own_separate.
    + intros; apply update_kernel_touches.
    + intros i l. apply foot_apart. intros []; cbn; congruence.
  - apply (kernel_serial _ (own (s_nx s) [MPhi; MPsix; MPsiy]) (of_arrs [Phi; Psix; Psiy])); auto using own_separate.
    + intros; apply copy_kernel_touches.
    + intros i l. apply foot_apart. intros []; cbn; congruence.
  - apply (kernel_serial _ (own (s_nx s) [Psixy]) (of_arrs [Psix; Psiy])); auto using own_separate.
    + intros; apply mixed_kernel_touches.
    + intros i l. apply foot_apart. intros []; cbn; congruence.
Qed.

(** the node coordinates *)
Lemma gridnodes_ok (s : settings T) : exists m, gridnodes (s_xlim1 s) (s_ylim1 s) (s_dx s) (s_dy s) (s_nx s) (s_ny s) (fun _ => None) = Ok m /\
  nodes_at (s_nx s) (s_ny s) (xs_of s) (ys_of s) m /\
  (forall i, s_nx s <= i -> m (AX1, i, 0) = None) /\ (forall i, s_ny s <= i -> m (AY1, i, 0) = None).
Proof.
  unfold gridnodes. set (nx := s_nx s). set (ny := s_ny s).
  set (m0 := alloc AY1 ny 1 (D (nofZ 0)) (alloc AX1 nx 1 (D (nofZ 0)) (fun _ => None : option (val T)))).
  destruct (set_loop AX1 (s_xlim1 s) (s_dx s) nx m0) as (m1 & R1 & V1).
  { intros i Hi. unfold m0. rewrite alloc_other by reflexivity. rewrite alloc_in by lia. congruence. }
  rewrite R1. cbn [bind].
  destruct (set_loop AY1 (s_ylim1 s) (s_dy s) ny m1) as (m2 & R2 & V2).
  { intros i Hi. rewrite V1. cbn [arr_eqb andb]. unfold m0. rewrite alloc_in by lia. congruence. }
  rewrite R2. exists m2. split; [reflexivity|]. split; [split|split].
  - intros j Hj. rewrite V2. cbn [arr_eqb andb]. rewrite V1. cbn [arr_eqb andb]. replace ((0 <=? j) && (j <? nx))%bool with true by lia. reflexivity.
  - intros j Hj. rewrite V2. cbn [arr_eqb andb]. replace ((0 <=? j) && (j <? ny))%bool with true by lia. reflexivity.
  - intros i Hi. rewrite V2. cbn [arr_eqb andb]. rewrite V1. cbn [arr_eqb andb]. replace ((0 <=? i) && (i <? nx))%bool with false by lia. cbn [andb].
    unfold m0. rewrite alloc_other by reflexivity. cbn [alloc arr_eqb]. replace ((0 <=? i) && (i <? nx))%bool with false by lia. reflexivity.
  - intros i Hi. rewrite V2. cbn [arr_eqb andb]. replace ((0 <=? i) && (i <? ny))%bool with false by lia. cbn [andb].
    rewrite V1. cbn [arr_eqb andb]. unfold m0. cbn [alloc arr_eqb]. replace ((0 <=? i) && (i <? ny))%bool with false by lia. reflexivity.
Qed.

Lemma cells_small nx ny : indexable nx ny -> gridcells nx ny = nx * ny.
Proof. intros (B1 & B2 & B3). unfold gridcells. apply u32_small. nia. Qed.
Lemma cell_in nx ny i j : 0 <= i < ny -> 0 <= j < nx -> 0 <= i * nx + j < nx * ny.
Proof. intros. split; nia. Qed.

(** the device before the initialising kernels *)
Definition dev_arrs : list arr := [MPhi; MPsix; MPsiy; MPsixy; Phi; Psix; Psiy; Psixy].
Lemma cuda_arrays_ok (s : settings T) : indexable (s_nx s) (s_ny s) -> exists m, cuda_arrays s = Ok m /\
  nodes_at (s_nx s) (s_ny s) (xs_of s) (ys_of s) m /\
  (forall a i j, existsb (arr_eqb a) dev_arrs = true -> 0 <= i < s_ny s -> 0 <= j < s_nx s -> m (a, i * s_nx s + j, 0) = Some Undef) /\
  (forall i, s_nx s <= i -> m (AX1, i, 0) = None) /\ (forall i, s_ny s <= i -> m (AY1, i, 0) = None).
Proof.
  intros Hn. unfold cuda_arrays. destruct (gridnodes_ok s) as (m & -> & [Hx Hy] & Ox & Oy). cbn [bind].
  eexists; split; [reflexivity|]. split; [split|split; [|split]].
  - intros. rewrite malloc_other by reflexivity. auto.
  - intros. rewrite malloc_other by reflexivity. auto.
  - intros a i j Ha Hi Hj. rewrite cells_small by exact Hn. apply malloc_in; [exact Ha|apply cell_in; assumption].
  - intros. rewrite malloc_other by reflexivity. auto.
  - intros. rewrite malloc_other by reflexivity. auto.
Qed.

Definition init_fields {TG : Trig T} (x y : Z -> T) : fields T :=
  mkFields (fun i j => init_dev (x j) (y i)) (fun i j => derivxinit (x j) (y i)) (fun i j => derivyinit (x j) (y i)) (fun i j => derivxyinit (x j) (y i)).
Lemma init_stage {TG : Trig T} (s : settings T) tile x y m r : tiles tile (s_nx s) (s_ny s) -> indexable (s_nx s) (s_ny s) ->
  nodes_at (s_nx s) (s_ny s) x y m ->
  (forall a i j, existsb (arr_eqb a) dev_arrs = true -> 0 <= i < s_ny s -> 0 <= j < s_nx s -> m (a, i * s_nx s + j, 0) <> None) ->
  launches (init_kernels s tile) m r ->
  exists dev, r = Ok dev /\ nodes_at (s_nx s) (s_ny s) x y dev /\ device_holds (s_nx s) (s_ny s) (init_fields x y) dev /\
    (forall a i j, existsb (arr_eqb a) dev_arrs = false -> dev (a, i, j) = m (a, i, j)).
Proof.
  set (nx := s_nx s). set (ny := s_ny s). intros Ht Hn [Hx Hy] Hp H. unfold init_kernels in H. cbv zeta in H. fold nx ny in H.
  set (fin (p px py pxy : arr) (l : loc) := match l with (a, i, j) => Some (D (
    if arr_eqb a p then f_phi (init_fields x y) i j else if arr_eqb a px then f_x (init_fields x y) i j
    else if arr_eqb a py then f_y (init_fields x y) i j else f_xy (init_fields x y) i j)) end).
  apply (launches_cons _ _ _ _ (fun m1 => (forall a i j, 0 <= i < ny -> 0 <= j < nx -> existsb (arr_eqb a) [MPhi; MPsix; MPsiy; MPsixy] = true ->
      m1 (a, i * nx + j, 0) = fin MPhi MPsix MPsiy MPsixy (a, i, j)) /\
      (forall a k l, existsb (arr_eqb a) [MPhi; MPsix; MPsiy; MPsixy] = false -> m1 (a, k, l) = m (a, k, l)))) in H.
  2:{ intros r1 Hi. apply (kernel_all s tile Hn Ht (fun ij => init_kernel nx ij MPhi MPsix MPsiy MPsixy) [AX1; AY1] [MPhi; MPsix; MPsiy; MPsixy] m (fin MPhi MPsix MPsiy MPsixy)) in Hi.
      - exact Hi.
      - intros []; cbn; congruence.
      - intros; apply init_kernel_touches.
      - intros i j Hi' Hj'. destruct (init_kernel_run nx ny Hn MPhi MPsix MPsiy MPsixy x y m i j) as (m1 & R1 & V1 & V2 & V3 & V4); try assumption.
        + repeat constructor; cbn; intuition congruence.
        + cbn; intuition congruence.
        + cbn; intuition congruence.
        + split; assumption.
        + intros a Ha u v Hu Hv. apply Hp; [|assumption|assumption]. cbn in Ha. decompose [or] Ha; subst; try reflexivity; contradiction.
        + exists m1. split; [exact R1|]. intros []; cbn; try discriminate; intros _; assumption. }
  destruct H as (m1 & (V1 & O1) & H).
  apply (launches_cons _ _ _ _ (fun m2 => (forall a i j, 0 <= i < ny -> 0 <= j < nx -> existsb (arr_eqb a) [Phi; Psix; Psiy; Psixy] = true ->
      m2 (a, i * nx + j, 0) = fin Phi Psix Psiy Psixy (a, i, j)) /\
      (forall a k l, existsb (arr_eqb a) [Phi; Psix; Psiy; Psixy] = false -> m2 (a, k, l) = m1 (a, k, l)))) in H.
  2:{ intros r1 Hi. apply (kernel_all s tile Hn Ht (fun ij => init_kernel nx ij Phi Psix Psiy Psixy) [AX1; AY1] [Phi; Psix; Psiy; Psixy] m1 (fin Phi Psix Psiy Psixy)) in Hi.
      - exact Hi.
      - intros []; cbn; congruence.
      - intros; apply init_kernel_touches.
      - intros i j Hi' Hj'. destruct (init_kernel_run nx ny Hn Phi Psix Psiy Psixy x y m1 i j) as (m2 & R2 & U1 & U2 & U3 & U4); try assumption.
        + repeat constructor; cbn; intuition congruence.
        + cbn; intuition congruence.
        + cbn; intuition congruence.
        + split; intros; rewrite O1 by reflexivity; auto.
        + intros a Ha u v Hu Hv. unfold rows_of. assert (Q : existsb (arr_eqb a) [Phi; Psix; Psiy; Psixy] = true) by (cbn in Ha; decompose [or] Ha; subst; try reflexivity; contradiction).
          rewrite O1 by (destruct a; try discriminate; reflexivity). apply Hp; [destruct a; try discriminate; reflexivity|assumption|assumption].
        + exists m2. split; [exact R2|]. intros []; cbn; try discriminate; intros _; assumption. }
  destruct H as (m2 & (V2 & O2) & H). inversion H; subst. exists m2. split; [reflexivity|]. split; [|split].
  - split; intros; rewrite O2, O1 by reflexivity; auto.
  - unfold device_holds. cbv zeta. unfold rows_of.
    repeat split; intros i j Hi Hj; first [rewrite V2 by (reflexivity || assumption); reflexivity|rewrite O2, V1 by (reflexivity || assumption); reflexivity].
  - intros a i j Ha. rewrite O2, O1 by (destruct a; try discriminate; reflexivity). reflexivity.
Qed.

(** the host *)
Lemma host_init_touches {TG : Trig T} nx ij : touches (own nx [MPhi; MPsix; MPsiy; MPsixy] ij) (of_arrs [AX1; AY1]) (@host_init_body T NT TG nx ij).
Proof.
  destruct ij as [i j]. unfold host_init_body. do 2 (apply touches_rd; [reflexivity|intro]).
  repeat (apply touches_wr; [unfold own, at_node, fl; cbn [fst snd existsb arr_eqb orb andb]; rewrite !Z.eqb_refl; reflexivity|]). exact Logic.I.
Qed.
Lemma host_setup_ok {TG : Trig T} (s : settings T) : indexable (s_nx s) (s_ny s) -> exists m, host_setup s = Ok m /\
  printed_cuda (s_nx s) (s_ny s) (initial (xs_of s) (ys_of s)) (initial (xs_of s) (ys_of s)) m.
Proof.
  set (nx := s_nx s). set (ny := s_ny s). intros Hn. unfold host_setup. destruct (gridnodes_ok s) as (m0 & -> & [Hx Hy] & _). cbn [bind]. fold nx ny.
  rewrite cells_small by exact Hn. set (m1 := cuda_malloc (nx * ny) _ m0).
  assert (P1 : forall a i j, existsb (arr_eqb a) [MPhi; MPsix; MPsiy; MPsixy] = true -> 0 <= i < ny -> 0 <= j < nx -> m1 (a, i * nx + j, 0) = Some Undef).
  { intros a i j Ha Hi Hj. apply malloc_in; [exact Ha|apply cell_in; assumption]. }
  assert (X1 : forall j, 0 <= j < nx -> m1 (AX1, j, 0) = Some (D (xs_of s j))) by (intros; unfold m1; rewrite malloc_other by reflexivity; auto).
  assert (Y1 : forall i, 0 <= i < ny -> m1 (AY1, i, 0) = Some (D (ys_of s i))) by (intros; unfold m1; rewrite malloc_other by reflexivity; auto).
  clearbody m1.
  set (f := initial (xs_of s) (ys_of s)).
  destruct (alone_serial (host_init_body nx) (own nx [MPhi; MPsix; MPsiy; MPsixy]) (of_arrs [AX1; AY1])) with (is := nodes ny 0 nx) (m := m1)
    (fin := fun l : loc => match l with (a, k, _) => let i := k / nx in let j := k mod nx in
      Some (D (match a with MPhi => f_phi f i j | MPsix => f_x f i j | MPsiy => f_y f i j | _ => f_xy f i j end)) end) as (m2 & R2 & V2 & _).
  - intros; apply host_init_touches.
  - intros i l. apply foot_apart. intros []; cbn; congruence.
  - unfold separate. pose proof (fun ij ij' l => own_apart nx ny (nodes ny 0 nx) [MPhi; MPsix; MPsiy; MPsixy] Hn ltac:(intros i j Hin; apply in_nodes in Hin; exact Hin) ij ij' l) as A.
    pose proof (nodes_nodup ny 0 nx) as N.
    set (is := nodes ny 0 nx) in *. clearbody is.
    assert (G : forall js, (forall i, In i js -> In i is) -> NoDup js -> ForallOrdPairs (fun i j => forall l, own nx [MPhi; MPsix; MPsiy; MPsixy] i l = true -> own nx [MPhi; MPsix; MPsiy; MPsixy] j l = false) js).
    { induction js as [|i js IH]; intros Hs Hd; constructor.
      - inversion Hd; subst. rewrite Forall_forall. intros j Hj l. apply A; [apply Hs; left; reflexivity|apply Hs; right; exact Hj|congruence].
      - inversion Hd; subst. apply IH; [|assumption]. intros; apply Hs; right; assumption. }
    apply G; auto.
  - intros [i j] Hin. apply in_nodes in Hin as [Hi Hj]. unfold host_init_body, fl. rewrite (at_index nx ny Hn) by assumption.
    rewrite (run_rd _ _ (xs_of s j)) by (apply X1; lia). rewrite (run_rd _ _ (ys_of s i)) by (apply Y1; lia).
    do 4 (erewrite run_wr by (look; apply P1; [reflexivity|lia|lia])). cbn [run]. eexists; split; [reflexivity|].
    intros [[a k] l] Hl. unfold own, at_node in Hl. cbn [fst snd] in Hl. rewrite (at_index nx ny Hn) in Hl by assumption.
    apply andb_prop in Hl as [Hl E2]. apply andb_prop in Hl as [Ha E1].
    apply Z.eqb_eq in E1, E2. subst k l.
    assert (Q1 : (i * nx + j) / nx = i) by (symmetry; apply (Z.div_unique_pos _ _ _ j); lia).
    assert (Q2 : (i * nx + j) mod nx = j) by (symmetry; apply (Z.mod_unique_pos _ _ i); lia).
    cbv zeta. rewrite Q1, Q2. destruct a; try discriminate; look; reflexivity.
  - rewrite R2. exists m2. split; [reflexivity|].
    assert (V : forall a i j, existsb (arr_eqb a) [MPhi; MPsix; MPsiy; MPsixy] = true -> 0 <= i < ny -> 0 <= j < nx ->
      m2 (a, i * nx + j, 0) = Some (D (match a with MPhi => f_phi f i j | MPsix => f_x f i j | MPsiy => f_y f i j | _ => f_xy f i j end))).
    { intros a i j Ha Hi Hj. rewrite V2.
      - assert (Q1 : (i * nx + j) / nx = i) by (symmetry; apply (Z.div_unique_pos _ _ _ j); lia).
        assert (Q2 : (i * nx + j) mod nx = j) by (symmetry; apply (Z.mod_unique_pos _ _ i); lia).
        cbv zeta. rewrite Q1, Q2. reflexivity.
      - apply (anyW_in (own nx [MPhi; MPsix; MPsiy; MPsixy]) (nodes ny 0 nx) (i, j)); [apply in_nodes; auto|].
        unfold own, at_node. cbn [fst snd]. rewrite (at_index nx ny Hn) by assumption. rewrite !Z.eqb_refl, Ha. reflexivity. }
    unfold printed_cuda. cbv zeta. unfold rows_of. fold f. split; [|split; [|split]].
    + intros i j Hi Hj. rewrite V by (reflexivity || assumption). reflexivity.
    + intros i j Hi Hj. rewrite V by (reflexivity || assumption). reflexivity.
    + intros i j Hi Hj. rewrite V by (reflexivity || assumption). reflexivity.
    + intros i j Hi Hj. rewrite V by (reflexivity || assumption). auto.
Qed.
End Main.
