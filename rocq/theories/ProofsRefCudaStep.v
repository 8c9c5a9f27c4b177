(** One time step of the CUDA program under every schedule. *)
From Coq Require Import ZArith List Permutation Bool Lia String.
From Verif Require Import Base Num NumB64 ModelVec ModelRefMath ModelRefMem ModelRef ModelRefCuda SpecRefPar SpecRefRun SpecRefCuda
  ProofsBase ProofsRefMem ProofsRefPar ProofsRefRun ProofsRefUpd ProofsRefStep ProofsRefKernel ProofsRefCudaRun.
Open Scope Z_scope.

Section Step.
Context {T : Type} {NT : Num T}.
Implicit Types (m : mem T).

Lemma launches_cons k ks m r (P : mem T -> Prop) : launches (k :: ks) m r ->
  (forall r1, interleaved k m r1 -> exists m1, r1 = Ok m1 /\ P m1) -> exists m1, P m1 /\ launches ks m1 r.
Proof.
  intros H Hk. inversion H as [|? ? ? m1 ? Hi Hl|? ? ? e Hi]; subst.
  - destruct (Hk _ Hi) as (m2 & E & HP). injection E as <-. eauto.
  - destruct (Hk _ Hi) as (m2 & E & HP). discriminate.
Qed.
Lemma launches_bad k ks m r e : launches (k :: ks) m r -> (forall r1, interleaved k m r1 -> r1 = UB e) -> r = UB e.
Proof.
  intros H Hk. inversion H as [|? ? ? m1 ? Hi Hl|? ? ? e' Hi]; subst.
  - specialize (Hk _ Hi). discriminate.
  - specialize (Hk _ Hi). congruence.
Qed.

Lemma malloc_in n arrs : forall m a i, existsb (arr_eqb a) arrs = true -> 0 <= i < n -> cuda_malloc n arrs m (a, i, 0) = Some Undef.
Proof.
  unfold cuda_malloc. intros m a i Ha Hi.
  assert (G : forall l m0, (existsb (arr_eqb a) l = true \/ m0 (a, i, 0) = Some Undef) -> fold_left (fun m a => alloc a n 1 Undef m) l m0 (a, i, 0) = Some Undef).
  { induction l as [|b l IH]; intros m0 H; cbn [fold_left].
    - destruct H as [H|H]; [discriminate|exact H].
    - apply IH. cbn [existsb] in H. destruct (existsb (arr_eqb a) l); [auto|]. right. destruct H as [H|H].
      + rewrite orb_false_r in H. assert (a = b) as -> by (destruct a, b; try discriminate; reflexivity). apply alloc_in; lia.
      + cbn [alloc]. destruct (arr_eqb b a); [|exact H]. replace ((0 <=? i) && (i <? n) && (0 <=? 0) && (0 <? 1))%bool with true by lia. reflexivity. }
  apply G. auto.
Qed.
Lemma malloc_other n arrs : forall m a i j, existsb (arr_eqb a) arrs = false -> cuda_malloc n arrs m (a, i, j) = m (a, i, j).
Proof.
  unfold cuda_malloc. induction arrs as [|b l IH]; intros m a i j H; cbn [fold_left]; [reflexivity|].
  cbn [existsb] in H. apply orb_false_iff in H as [H1 H2]. rewrite IH by exact H2. apply alloc_other.
  destruct a, b; try discriminate; reflexivity.
Qed.

Variables (F : flow T) (s : settings T) (tile t : Z) (x y : Z -> T).
Let nx := s_nx s.
Let ny := s_ny s.
Hypothesis N1 : 3 <= nx.
Hypothesis N2 : 3 <= ny.
Hypothesis Hn : indexable nx ny.
Hypothesis Ht : tiles tile nx ny.
Let p i j := back_trace F true (x j) (y i) t (s_dt s) (s_Tp s).
Let fnd i j := found nx ny (s_xlim1 s) (s_xlim2 s) (s_ylim1 s) (s_ylim2 s) (map x (range 0 nx)) (map y (range 0 ny)) (fst (p i j)) (snd (p i j)).
Hypothesis Hs : forall i j, 0 <= i < ny -> 0 <= j < nx ->
  searchable nx ny (s_xlim1 s) (s_xlim2 s) (s_ylim1 s) (s_ylim2 s) x y (fst (p i j)) (snd (p i j)) /\
  match snd (fnd i j) with Some c => 0 <= fst c < nx - 1 /\ 0 <= snd c < ny - 1 | None => fst (fnd i j) = 4 end.

Lemma launch_iff i j : In (i, j) (launch tile nx ny) <-> 0 <= i < ny /\ 0 <= j < nx.
Proof.
  destruct Hn as (B1 & B2 & _). pose proof (launch_all tile nx ny Ht B1 B2) as P. split; intros H.
  - apply (Permutation_in _ P) in H. apply in_nodes in H. exact H.
  - apply Permutation_sym in P. apply (Permutation_in _ P). apply in_nodes. exact H.
Qed.
Lemma nodup_launch : NoDup (launch tile nx ny).
Proof. destruct Hn as (B1 & B2 & _). apply launch_nodup; [apply Ht|assumption|assumption]. Qed.

(** a kernel that covers the grid *)
Lemma kernel_all (body : Z * Z -> prog T) A B m fin r :
  (forall a, existsb (arr_eqb a) A = true -> existsb (arr_eqb a) B = false) ->
  (forall ij, touches (own nx B ij) (of_arrs A) (body ij)) ->
  (forall i j, 0 <= i < ny -> 0 <= j < nx -> exists m1, run (body (i, j)) m = Ok m1 /\
     forall a, existsb (arr_eqb a) B = true -> m1 (a, i * nx + j, 0) = fin (a, i, j)) ->
  interleaved (map body (launch tile nx ny)) m r ->
  exists m', r = Ok m' /\ (forall a i j, 0 <= i < ny -> 0 <= j < nx -> existsb (arr_eqb a) B = true -> m' (a, i * nx + j, 0) = fin (a, i, j)) /\
    (forall a k l, existsb (arr_eqb a) B = false -> m' (a, k, l) = m (a, k, l)).
Proof.
  intros Hd Hb Hr Hi.
  destruct (kernel_result nx ny (launch tile nx ny) body A B Hn nodup_launch) with (m := m) (fin := fin) (r := r) as (m' & E & V & O & _); auto.
  - intros i j H. apply launch_iff. exact H.
  - intros i j H. apply Hr; apply launch_iff in H; tauto.
  - exists m'. split; [exact E|]. split; [|exact O]. intros a i j Hi' Hj' Ha. apply V; [apply launch_iff; auto|exact Ha].
Qed.

Lemma gridcells_small : gridcells nx ny = nx * ny.
Proof. destruct Hn as (B1 & B2 & B3). unfold gridcells. apply u32_small. nia. Qed.
Lemma index_in i j : 0 <= i < ny -> 0 <= j < nx -> 0 <= i * nx + j < nx * ny.
Proof. intros. split; nia. Qed.

Definition work : list arr := [Xadv; Yadv; Cellx; Celly; Tracker].
(** after the first two kernels *)
Lemma search_stage m r : nodes_at nx ny x y m -> cuda_step F s tile t m r ->
  exists m2, launches (skipn 2 (step_kernels F s tile t)) m2 r /\ nodes_at nx ny x y m2 /\
    (forall a i j, existsb (arr_eqb a) work = false -> m2 (a, i, j) = m (a, i, j)) /\
    forall i j, 0 <= i < ny -> 0 <= j < nx ->
      m2 (Xadv, i * nx + j, 0) = Some (D (fst (p i j))) /\ m2 (Yadv, i * nx + j, 0) = Some (D (snd (p i j))) /\
      m2 (Tracker, i * nx + j, 0) = Some (U (fst (fnd i j))) /\
      m2 (Cellx, i * nx + j, 0) = Some (match snd (fnd i j) with Some c => U (fst c) | None => Undef end) /\
      m2 (Celly, i * nx + j, 0) = Some (match snd (fnd i j) with Some c => U (snd c) | None => Undef end).
Proof.
  intros [Hx Hy] H. unfold cuda_step, step_kernels in H. cbv zeta in H. fold nx ny in H.
  set (m0 := step_arrays nx ny m) in *.
  assert (W0 : forall a i j, existsb (arr_eqb a) work = true -> 0 <= i < ny -> 0 <= j < nx -> m0 (a, i * nx + j, 0) = Some Undef).
  { intros a i j Ha Hi Hj. apply malloc_in; [exact Ha|]. rewrite gridcells_small. apply index_in; assumption. }
  assert (O0 : forall a i j, existsb (arr_eqb a) work = false -> m0 (a, i, j) = m (a, i, j)) by (intros; apply malloc_other; assumption).
  clearbody m0.
  assert (Q0 : nodes_at nx ny x y m0) by (split; intros; rewrite O0 by reflexivity; auto).
  apply (launches_cons _ _ _ _ (fun m1 => (forall a i j, 0 <= i < ny -> 0 <= j < nx -> existsb (arr_eqb a) [Xadv; Yadv] = true ->
      m1 (a, i * nx + j, 0) = Some (D ((match a with Xadv => fst | _ => snd end) (p i j)))) /\
      (forall a k l, existsb (arr_eqb a) [Xadv; Yadv] = false -> m1 (a, k, l) = m0 (a, k, l)))) in H.
  2:{ intros r1 Hi. apply (kernel_all (adv_kernel F nx t (s_dt s) (s_Tp s)) [AX1; AY1] [Xadv; Yadv] m0
        (fun l => match l with (a, i, j) => Some (D ((match a with Xadv => fst | _ => snd end) (p i j))) end)) in Hi.
      - exact Hi.
      - intros []; cbn; congruence.
      - intros; apply adv_kernel_touches.
      - intros i j Hi' Hj'. destruct (adv_kernel_run nx ny Hn F t (s_dt s) (s_Tp s) x y m0 i j Q0) as (m1 & R1 & V1 & V2); try assumption.
        + intros u v Hu Hv. unfold rows_of. rewrite W0 by (reflexivity || assumption). congruence.
        + intros u v Hu Hv. unfold rows_of. rewrite W0 by (reflexivity || assumption). congruence.
        + exists m1. split; [exact R1|]. intros []; cbn; try discriminate; intros _; assumption. }
  destruct H as (m1 & (V1 & O1) & H).
  apply (launches_cons _ _ _ _ (fun m2 => (forall a i j, 0 <= i < ny -> 0 <= j < nx -> existsb (arr_eqb a) [Tracker; Cellx; Celly] = true ->
      m2 (a, i * nx + j, 0) = Some (match a with Tracker => U (fst (fnd i j))
        | Cellx => match snd (fnd i j) with Some c => U (fst c) | None => Undef end
        | _ => match snd (fnd i j) with Some c => U (snd c) | None => Undef end end)) /\
      (forall a k l, existsb (arr_eqb a) [Tracker; Cellx; Celly] = false -> m2 (a, k, l) = m1 (a, k, l)))) in H.
  2:{ intros r1 Hi. apply (kernel_all (find_kernel nx ny (s_xlim1 s) (s_xlim2 s) (s_ylim1 s) (s_ylim2 s)) [AX1; AY1; Xadv; Yadv] [Tracker; Cellx; Celly] m1
        (fun l => match l with (a, i, j) => Some (match a with Tracker => U (fst (fnd i j))
        | Cellx => match snd (fnd i j) with Some c => U (fst c) | None => Undef end
        | _ => match snd (fnd i j) with Some c => U (snd c) | None => Undef end end) end)) in Hi.
      - exact Hi.
      - intros []; cbn; congruence.
      - intros; apply find_kernel_touches.
      - intros i j Hi' Hj'. destruct (Hs i j Hi' Hj') as [S1 S2].
        assert (P1 : forall a, existsb (arr_eqb a) [Tracker; Cellx; Celly] = true -> forall u v, 0 <= u < ny -> 0 <= v < nx -> m1 (a, u * nx + v, 0) = Some Undef).
        { intros a Ha u v Hu Hv. rewrite O1 by (destruct a; try discriminate; reflexivity). apply W0; [destruct a; try discriminate; reflexivity|assumption|assumption]. }
        destruct (find_kernel_run nx ny Hn (s_xlim1 s) (s_xlim2 s) (s_ylim1 s) (s_ylim2 s) x y (fst (p i j)) (snd (p i j)) m1 i j) as (m2 & R2 & V2 & V3); try assumption.
        + split; intros; rewrite O1 by reflexivity; apply Q0; assumption.
        + rewrite V1 by (reflexivity || assumption). reflexivity.
        + rewrite V1 by (reflexivity || assumption). reflexivity.
        + intros u v Hu Hv. unfold rows_of. rewrite P1 by (reflexivity || assumption). congruence.
        + intros u v Hu Hv. unfold rows_of. rewrite P1 by (reflexivity || assumption). congruence.
        + intros u v Hu Hv. unfold rows_of. rewrite P1 by (reflexivity || assumption). congruence.
        + exists m2. split; [exact R2|]. fold (fnd i j) in V2, V3. destruct (snd (fnd i j)) as [c|].
          * destruct V3. intros []; cbn; try discriminate; intros _; assumption.
          * destruct (V3 S2) as [E1 E2]. rewrite P1 in E1, E2 by (reflexivity || assumption). intros []; cbn; try discriminate; intros _; assumption. }
  destruct H as (m2 & (V2 & O2) & H). exists m2.
  split; [exact H|]. split; [|split].
  - split; intros; rewrite O2, O1 by reflexivity; apply Q0; assumption.
  - intros a i j Ha. rewrite O2, O1, O0 by (destruct a; try discriminate; reflexivity). reflexivity.
  - intros i j Hi Hj. rewrite (O2 Xadv), (O2 Yadv), (V1 Xadv), (V1 Yadv), (V2 Tracker), (V2 Cellx), (V2 Celly) by (reflexivity || assumption). auto.
Qed.

(** all positions have a cell *)
Lemma cuda_step_next f m r : (forall i j, 0 <= i < ny -> 0 <= j < nx -> snd (fnd i j) <> None) ->
  nodes_at nx ny x y m -> device_holds nx ny f m -> cuda_step F s tile t m r ->
  exists m', r = Ok m' /\ nodes_at nx ny x y m' /\ device_holds nx ny (next_cuda F s x y t f) m' /\
    (forall a i j, existsb (arr_eqb a) (work ++ [Phi; Psix; Psiy; Psixy; MPhi; MPsix; MPsiy]) = false -> m' (a, i, j) = m (a, i, j)).
Proof.
  intros Hc Q Hf H. destruct (search_stage m r Q H) as (m2 & H2 & Q2 & O2 & V2). clear H.
  unfold step_kernels in H2. cbv zeta in H2. fold nx ny in H2. cbn [skipn] in H2.
  set (cx i j := fst (match snd (fnd i j) with Some c => c | None => (0, 0) end)). set (cy i j := snd (match snd (fnd i j) with Some c => c | None => (0, 0) end)).
  set (new i j := updated F "SuperConsistent" true t (s_dt s) (s_Tp s) (x 2 - x 1)%num (y 2 - y 1)%num (x (cx i j)) (y (cy i j)) (x j) (y i) (fst (p i j)) (snd (p i j))
      (quad_at (f_phi f) (cy i j) (cx i j)) (quad_at (f_x f) (cy i j) (cx i j)) (quad_at (f_y f) (cy i j) (cx i j)) (quad_at (f_xy f) (cy i j) (cx i j))
      (fst (fnd i j)) (f_phi f i j) (f_x f i j) (f_y f i j) (f_xy f i j)).
  assert (Hf2 : device_holds nx ny f m2).
  { unfold device_holds in *. cbv zeta in *. destruct Hf as (A1 & A2 & A3 & A4 & A5 & A6 & A7).
    repeat split; intros i j Hi Hj; unfold rows_of; rewrite O2 by reflexivity;
    [apply A1|apply A2|apply A3|apply A4|apply A5|apply A6|apply A7]; assumption. }
  apply (launches_cons _ _ _ _ (fun m3 => (forall a i j, 0 <= i < ny -> 0 <= j < nx -> existsb (arr_eqb a) [Phi; Psix; Psiy] = true ->
      m3 (a, i * nx + j, 0) = Some (D (match a with Phi => fst (fst (new i j)) | Psix => snd (fst (new i j)) | _ => snd (new i j) end))) /\
      (forall a k l, existsb (arr_eqb a) [Phi; Psix; Psiy] = false -> m3 (a, k, l) = m2 (a, k, l)))) in H2.
  2:{ intros r1 Hi. apply (kernel_all (update_kernel F nx t (s_dt s) (s_Tp s)) [AX1; AY1; Xadv; Yadv; Cellx; Celly; Tracker; MPhi; MPsix; MPsiy; Psixy] [Phi; Psix; Psiy] m2
        (fun l => match l with (a, i, j) => Some (D (match a with Phi => fst (fst (new i j)) | Psix => snd (fst (new i j)) | _ => snd (new i j) end)) end)) in Hi.
      - exact Hi.
      - intros []; cbn; congruence.
      - intros; apply update_kernel_touches.
      - intros i j Hi' Hj'. destruct (Hs i j Hi' Hj') as [_ S2]. specialize (Hc i j Hi' Hj'). destruct (V2 i j Hi' Hj') as (A1 & A2 & A3 & A4 & A5).
        destruct (snd (fnd i j)) as [c|] eqn:Ec; [|congruence].
        destruct (update_kernel_run nx ny Hn F t (s_dt s) (s_Tp s) x y (fst (p i j)) (snd (p i j)) (fst (fnd i j)) (fst c) (snd c) f m2 i j) as (m3 & R3 & W1 & W2 & W3); try assumption; try tauto.
        exists m3. split; [exact R3|]. unfold new, cx, cy. rewrite Ec. intros []; cbn; try discriminate; intros _; assumption. }
  destruct H2 as (m3 & (V3 & O3) & H2).
  assert (M3 : forall a, existsb (arr_eqb a) [MPhi; MPsix; MPsiy; Psixy] = true -> present a ny nx (rows_of nx m3)).
  { unfold device_holds in Hf2. cbv zeta in Hf2. destruct Hf2 as (A1 & A2 & A3 & A4 & A5 & A6 & A7).
    intros a Ha i j Hi Hj. unfold rows_of. rewrite O3 by (destruct a; try discriminate; reflexivity).
    destruct a; try discriminate; [pose proof (A4 i j Hi Hj) as K|pose proof (A5 i j Hi Hj) as K|pose proof (A6 i j Hi Hj) as K|pose proof (A7 i j Hi Hj) as K];
    unfold rows_of in K; rewrite K; congruence. }
  apply (launches_cons _ _ _ _ (fun m4 => (forall a i j, 0 <= i < ny -> 0 <= j < nx -> existsb (arr_eqb a) [MPhi; MPsix; MPsiy] = true ->
      m4 (a, i * nx + j, 0) = Some (D (match a with MPhi => fst (fst (new i j)) | MPsix => snd (fst (new i j)) | _ => snd (new i j) end))) /\
      (forall a k l, existsb (arr_eqb a) [MPhi; MPsix; MPsiy] = false -> m4 (a, k, l) = m3 (a, k, l)))) in H2.
  2:{ intros r1 Hi. apply (kernel_all (copy_kernel nx) [Phi; Psix; Psiy] [MPhi; MPsix; MPsiy] m3
        (fun l => match l with (a, i, j) => Some (D (match a with MPhi => fst (fst (new i j)) | MPsix => snd (fst (new i j)) | _ => snd (new i j) end)) end)) in Hi.
      - exact Hi.
      - intros []; cbn; congruence.
      - intros; apply copy_kernel_touches.
      - intros i j Hi' Hj'. destruct (copy_kernel_run nx ny Hn (D (fst (fst (new i j)))) (D (snd (fst (new i j)))) (D (snd (new i j))) m3 i j) as (m4 & R4 & W1 & W2 & W3); try assumption.
        1-3: rewrite V3 by (reflexivity || assumption); reflexivity.
        1-3: apply M3; reflexivity.
        exists m4. split; [exact R4|]. intros []; cbn; try discriminate; intros _; assumption. }
  destruct H2 as (m4 & (V4 & O4) & H2).
  assert (X4 : holds Psix ny nx (fun i j => snd (fst (new i j))) (rows_of nx m4)).
  { intros i j Hi Hj. unfold rows_of. rewrite O4, V3 by (reflexivity || assumption). reflexivity. }
  assert (Y4 : holds Psiy ny nx (fun i j => snd (new i j)) (rows_of nx m4)).
  { intros i j Hi Hj. unfold rows_of. rewrite O4, V3 by (reflexivity || assumption). reflexivity. }
  set (mx := mixed_cuda nx ny (s_dx s) (s_dy s) (fun i j => snd (fst (new i j))) (fun i j => snd (new i j))).
  apply (launches_cons _ _ _ _ (fun m5 => (forall a i j, 0 <= i < ny -> 0 <= j < nx -> existsb (arr_eqb a) [Psixy] = true ->
      m5 (a, i * nx + j, 0) = Some (D (mx i j))) /\
      (forall a k l, existsb (arr_eqb a) [Psixy] = false -> m5 (a, k, l) = m4 (a, k, l)))) in H2.
  2:{ intros r1 Hi. apply (kernel_all (mixed_kernel nx ny (s_dx s) (s_dy s)) [Psix; Psiy] [Psixy] m4
        (fun l => match l with (a, i, j) => Some (D (mx i j)) end)) in Hi.
      - exact Hi.
      - intros []; cbn; congruence.
      - intros; apply mixed_kernel_touches.
      - intros i j Hi' Hj'. destruct (mixed_kernel_run nx ny Hn (s_dx s) (s_dy s) (fun i j => snd (fst (new i j))) (fun i j => snd (new i j)) m4 i j) as (m5 & R5 & W1); try assumption; try lia.
        + intros u v Hu Hv. unfold rows_of. rewrite O4 by reflexivity. apply (M3 Psixy eq_refl u v Hu Hv).
        + exists m5. split; [exact R5|]. intros []; cbn; try discriminate; intros _; assumption. }
  destruct H2 as (m5 & (V5 & O5) & H2). inversion H2; subst. exists m5. split; [reflexivity|].
  assert (En : forall i j, 0 <= i < ny -> 0 <= j < nx -> new i j = new_node true F (compiled s) x y t f i j).
  { intros i j Hi Hj. reflexivity. }
  split; [|split].
  - split; intros; rewrite O5, O4, O3 by reflexivity; apply Q2; assumption.
  - unfold device_holds. cbv zeta. unfold rows_of. repeat split; intros i j Hi Hj.
    + rewrite O5, O4, V3 by (reflexivity || assumption). rewrite En by assumption. reflexivity.
    + rewrite O5, O4, V3 by (reflexivity || assumption). rewrite En by assumption. reflexivity.
    + rewrite O5, O4, V3 by (reflexivity || assumption). rewrite En by assumption. reflexivity.
    + rewrite V5 by (reflexivity || assumption). reflexivity.
    + rewrite O5, V4 by (reflexivity || assumption). rewrite En by assumption. reflexivity.
    + rewrite O5, V4 by (reflexivity || assumption). rewrite En by assumption. reflexivity.
    + rewrite O5, V4 by (reflexivity || assumption). rewrite En by assumption. reflexivity.
  - intros a i j Ha. rewrite O5, O4, O3, O2 by (destruct a; try discriminate; reflexivity). reflexivity.
Qed.

(** some position has none *)
Lemma cuda_step_undef f m r : (exists i j, 0 <= i < ny /\ 0 <= j < nx /\ snd (fnd i j) = None) ->
  nodes_at nx ny x y m -> device_holds nx ny f m -> cuda_step F s tile t m r -> r = UB Uninitialised.
Proof.
  intros (i0 & j0 & Hi0 & Hj0 & Hc) Q Hf H. destruct (search_stage m r Q H) as (m2 & H2 & Q2 & O2 & V2). clear H.
  unfold step_kernels in H2. cbv zeta in H2. fold nx ny in H2. cbn [skipn] in H2.
  assert (Hf2 : device_holds nx ny f m2).
  { unfold device_holds in *. cbv zeta in *. destruct Hf as (A1 & A2 & A3 & A4 & A5 & A6 & A7).
    repeat split; intros i j Hi Hj; unfold rows_of; rewrite O2 by reflexivity;
    [apply A1|apply A2|apply A3|apply A4|apply A5|apply A6|apply A7]; assumption. }
  apply (launches_bad _ _ _ _ Uninitialised) in H2; [exact H2|]. intros r1 Hr.
  assert (Bad : forall i j, 0 <= i < ny -> 0 <= j < nx -> snd (fnd i j) = None -> run (update_kernel F nx t (s_dt s) (s_Tp s) (i, j)) m2 = UB Uninitialised).
  { intros i j Hi Hj E. apply (update_kernel_undef nx ny Hn F t (s_dt s) (s_Tp s) x y); try assumption.
    destruct (V2 i j Hi Hj) as (_ & _ & _ & A4 & _). rewrite E in A4. exact A4. }
  apply (kernel_spoilt nx ny (launch tile nx ny) (update_kernel F nx t (s_dt s) (s_Tp s))
    [AX1; AY1; Xadv; Yadv; Cellx; Celly; Tracker; MPhi; MPsix; MPsiy; Psixy] [Phi; Psix; Psiy] Hn nodup_launch) with (m := m2) (i := i0) (j := j0); auto.
  - intros i j Hin. apply launch_iff. exact Hin.
  - intros []; cbn; congruence.
  - intros; apply update_kernel_touches.
  - apply launch_iff. auto.
  - intros i j e Hin Hu. apply launch_iff in Hin as [Hi Hj]. destruct (Hs i j Hi Hj) as [_ S2]. destruct (V2 i j Hi Hj) as (A1 & A2 & A3 & A4 & A5).
    destruct (snd (fnd i j)) as [c|] eqn:Ec.
    + exfalso. destruct (update_kernel_run nx ny Hn F t (s_dt s) (s_Tp s) x y (fst (p i j)) (snd (p i j)) (fst (fnd i j)) (fst c) (snd c) f m2 i j) as (m3 & R3 & _); try assumption; try tauto.
      congruence.
    + rewrite (Bad i j Hi Hj Ec) in Hu. congruence.
Qed.
End Step.
