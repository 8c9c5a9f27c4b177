(** The time steps of the two processes of the MPI program. *)
From Coq Require Import ZArith List Permutation Bool Lia String Reals Lra.
From Verif Require Import Base Num NumB64 ModelVec ModelRefMath ModelRefMem ModelRef ModelRefMpi SpecRefPar SpecRefRun
  ProofsBase ProofsGridProps ProofsRefMem ProofsRefPar ProofsRefRun ProofsRefUpd ProofsRefMix ProofsRefSearch ProofsRefStep ProofsRefMain ProofsRefReal ProofsRefCudaReal
  ProofsRefPair ProofsRefMpi.
Open Scope Z_scope.

Section Step.
Variables (F : flow R) (s : settings R).
Let nx := s_nx s.
Let ny := s_ny s.
Let nnx := nx / 2.
Let x := xs_of s.
Let y := ys_of s.
Hypothesis P : proper s.
Hypothesis Hn : nnx * ny < 2147483648.

Lemma half : 1 <= nnx /\ nnx + nnx <= nx /\ nx <= nnx + nnx + 1.
Proof. destruct P as ([N _] & _). unfold nnx. fold nx in N. pose proof (Z.div_mod nx 2 ltac:(lia)). pose proof (Z.mod_pos_bound nx 2 ltac:(lia)). lia. Qed.

(** *** the arrays made anew *)
Definition bufs := [BA1; BB1; BA3; BB3; BC3].
Lemma fresh_other m a i j : existsb (arr_eqb a) ([Tracker; Xadv; Yadv] ++ bufs) = false -> fresh s m (a, i, j) = m (a, i, j).
Proof. intros H. unfold fresh, buffers. cbv zeta. cbn [fold_left]. unfold alloc_2d_int. rewrite !alloc_other by (destruct a; try discriminate; reflexivity). reflexivity. Qed.
Lemma fresh_adv m a i j : In a [Xadv; Yadv] -> 0 <= i < ny -> 0 <= j < nx -> fresh s m (a, i, j) = Some (D (nofZ 0)).
Proof.
  intros Ha Hi Hj. unfold fresh, buffers. cbv zeta. cbn [fold_left]. unfold alloc_2d_int.
  destruct Ha as [<-|[<-|[]]]; rewrite ?(alloc_other BC3), ?(alloc_other BB3), ?(alloc_other BA3), ?(alloc_other BB1), ?(alloc_other BA1) by reflexivity;
    [rewrite alloc_other by reflexivity|]; apply alloc_in; assumption.
Qed.
Lemma fresh_tracker m i j : 0 <= i < ny -> 0 <= j < nx -> fresh s m (Tracker, i, j) = Some (U 0).
Proof.
  intros Hi Hj. unfold fresh, buffers. cbv zeta. cbn [fold_left]. unfold alloc_2d_int. rewrite !alloc_other by reflexivity. 
  rewrite alloc_in by assumption. reflexivity.
Qed.
Lemma fresh_buf m a i j : In a bufs -> 0 <= i < nnx -> 0 <= j < ny -> fresh s m (a, i, j) = Some Undef.
Proof.
  intros Ha Hi Hj. unfold fresh, buffers. cbv zeta. cbn [fold_left]. unfold alloc_2d_int. fold nx ny nnx.
  destruct Ha as [<-|[<-|[<-|[<-|[<-|[]]]]]]; rewrite ?(alloc_other BC3) by reflexivity; try (apply alloc_in; assumption);
    rewrite ?(alloc_other BB3) by reflexivity; try (apply alloc_in; assumption);
    rewrite ?(alloc_other BA3) by reflexivity; try (apply alloc_in; assumption);
    rewrite ?(alloc_other BB1) by reflexivity; try (apply alloc_in; assumption).
Qed.
Lemma fresh_none m a i j : In a bufs -> nnx <= i -> fresh s m (a, i, j) = None.
Proof.
  intros Ha Hi.
  assert (K : forall b m', alloc b nnx ny Undef m' (b, i, j) = (None : option (val R))).
  { intros b m'. cbn. rewrite arr_refl. replace (i <? nnx) with false by lia. rewrite andb_false_r. reflexivity. }
  unfold fresh, buffers. cbv zeta. cbn [fold_left]. unfold alloc_2d_int. fold nx ny nnx.
  destruct Ha as [<-|[<-|[<-|[<-|[<-|[]]]]]]; rewrite ?(alloc_other BC3) by reflexivity; try apply K;
    rewrite ?(alloc_other BB3) by reflexivity; try apply K; rewrite ?(alloc_other BA3) by reflexivity; try apply K;
    rewrite ?(alloc_other BB1) by reflexivity; apply K.
Qed.

Definition footx t i j := fst (foot true F s x y t i j).
Definition footy t i j := snd (foot true F s x y t i j).
Definition part (lo hi : Z) (f : Z -> Z -> R) i j := if (lo <=? j) && (j <? hi) then f i j else 0%R.

Lemma trace_ok t lo hi m : 0 <= lo -> hi <= nx -> nodes_at nx ny x y m ->
  exists m', trace_cols F s t lo hi (fresh s m) = Ok m' /\ nodes_at nx ny x y m' /\
    holds Xadv ny nx (part lo hi (footx t)) m' /\ holds Yadv ny nx (part lo hi (footy t)) m' /\
    (forall a i j, a <> Xadv -> a <> Yadv -> m' (a, i, j) = fresh s m (a, i, j)).
Proof.
  intros Hl Hh [Hx Hy]. unfold trace_cols. fold ny.
  destruct (adv_loop F (s_rk3 s) t (s_dt s) (s_Tp s) nx ny x y ny lo hi (fresh s m)) as (m1 & R1 & V1); try lia.
  { split; intros; rewrite fresh_other by reflexivity; auto. }
  { intros i j Hi Hj. rewrite fresh_adv by (cbn; auto). congruence. }
  { intros i j Hi Hj. rewrite fresh_adv by (cbn; auto). congruence. }
  exists m1. split; [exact R1|]. split; [split; intros; rewrite V1, fresh_other by reflexivity; auto|].
  assert (Q : forall i j, 0 <= i < ny -> 0 <= j < nx -> in_rng ny lo hi i j = (lo <=? j) && (j <? hi)) by (intros; unfold in_rng; lia).
  split; [|split].
  - intros i j Hi Hj. rewrite V1, Q, fresh_adv by (cbn; auto). unfold part, footx, foot. cbn [orb]. destruct (_ && _)%bool; reflexivity.
  - intros i j Hi Hj. rewrite V1, Q, fresh_adv by (cbn; auto). unfold part, footy, foot. cbn [orb]. destruct (_ && _)%bool; reflexivity.
  - intros a i j A B. rewrite V1. destruct a; reflexivity || congruence.
Qed.

Definition cellx t i j := fst (snd (where_ true F s x y t i j)).
Definition celly t i j := snd (snd (where_ true F s x y t i j)).
Definition track t i j := fst (where_ true F s x y t i j).
Lemma cell_bounds t i j : 0 <= cellx t i j < nx - 1 /\ 0 <= celly t i j < ny - 1.
Proof.
  destruct P as (N1 & N2 & L1 & L2). apply (where_bounds true F s x y t i j); try lia; apply even_sorted; (lia || assumption).
Qed.
Lemma track_bounds t i j : 1 <= track t i j <= 4.
Proof.
  unfold track, where_, found. cbv zeta. cbn [fst]. destruct (_ && _)%bool; destruct (_ && _)%bool; cbn [fst]; lia.
Qed.

Lemma fresh_cells_other m a i j : a <> Cellx -> a <> Celly -> fresh_cells s m (a, i, j) = m (a, i, j).
Proof. intros A B. unfold fresh_cells. rewrite !alloc_other by (destruct a; reflexivity || congruence). reflexivity. Qed.
Lemma fresh_cells_in m a i j : In a [Cellx; Celly] -> 0 <= i < ny -> 0 <= j < nx -> fresh_cells s m (a, i, j) = Some (U 0).
Proof.
  intros Ha Hi Hj. unfold fresh_cells. destruct Ha as [<-|[<-|[]]]; [rewrite alloc_other by reflexivity|]; apply alloc_in; assumption.
Qed.
Lemma find_ok t xa ya lo hi m : 0 <= lo -> hi <= nx -> nodes_at nx ny x y m -> holds Xadv ny nx xa m -> holds Yadv ny nx ya m ->
  (forall i j, lo <= j < hi -> xa i j = footx t i j /\ ya i j = footy t i j) -> present Tracker ny nx m ->
  exists m', find_cols s lo hi (fresh_cells s m) = Ok m' /\
    (forall i j, 0 <= i < ny -> 0 <= j < nx -> m' (Cellx, i, j) = Some (U (if (lo <=? j) && (j <? hi) then cellx t i j else 0)) /\
       m' (Celly, i, j) = Some (U (if (lo <=? j) && (j <? hi) then celly t i j else 0)) /\
       m' (Tracker, i, j) = if (lo <=? j) && (j <? hi) then Some (U (track t i j)) else m (Tracker, i, j)) /\
    (forall a i j, existsb (arr_eqb a) [Cellx; Celly; Tracker] = false -> m' (a, i, j) = m (a, i, j)).
Proof.
  intros Hl Hh [Hx Hy] Xa Ya Hf Pt. destruct P as (N1 & N2 & _). fold nx in N1. fold ny in N2.
  unfold find_cols. fold nx ny.
  destruct (find_loop nx ny (s_xlim1 s) (s_xlim2 s) (s_ylim1 s) (s_ylim2 s) x y xa ya lo hi (fresh_cells s m)) as (m3 & R3 & V3); try lia.
  { split; intros; rewrite fresh_cells_other by congruence; auto. }
  { intros i j Hi Hj. rewrite fresh_cells_other by congruence. auto. }
  { intros i j Hi Hj. rewrite fresh_cells_other by congruence. auto. }
  { intros i j Hi Hj. rewrite fresh_cells_other by congruence. auto. }
  { intros i j Hi Hj. rewrite fresh_cells_in by (cbn; auto). congruence. }
  { intros i j Hi Hj. rewrite fresh_cells_in by (cbn; auto). congruence. }
  exists m3. split; [exact R3|]. split.
  - intros i j Hi Hj. rewrite !V3. unfold in_rng. replace ((0 <=? i) && (i <? ny)) with true by lia. cbn [andb].
    destruct (_ && _)%bool eqn:Q; [|rewrite !fresh_cells_in by (cbn; auto); rewrite fresh_cells_other by congruence; auto].
    destruct (Hf i j) as [E1 E2]; [lia|]. rewrite E1, E2. unfold cellx, celly, track, where_. fold (footx t i j) (footy t i j) nx ny. cbv zeta. cbn [fst snd].
    rewrite !fresh_cells_in by (cbn; auto). destruct (snd (found _ _ _ _ _ _ _ _ _ _)); auto.
  - intros a i j Ha. rewrite V3. destruct in_rng; destruct a; try discriminate; apply fresh_cells_other; congruence.
Qed.

Lemma root_start_ok t m : nodes_at nx ny x y m ->
  exists m', root_start F s t m = Ok m' /\ nodes_at nx ny x y m' /\
    holds Xadv ny nx (part 0 nnx (footx t)) m' /\ holds Yadv ny nx (part 0 nnx (footy t)) m' /\
    (forall a i j, a <> Xadv -> a <> Yadv -> m' (a, i, j) = fresh s m (a, i, j)).
Proof. intros H. apply trace_ok; [lia|pose proof half; lia|exact H]. Qed.

(** *** even nx *)
Section Even.
Hypothesis Ev : nx = nnx + nnx.
Lemma helper_start_ok t m : nodes_at nx ny x y m ->
  exists m', helper_start F s t m = Ok m' /\ nodes_at nx ny x y m' /\
    holds Xadv ny nx (part nnx nx (footx t)) m' /\ holds Yadv ny nx (part nnx nx (footy t)) m' /\
    (forall r c, 0 <= c < ny -> 0 <= r < nnx -> m' (BA1, r, c) = Some (D (footx t c (r + nnx))) /\ m' (BB1, r, c) = Some (D (footy t c (r + nnx)))) /\
    (forall a i j, existsb (arr_eqb a) [Xadv; Yadv; BA1; BB1] = false -> m' (a, i, j) = fresh s m (a, i, j)).
Proof.
  intros H. pose proof half as Hh. destruct P as (N1 & _). fold nx in N1.
  unfold helper_start. fold nx ny nnx. cbv zeta.
  destruct (trace_ok t nnx nx m) as (m1 & R1 & Nd & X & Y & O1); try lia; [exact H|]. rewrite R1. cbn [bind].
  destruct (pack_adv_loop nnx nx ny (footx t) (footy t) m1) as (m2 & R2 & V2 & O2); try lia.
  { intros i j Hi Hj. rewrite X, Y by lia. unfold part. replace ((nnx <=? j) && (j <? nx)) with true by lia. auto. }
  { intros i j Hi Hj. rewrite O1, fresh_buf by (congruence || cbn; auto). congruence. }
  { intros i j Hi Hj. rewrite O1, fresh_buf by (congruence || cbn; auto). congruence. }
  exists m2. split; [exact R2|]. destruct Nd as [Nx Ny].
  split; [split; intros; rewrite O2 by reflexivity; auto|].
  split; [intros i j Hi Hj; rewrite O2 by reflexivity; auto|]. split; [intros i j Hi Hj; rewrite O2 by reflexivity; auto|].
  split; [intros; apply V2; lia|]. intros a i j Ha. rewrite O2, O1 by (destruct a; try discriminate; (reflexivity || congruence)). reflexivity.
Qed.
Lemma helper_middle_ok t m : nodes_at nx ny x y m -> holds Xadv ny nx (part nnx nx (footx t)) m -> holds Yadv ny nx (part nnx nx (footy t)) m ->
  present Tracker ny nx m -> present BA3 nnx ny m -> present BB3 nnx ny m -> present BC3 nnx ny m ->
  exists m', helper_middle s m = Ok m' /\ nodes_at nx ny x y m' /\
    (forall r c, 0 <= c < ny -> 0 <= r < nnx -> m' (BA3, r, c) = Some (D (nofZ (cellx t c (r + nnx)))) /\
       m' (BB3, r, c) = Some (D (nofZ (celly t c (r + nnx)))) /\ m' (BC3, r, c) = Some (D (nofZ (track t c (r + nnx))))).
Proof.
  intros H X Y Pt P1 P2 P3. pose proof half as Hh. destruct P as (N1 & _). fold nx in N1.
  unfold helper_middle. fold nx ny nnx. cbv zeta.
  destruct (find_ok t (part nnx nx (footx t)) (part nnx nx (footy t)) nnx nx m) as (m1 & R1 & V1 & O1); try lia; try assumption.
  { intros i j Hj. unfold part. replace ((nnx <=? j) && (j <? nx)) with true by lia. auto. }
  rewrite R1. cbn [bind].
  destruct (pack_cells_loop nnx nx ny (cellx t) (celly t) (track t) m1) as (m2 & R2 & V2 & O2); try lia.
  { intros i j Hi Hj. destruct (V1 i j) as (A & B & C); try lia. rewrite A, B, C. replace ((nnx <=? j) && (j <? nx)) with true by lia. auto. }
  1-3: intros i j Hi Hj; rewrite O1 by reflexivity; auto.
  exists m2. split; [exact R2|]. destruct H as [Nx Ny].
  split; [split; intros; rewrite O2, O1 by reflexivity; auto|]. intros; apply V2; lia.
Qed.
Lemma root_middle_ok t m : nodes_at nx ny x y m -> holds Xadv ny nx (part 0 nnx (footx t)) m -> holds Yadv ny nx (part 0 nnx (footy t)) m ->
  (forall r c, 0 <= c < ny -> 0 <= r < nnx -> m (BA1, r, c) = Some (D (footx t c (r + nnx))) /\ m (BB1, r, c) = Some (D (footy t c (r + nnx)))) ->
  present Tracker ny nx m ->
  exists m', root_middle s m = Ok m' /\
    holds Xadv ny nx (footx t) m' /\ holds Yadv ny nx (footy t) m' /\
    (forall i j, 0 <= i < ny -> 0 <= j < nnx -> m' (Cellx, i, j) = Some (U (cellx t i j)) /\
       m' (Celly, i, j) = Some (U (celly t i j)) /\ m' (Tracker, i, j) = Some (U (track t i j))) /\
    present Cellx ny nx m' /\ present Celly ny nx m' /\ present Tracker ny nx m' /\
    (forall a i j, existsb (arr_eqb a) [Xadv; Yadv; Cellx; Celly; Tracker] = false -> m' (a, i, j) = m (a, i, j)).
Proof.
  intros [Nx Ny] X Y B Pt. pose proof half as Hh. destruct P as (N1 & _). fold nx in N1.
  unfold root_middle. fold nx ny nnx. cbv zeta.
  destruct (unpack_adv_loop nnx nx ny (footx t) (footy t) m) as (m1 & R1 & V1); try lia.
  { intros i j Hi Hj. destruct (B (j - nnx) i) as [B1 B2]; try lia. rewrite B1, B2. replace (j - nnx + nnx) with j by lia. auto. }
  { intros i j Hi Hj. rewrite X by assumption. congruence. }
  { intros i j Hi Hj. rewrite Y by assumption. congruence. }
  rewrite R1. cbn [bind].
  assert (X1 : holds Xadv ny nx (footx t) m1).
  { intros i j Hi Hj. rewrite V1, X by assumption. unfold in_rng, part. replace ((0 <=? i) && (i <? ny)) with true by lia. cbn [andb].
    destruct (Z.leb_spec nnx j); [replace (j <? nx) with true by lia; reflexivity|]. replace ((0 <=? j) && (j <? nnx)) with true by lia. reflexivity. }
  assert (Y1 : holds Yadv ny nx (footy t) m1).
  { intros i j Hi Hj. rewrite V1, Y by assumption. unfold in_rng, part. replace ((0 <=? i) && (i <? ny)) with true by lia. cbn [andb].
    destruct (Z.leb_spec nnx j); [replace (j <? nx) with true by lia; reflexivity|]. replace ((0 <=? j) && (j <? nnx)) with true by lia. reflexivity. }
  assert (K1 : forall a i j, a <> Xadv -> a <> Yadv -> m1 (a, i, j) = m (a, i, j)).
  { intros a i j A1 A2. rewrite V1. destruct in_rng; [|reflexivity]. destruct a; reflexivity || congruence. }
  destruct (find_ok t (footx t) (footy t) 0 nnx m1) as (m2 & R2 & V2 & O2); try lia; auto.
  { split; intros; rewrite K1 by congruence; auto. }
  { intros i j Hi Hj. rewrite K1 by congruence. auto. }
  exists m2. split; [exact R2|].
  split; [intros i j Hi Hj; rewrite O2 by reflexivity; auto|]. split; [intros i j Hi Hj; rewrite O2 by reflexivity; auto|].
  split. { intros i j Hi Hj. destruct (V2 i j) as (A & B' & C); try lia. rewrite A, B', C. replace ((0 <=? j) && (j <? nnx)) with true by lia. auto. }
  split. { intros i j Hi Hj. destruct (V2 i j) as (A & B' & C); try lia. rewrite A. congruence. }
  split. { intros i j Hi Hj. destruct (V2 i j) as (A & B' & C); try lia. rewrite B'. congruence. }
  split. { intros i j Hi Hj. destruct (V2 i j) as (A & B' & C); try lia. rewrite C. destruct (_ && _)%bool; [congruence|]. rewrite K1 by congruence. auto. }
  intros a i j Ha. rewrite O2, K1 by (destruct a; try discriminate; (reflexivity || congruence)). reflexivity.
Qed.
Lemma root_end_ok t f m : nodes_at nx ny x y m -> contains nx ny f m -> holds Xadv ny nx (footx t) m -> holds Yadv ny nx (footy t) m ->
  (forall i j, 0 <= i < ny -> 0 <= j < nnx -> m (Cellx, i, j) = Some (U (cellx t i j)) /\
       m (Celly, i, j) = Some (U (celly t i j)) /\ m (Tracker, i, j) = Some (U (track t i j))) ->
  present Cellx ny nx m -> present Celly ny nx m -> present Tracker ny nx m ->
  (forall r c, 0 <= c < ny -> 0 <= r < nnx -> m (BA3, r, c) = Some (D (nofZ (cellx t c (r + nnx)))) /\
       m (BB3, r, c) = Some (D (nofZ (celly t c (r + nnx)))) /\ m (BC3, r, c) = Some (D (nofZ (track t c (r + nnx))))) ->
  exists m', root_end F s t m = Ok m' /\ nodes_at nx ny x y m' /\ contains nx ny (next true F s x y t f) m'.
Proof.
  intros [Hx Hy] (C1 & C2 & C3 & C4 & C5 & C6 & C7 & C8) Xa Ya Cl P1 P2 P3 B. pose proof half as Hh. destruct P as (N1 & N2 & _). fold nx in N1. fold ny in N2.
  unfold root_end. fold nx ny nnx. cbv zeta.
  destruct (unpack_cells_loop nnx nx ny (cellx t) (celly t) (track t) m) as (m3 & R3 & V3); try lia; try assumption.
  { intros i j Hi Hj. destruct (B (j - nnx) i) as (B1 & B2 & B3); try lia. rewrite B1, B2, B3. replace (j - nnx + nnx) with j by lia. auto. }
  { intros i j Hi Hj. pose proof (cell_bounds t i j). pose proof (track_bounds t i j). lia. }
  rewrite R3. cbn [bind].
  assert (Q : forall i j, 0 <= i < ny -> 0 <= j < nx -> in_rng ny nnx nx i j = (nnx <=? j)) by (intros; unfold in_rng; lia).
  assert (T3 : forall i j, 0 <= i < ny -> 0 <= j < nx -> m3 (Tracker, i, j) = Some (U (track t i j))).
  { intros i j Hi Hj. rewrite V3, Q by assumption. destruct (Z.leb_spec nnx j); [reflexivity|]. apply Cl; lia. }
  assert (X3 : forall i j, 0 <= i < ny -> 0 <= j < nx -> m3 (Cellx, i, j) = Some (U (cellx t i j))).
  { intros i j Hi Hj. rewrite V3, Q by assumption. destruct (Z.leb_spec nnx j); [reflexivity|]. apply Cl; lia. }
  assert (Y3 : forall i j, 0 <= i < ny -> 0 <= j < nx -> m3 (Celly, i, j) = Some (U (celly t i j))).
  { intros i j Hi Hj. rewrite V3, Q by assumption. destruct (Z.leb_spec nnx j); [reflexivity|]. apply Cl; lia. }
  assert (O3 : forall a i j, existsb (arr_eqb a) [Tracker; Cellx; Celly] = false -> m3 (a, i, j) = m (a, i, j)).
  { intros a i j Ha. rewrite V3. destruct in_rng; [|reflexivity]. destruct a; try discriminate; reflexivity. }
  clear V3 R3 Q B Cl P1 P2 P3.
  assert (Rng : forall i j, 0 <= i < ny -> 0 <= j < nx -> in_rng ny 0 nx i j = true) by (intros; unfold in_rng; lia).
  destruct (update_loop F (s_psischeme s) (s_rk3 s) t (s_dt s) (s_Tp s) nx ny x y (footx t) (footy t) (track t) (cellx t) (celly t)
     (f_phi f) (f_x f) (f_y f) (f_xy f) (f_phi f) (f_x f) (f_y f) (f_xy f) 0 nx m3) as (m4 & R4 & V4); try lia; try assumption.
  { split; intros; rewrite O3 by reflexivity; auto. }
  1-10: intros i j Hi Hj; rewrite O3 by reflexivity; auto.
  { intros i j _ _. apply cell_bounds. }
  rewrite R4. cbn [bind]. clear R4.
  assert (N4 : forall a i j, 0 <= i < ny -> 0 <= j < nx -> m4 (a, i, j) = match a with
      | Phi => Some (D (fst (fst (new_node true F s x y t f i j)))) | Psix => Some (D (snd (fst (new_node true F s x y t f i j))))
      | Psiy => Some (D (snd (new_node true F s x y t f i j))) | _ => m3 (a, i, j) end).
  { intros a i j Hi Hj. rewrite V4, Rng by assumption. destruct a; reflexivity. }
  assert (O4 : forall a i j, existsb (arr_eqb a) [Phi; Psix; Psiy] = false -> m4 (a, i, j) = m3 (a, i, j)).
  { intros a i j Ha. rewrite V4. destruct in_rng; [|reflexivity]. destruct a; try discriminate; reflexivity. }
  clear V4.
  destruct (mixed_loop nx ny (s_dx s) (s_dy s) (fun i j => snd (fst (new_node true F s x y t f i j))) (fun i j => snd (new_node true F s x y t f i j)) 0 nx (mixed_vars m4))
    as (m5 & R5 & V5); try lia.
  { intros i j Hi Hj. rewrite mixed_vars_other by reflexivity. rewrite N4 by assumption. reflexivity. }
  { intros i j Hi Hj. rewrite mixed_vars_other by reflexivity. rewrite N4 by assumption. reflexivity. }
  { intros i j Hi Hj. rewrite mixed_vars_other by reflexivity. rewrite N4, O3, C4 by (assumption || reflexivity). congruence. }
  { intros a Ha. apply mixed_vars_var. exact Ha. }
  rewrite R5. cbn [bind]. clear R5.
  assert (N5 : forall a i j, isvar a = false -> 0 <= i < ny -> 0 <= j < nx -> m5 (a, i, j) = match a with
      | Psixy => Some (D (f_xy (next true F s x y t f) i j)) | _ => m4 (a, i, j) end).
  { intros a i j Ha Hi Hj. rewrite V5, Rng, mixed_vars_other by assumption. destruct a; reflexivity. }
  assert (O5 : forall a i j, isvar a = false -> arr_eqb Psixy a = false -> m5 (a, i, j) = m4 (a, i, j)).
  { intros a i j Ha Hb. rewrite V5, mixed_vars_other by assumption. destruct in_rng; [|reflexivity]. destruct a; try discriminate; reflexivity. }
  clear V5.
  eexists; split; [reflexivity|]. split.
  - split; intros; unfold feed_back; cbn [assign arr_eqb]; rewrite O5, O4, O3 by reflexivity; auto.
  - unfold contains. unfold feed_back.
    repeat split; intros i j Hi Hj; cbn [assign arr_eqb]; rewrite N5 by (reflexivity || assumption); rewrite ?N4 by assumption; reflexivity.
Qed.

(** one time step of both, whole messages *)
Definition step_msgs size (m1 m2 : mem R) : list (@message R) := 
  [mpi_send size nnx ny BA1 m1; mpi_send size nnx ny BB1 m1; mpi_send size nnx ny BA3 m2; mpi_send size nnx ny BB3 m2; mpi_send size nnx ny BC3 m2].
Lemma helper_step_ok size t m out : nodes_at nx ny x y m ->
  exists m1 m2, wrun (helper_step size F s t) (m, out) = (Ok (m2, out), step_msgs size m1 m2) /\ nodes_at nx ny x y m2 /\
    (forall r c, 0 <= c < ny -> 0 <= r < nnx -> m1 (BA1, r, c) = Some (D (footx t c (r + nnx))) /\ m1 (BB1, r, c) = Some (D (footy t c (r + nnx)))) /\
    (forall r c, 0 <= c < ny -> 0 <= r < nnx -> m2 (BA3, r, c) = Some (D (nofZ (cellx t c (r + nnx)))) /\
       m2 (BB3, r, c) = Some (D (nofZ (celly t c (r + nnx)))) /\ m2 (BC3, r, c) = Some (D (nofZ (track t c (r + nnx))))).
Proof.
  intros H. destruct (helper_start_ok t m H) as (m1 & R1 & Nd & X & Y & B & O).
  destruct (helper_middle_ok t m1 Nd X Y) as (m2 & R2 & Nd2 & B2).
  { intros i j Hi Hj. rewrite O, fresh_tracker by (reflexivity || assumption). congruence. }
  1-3: intros i j Hi Hj; rewrite O, fresh_buf by (reflexivity || assumption || cbn; auto 6); congruence.
  exists m1, m2. split; [|auto]. unfold helper_step, on_mem. fold nx ny nnx. cbv zeta. cbn [wrun fst snd bind]. rewrite R1. cbn [wrun fst snd bind].
  rewrite R2. reflexivity.
Qed.
Lemma root_step_ok every t f m out m1 m2 q : 0 <= t < 4294967295 -> 0 < every ->
  nodes_at nx ny x y m -> contains nx ny f m ->
  (forall r c, 0 <= c < ny -> 0 <= r < nnx -> m1 (BA1, r, c) = Some (D (footx t c (r + nnx))) /\ m1 (BB1, r, c) = Some (D (footy t c (r + nnx)))) ->
  (forall r c, 0 <= c < ny -> 0 <= r < nnx -> m2 (BA3, r, c) = Some (D (nofZ (cellx t c (r + nnx)))) /\
       m2 (BB3, r, c) = Some (D (nofZ (celly t c (r + nnx)))) /\ m2 (BC3, r, c) = Some (D (nofZ (track t c (r + nnx))))) ->
  exists m', rrun (root_step F s every t) (m, out) (step_msgs MPI_DOUBLE m1 m2 ++ q) =
      RFin (m', if (t + 1) mod every =? 0 then out ++ [(time_at (t + 1) (s_dt s), m')] else out) q /\
    nodes_at nx ny x y m' /\ contains nx ny (next true F s x y t f) m'.
Proof.
  intros Ht He Hn0 Hc B1 B2. pose proof half as Hh.
  destruct (root_start_ok t m Hn0) as (ma & Ra & [Nx Ny] & X & Y & O).
  set (mb := mpi_recv ny BB1 (mpi_send MPI_DOUBLE nnx ny BB1 m1) (mpi_recv ny BA1 (mpi_send MPI_DOUBLE nnx ny BA1 m1) ma)).
  assert (Ob : forall a i j, a <> BA1 -> a <> BB1 -> mb (a, i, j) = ma (a, i, j)).
  { intros a i j A A'. unfold mb. rewrite !recv_other by (destruct a; reflexivity || congruence). reflexivity. }
  destruct (root_middle_ok t mb) as (mc & Rc & Xc & Yc & Cl & P1 & P2 & P3 & Oc).
  { split; intros; rewrite Ob by congruence; auto. }
  { intros i j Hi Hj; rewrite Ob by congruence; auto. } { intros i j Hi Hj; rewrite Ob by congruence; auto. }
  { intros r c Hc' Hr. unfold mb. split.
    - rewrite recv_other by reflexivity. rewrite (exchange_whole _ _ _ _ _ _ _ Undef); try lia; [apply B1; assumption|].
      rewrite O, fresh_buf by (congruence || assumption || cbn; auto 6). reflexivity.
    - rewrite (exchange_whole _ _ _ _ _ _ _ Undef); try lia; [apply B1; assumption|].
      rewrite recv_other, O, fresh_buf by (reflexivity || congruence || assumption || cbn; auto 6). reflexivity. }
  { intros i j Hi Hj. rewrite Ob, O, fresh_tracker by (congruence || assumption). congruence. }
  set (md := mpi_recv ny BC3 (mpi_send MPI_DOUBLE nnx ny BC3 m2) (mpi_recv ny BB3 (mpi_send MPI_DOUBLE nnx ny BB3 m2) (mpi_recv ny BA3 (mpi_send MPI_DOUBLE nnx ny BA3 m2) mc))).
  assert (Od : forall a i j, a <> BA3 -> a <> BB3 -> a <> BC3 -> md (a, i, j) = mc (a, i, j)).
  { intros a i j A A' A''. unfold md. rewrite !recv_other by (destruct a; reflexivity || congruence). reflexivity. }
  assert (Kf : forall a i j, existsb (arr_eqb a) ([Xadv; Yadv; Cellx; Celly; Tracker] ++ bufs) = false -> md (a, i, j) = m (a, i, j)).
  { intros a i j Ha. rewrite Od, Oc, Ob, O, fresh_other by (destruct a; try discriminate; (reflexivity || congruence)). reflexivity. }
  assert (Cd : forall a r c, In a [BA3; BB3; BC3] -> 0 <= c < ny -> 0 <= r < nnx -> mc (a, r, c) = Some Undef).
  { intros a r c Ha Hc' Hr. rewrite Oc, Ob, O by (destruct Ha as [<-|[<-|[<-|[]]]]; (reflexivity || congruence)).
    apply fresh_buf; try assumption. destruct Ha as [<-|[<-|[<-|[]]]]; cbn; auto 6. }
  destruct (root_end_ok t f md) as (m' & Re & Nd' & Ct).
  { destruct Hn0. split; intros; rewrite Kf by reflexivity; auto. }
  { destruct Hc as (A1 & A2 & A3 & A4 & A5 & A6 & A7 & A8). repeat split; intros i j Hi Hj; rewrite Kf by reflexivity; auto. }
  { intros i j Hi Hj. rewrite Od by congruence. auto. } { intros i j Hi Hj. rewrite Od by congruence. auto. }
  { intros i j Hi Hj. rewrite !Od by congruence. auto. }
  1-3: intros i j Hi Hj; rewrite Od by congruence; auto.
  { intros r c Hc' Hr. destruct (B2 r c Hc' Hr) as (E1 & E2 & E3). unfold md. repeat split.
    - rewrite !(recv_other _ BC3), !(recv_other _ BB3) by reflexivity. rewrite (exchange_whole _ _ _ _ _ _ _ Undef); try lia; [exact E1|]. apply Cd; cbn; auto.
    - rewrite !(recv_other _ BC3) by reflexivity. rewrite (exchange_whole _ _ _ _ _ _ _ Undef); try lia; [exact E2|]. rewrite recv_other by reflexivity. apply Cd; cbn; auto.
    - rewrite (exchange_whole _ _ _ _ _ _ _ Undef); try lia; [exact E3|]. rewrite !recv_other by reflexivity. apply Cd; cbn; auto. }
  exists m'. split; [|auto]. unfold root_step, on_mem, step_msgs. fold nx ny nnx. cbv zeta. cbn [rrun fst snd bind app]. rewrite Ra. cbn [rrun fst snd bind].
  fold mb. rewrite Rc. cbn [rrun fst snd bind]. fold md. rewrite Re. cbn [rrun fst snd bind]. unfold root_print.
  rewrite (proj2 (Z.eqb_neq every 0)) by lia. rewrite u32_small by lia. cbn [fst snd]. reflexivity.
Qed.

(** the loop *)
Lemma loop_mpi every f0 : 0 < every -> forall left k m out mh oh,
  Z.of_nat (k + left) < 4294967296 ->
  nodes_at nx ny x y m -> contains nx ny (after true F s x y k f0) m -> nodes_at nx ny x y mh ->
  blocks every (fun q b => fst b = time_at (Z.of_nat q) (s_dt s) /\ contains nx ny (after true F s x y q f0) (snd b)) k out ->
  exists m' out' mh' oh',
    whole (mkConf (upto (root_step F s every) (Z.of_nat k) left) (m, out) (upto (helper_step MPI_DOUBLE F s) (Z.of_nat k) left) (mh, oh) [])
      = (RFin (m', out') [], Ok (mh', oh')) /\
    contains nx ny (after true F s x y (k + left) f0) m' /\
    blocks every (fun q b => fst b = time_at (Z.of_nat q) (s_dt s) /\ contains nx ny (after true F s x y q f0) (snd b)) (k + left) out' /\ oh' = oh.
Proof.
  intros He. induction left as [|left IH]; intros k m out mh oh B Nd Ct Nh Bl.
  - exists m, out, mh, oh. rewrite Nat.add_0_r. auto.
  - cbn [upto]. destruct (helper_step_ok MPI_DOUBLE (Z.of_nat k) mh oh Nh) as (m1 & m2 & W & Nh2 & B1 & B2).
    unfold whole. cbn [c_w c_ws c_r c_rs c_q app]. rewrite (wrun_app _ _ _ _ _ W). cbn [fst snd].
    replace (Z.of_nat k + 1) with (Z.of_nat (S k)) by lia.
    destruct (root_step_ok every (Z.of_nat k) _ m out m1 m2 (snd (wrun (upto (helper_step MPI_DOUBLE F s) (Z.of_nat (S k)) left) (m2, oh))) ltac:(lia) He Nd Ct B1 B2)
      as (m' & Rr & Nd' & Ct').
    rewrite (rrun_app _ _ _ _ _ _ Rr).
    replace (k + S left)%nat with (S k + left)%nat by lia.
    destruct (IH (S k) m' (if (Z.of_nat k + 1) mod every =? 0 then out ++ [(time_at (Z.of_nat k + 1) (s_dt s), m')] else out) m2 oh) as (m'' & out' & mh' & oh' & Wh & Q1 & Q2 & Q3); try assumption.
    { lia. }
    { replace (Z.of_nat k + 1) with (Z.of_nat (S k)) by lia. destruct (Z.eqb_spec (Z.of_nat (S k) mod every) 0) as [E|E].
      - apply blocks_push; auto.
      - apply blocks_skip; auto. }
    exists m'', out', mh', oh'. split; [exact Wh|auto].
Qed.
End Even.
End Step.
