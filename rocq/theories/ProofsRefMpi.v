(** The loops and messages of the MPI program. *)
From Coq Require Import ZArith List Permutation Bool Lia String Reals Lra.
From Verif Require Import Base Num NumB64 ModelVec ModelRefMath ModelRefMem ModelRef ModelRefMpi SpecRefPar SpecRefRun
  ProofsBase ProofsGridProps ProofsRefMem ProofsRefPar ProofsRefRun ProofsRefUpd ProofsRefMix ProofsRefSearch ProofsRefStep ProofsRefMain ProofsRefReal ProofsRefPair.
Open Scope Z_scope.

(** *** loops whose iterations own another node than their own *)
Section Pos.
Context {T : Type}.
Implicit Types (m : mem T).
Variable pos : Z * Z -> Z * Z.
Definition own_pos (B : list arr) (ij : Z * Z) : loc -> bool := at_node B (pos ij).
Lemma separate_pos B is : NoDup (map pos is) -> separate (own_pos B) is.
Proof.
  induction is as [|ij is IH]; intros N; [constructor|]. cbn [map] in N. inversion N as [|? ? H N']; subst. constructor; [|apply IH; exact N'].
  rewrite Forall_forall. intros kl Hkl l. apply at_node_apart. intros E. apply H. rewrite E. apply in_map. exact Hkl.
Qed.
Lemma loop_pos (body : Z * Z -> prog T) A B is m fin : NoDup (map pos is) ->
  (forall a, existsb (arr_eqb a) A = true -> existsb (arr_eqb a) B = false) ->
  (forall ij, touches (own_pos B ij) (of_arrs A) (body ij)) ->
  (forall ij, In ij is -> exists m1, run (body ij) m = Ok m1 /\ forall a, existsb (arr_eqb a) B = true -> m1 (a, fst (pos ij), snd (pos ij)) = fin (a, fst (pos ij), snd (pos ij))) ->
  exists m', runs (map body is) m = Ok m' /\
    (forall a u v, existsb (arr_eqb a) B = true -> In (u, v) (map pos is) -> m' (a, u, v) = fin (a, u, v)) /\
    (forall a u v, existsb (arr_eqb a) B = false \/ ~ In (u, v) (map pos is) -> m' (a, u, v) = m (a, u, v)).
Proof.
  intros N Hd Ht Hb.
  destruct (alone_serial body (own_pos B) (of_arrs A) Ht) with (is := is) (m := m) (fin := fin) as (m' & H & H1 & H2).
  - intros ij l Hl. unfold own_pos. eapply foot_apart; eauto.
  - apply separate_pos. exact N.
  - intros ij Hin. destruct (Hb ij Hin) as (m1 & R1 & F1). exists m1. split; [exact R1|].
    intros [[a u] v] Hl. unfold own_pos, at_node in Hl. apply andb_true_iff in Hl as [Hl Hv]. apply andb_true_iff in Hl as [Ha Hu].
    apply Z.eqb_eq in Hu, Hv. subst. apply F1. exact Ha.
  - exists m'. split; [exact H|]. split.
    + intros a u v Ha Hin. apply H1. apply existsb_exists. apply in_map_iff in Hin as (ij & E & Hin). exists ij. split; [exact Hin|].
      unfold own_pos, at_node. rewrite E. cbn [fst snd]. rewrite Ha, !Z.eqb_refl. reflexivity.
    + intros a u v Ho. apply H2. destruct (anyW (own_pos B) is (a, u, v)) eqn:E; [|reflexivity]. exfalso.
      apply existsb_exists in E as (ij & Hin & Hl). unfold own_pos, at_node in Hl. apply andb_true_iff in Hl as [Hl Hv]. apply andb_true_iff in Hl as [Ha Hu].
      apply Z.eqb_eq in Hu, Hv. destruct Ho as [Ho|Ho]; [congruence|]. apply Ho. apply in_map_iff. exists ij. split; [|exact Hin]. destruct (pos ij); cbn in *; congruence.
Qed.
Lemma par_pos (body : Z * Z -> prog T) A B is teams m m' r : NoDup (map pos is) ->
  (forall a, existsb (arr_eqb a) A = true -> existsb (arr_eqb a) B = false) ->
  (forall ij, touches (own_pos B ij) (of_arrs A) (body ij)) ->
  team_of is teams -> runs (map body is) m = Ok m' ->
  (interleaved (threads body teams) m r -> same_result r (Ok m')) /\ ~ data_race (threads body teams) m.
Proof.
  intros N Hd Ht Hp Hr.
  assert (HR : forall i l, of_arrs A l = true -> own_pos B i l = false) by (intros; eapply foot_apart; eauto).
  pose proof (separate_pos B _ N) as Hs.
  split; [intros Hi; eapply (schedule_free body (own_pos B) (of_arrs A)); eauto|eapply (race_free body (own_pos B) (of_arrs A)); eauto].
Qed.
End Pos.

Definition turned (nnx : Z) (ij : Z * Z) : Z * Z := (u32 (snd ij - nnx), fst ij).
Lemma nodup_map_on {A B} (f : A -> B) l : (forall a b, In a l -> In b l -> f a = f b -> a = b) -> NoDup l -> NoDup (map f l).
Proof.
  induction l as [|a l IH]; intros Hf N; [constructor|]. inversion N; subst. cbn [map]. constructor.
  - intros Hin. apply in_map_iff in Hin as (b & E & Hb). apply Hf in E; [subst; contradiction|right; exact Hb|left; reflexivity].
  - apply IH; [|assumption]. intros; apply Hf; auto; right; assumption.
Qed.
Lemma turned_nodup nnx nx ny : 0 <= nnx -> nx < 4294967296 -> NoDup (map (turned nnx) (nodes ny nnx nx)).
Proof.
  intros H1 H2. apply nodup_map_on; [|apply nodes_nodup]. intros [i j] [i' j'] Ha Hb E. apply in_nodes in Ha as [? ?]. apply in_nodes in Hb as [? ?].
  unfold turned in E. cbn [fst snd] in E. rewrite !u32_small in E by lia. injection E as E1 E2. f_equal; lia.
Qed.
Lemma turned_in nnx nx ny r c : 0 <= nnx -> nx < 4294967296 -> In (r, c) (map (turned nnx) (nodes ny nnx nx)) <-> 0 <= c < ny /\ 0 <= r < nx - nnx.
Proof.
  intros H1 H2. rewrite in_map_iff. split.
  - intros ([i j] & E & H). apply in_nodes in H as [? ?]. unfold turned in E. cbn [fst snd] in E. rewrite u32_small in E by lia. injection E as <- <-. lia.
  - intros [? ?]. exists (c, r + nnx). split; [|apply in_nodes; lia]. unfold turned. cbn [fst snd]. rewrite u32_small by lia. f_equal. lia.
Qed.

Section Loops.
Context {T : Type} {NT : Num T}.
Implicit Types (m : mem T).

Lemma pack_adv_touches nnx ij : touches (own_pos (turned nnx) [BA1; BB1] ij) (of_arrs [Xadv; Yadv]) (pack_adv (T := T) nnx ij).
Proof.
  destruct ij as [i j]. unfold pack_adv.
  apply touches_rd; [reflexivity|intros]. apply touches_wr; [unfold own_pos, turned; cbn; rewrite !Z.eqb_refl; reflexivity|].
  apply touches_rd; [reflexivity|intros]. apply touches_wr; [unfold own_pos, turned; cbn; rewrite !Z.eqb_refl; reflexivity|]. constructor.
Qed.
Lemma pack_cells_touches nnx ij : touches (own_pos (turned nnx) [BA3; BB3; BC3] ij) (of_arrs [Cellx; Celly; Tracker]) (pack_cells (T := T) nnx ij).
Proof.
  destruct ij as [i j]. unfold pack_cells. cbv zeta.
  do 3 (apply touches_rdu; [reflexivity|intros]; apply touches_wr; [unfold own_pos, turned; cbn; rewrite !Z.eqb_refl; reflexivity|]). constructor.
Qed.
Lemma unpack_adv_touches nnx ij : touches (at_node [Xadv; Yadv] ij) (of_arrs [BA1; BB1]) (unpack_adv (T := T) nnx ij).
Proof.
  destruct ij as [i j]. unfold unpack_adv.
  do 2 (apply touches_rd; [reflexivity|intros]; apply touches_wr; [cbn; rewrite !Z.eqb_refl; reflexivity|]). constructor.
Qed.
Lemma touches_unsigned W R v k : (forall z, touches W R (k z)) -> touches W R (to_unsigned (T := T) v k).
Proof. intros H. unfold to_unsigned. destruct (_ && _)%bool; [apply H|constructor]. Qed.
Lemma unpack_cells_touches nnx ij : touches (at_node [Cellx; Celly; Tracker] ij) (of_arrs [BA3; BB3; BC3]) (unpack_cells (T := T) nnx ij).
Proof.
  destruct ij as [i j]. unfold unpack_cells. cbv zeta.
  do 3 (apply touches_rd; [reflexivity|intros]; apply touches_unsigned; intros; apply touches_wr; [cbn; rewrite !Z.eqb_refl; reflexivity|]). constructor.
Qed.

(** copies of columns nnx.. into the buffers *)
Lemma pack_adv_loop nnx nx ny (xa ya : Z -> Z -> T) m : 0 <= nnx -> nx < 4294967296 -> nx - nnx <= nnx ->
  (forall i j, 0 <= i < ny -> nnx <= j < nx -> m (Xadv, i, j) = Some (D (xa i j)) /\ m (Yadv, i, j) = Some (D (ya i j))) ->
  present BA1 nnx ny m -> present BB1 nnx ny m ->
  exists m', runs (map (pack_adv nnx) (nodes ny nnx nx)) m = Ok m' /\
    (forall r c, 0 <= c < ny -> 0 <= r < nx - nnx -> m' (BA1, r, c) = Some (D (xa c (r + nnx))) /\ m' (BB1, r, c) = Some (D (ya c (r + nnx)))) /\
    (forall a i j, existsb (arr_eqb a) [BA1; BB1] = false -> m' (a, i, j) = m (a, i, j)).
Proof.
  intros L1 L2 L3 Hx P1 P2.
  destruct (loop_pos (turned nnx) (pack_adv nnx) [Xadv; Yadv] [BA1; BB1] (nodes ny nnx nx) m
    (fun l : loc => match l with (a, r, c) => Some (D ((match a with BA1 => xa | _ => ya end) c (r + nnx))) end)) as (m' & H & H1 & H2).
  - apply turned_nodup; assumption.
  - intros []; cbn; congruence.
  - apply pack_adv_touches.
  - intros [i j] Hin. apply in_nodes in Hin as [Hi Hj]. destruct (Hx i j Hi Hj) as [X Y].
    unfold pack_adv, turned. cbn [fst snd]. rewrite !u32_small by lia.
    destruct (m (BA1, j - nnx, i)) as [v1|] eqn:E1; [|exfalso; apply (P1 (j - nnx) i); (lia || exact E1)].
    destruct (m (BB1, j - nnx, i)) as [v2|] eqn:E2; [|exfalso; apply (P2 (j - nnx) i); (lia || exact E2)].
    rewrite (run_rd _ _ (xa i j)) by exact X. rewrite (run_wr _ _ _ v1) by exact E1.
    rewrite (run_rd _ _ (ya i j)) by (rewrite upd_other; [exact Y|congruence]).
    rewrite (run_wr _ _ _ v2) by (rewrite upd_other; [exact E2|congruence]).
    eexists. split; [reflexivity|]. intros a Ha. destruct a; try discriminate.
    + rewrite upd_other by congruence. rewrite upd_same. f_equal. f_equal. f_equal. lia.
    + rewrite upd_same. f_equal. f_equal. f_equal. lia.
  - exists m'. split; [exact H|]. split.
    + intros r c Hc Hr. split; rewrite H1 by (reflexivity || apply turned_in; (lia || auto)); reflexivity.
    + intros a i j Ha. apply H2. left. exact Ha.
Qed.
Lemma pack_cells_loop nnx nx ny (cx cy tr : Z -> Z -> Z) m : 0 <= nnx -> nx < 4294967296 -> nx - nnx <= nnx ->
  (forall i j, 0 <= i < ny -> nnx <= j < nx -> m (Cellx, i, j) = Some (U (cx i j)) /\ m (Celly, i, j) = Some (U (cy i j)) /\ m (Tracker, i, j) = Some (U (tr i j))) ->
  present BA3 nnx ny m -> present BB3 nnx ny m -> present BC3 nnx ny m ->
  exists m', runs (map (pack_cells nnx) (nodes ny nnx nx)) m = Ok m' /\
    (forall r c, 0 <= c < ny -> 0 <= r < nx - nnx -> m' (BA3, r, c) = Some (D (nofZ (cx c (r + nnx)))) /\
       m' (BB3, r, c) = Some (D (nofZ (cy c (r + nnx)))) /\ m' (BC3, r, c) = Some (D (nofZ (tr c (r + nnx))))) /\
    (forall a i j, existsb (arr_eqb a) [BA3; BB3; BC3] = false -> m' (a, i, j) = m (a, i, j)).
Proof.
  intros L1 L2 L3 Hx P1 P2 P3.
  destruct (loop_pos (turned nnx) (pack_cells nnx) [Cellx; Celly; Tracker] [BA3; BB3; BC3] (nodes ny nnx nx) m
    (fun l : loc => match l with (a, r, c) => Some (D (nofZ ((match a with BA3 => cx | BB3 => cy | _ => tr end) c (r + nnx)))) end)) as (m' & H & H1 & H2).
  - apply turned_nodup; assumption.
  - intros []; cbn; congruence.
  - apply pack_cells_touches.
  - intros [i j] Hin. apply in_nodes in Hin as [Hi Hj]. destruct (Hx i j Hi Hj) as (X & Y & Z0).
    unfold pack_cells, turned. cbv zeta. cbn [fst snd]. rewrite !u32_small by lia.
    destruct (m (BA3, j - nnx, i)) as [v1|] eqn:E1; [|exfalso; apply (P1 (j - nnx) i); (lia || exact E1)].
    destruct (m (BB3, j - nnx, i)) as [v2|] eqn:E2; [|exfalso; apply (P2 (j - nnx) i); (lia || exact E2)].
    destruct (m (BC3, j - nnx, i)) as [v3|] eqn:E3; [|exfalso; apply (P3 (j - nnx) i); (lia || exact E3)].
    rewrite (run_rdu _ _ (cx i j)) by exact X. rewrite (run_wr _ _ _ v1) by exact E1.
    rewrite (run_rdu _ _ (cy i j)) by (rewrite upd_other; [exact Y|congruence]).
    rewrite (run_wr _ _ _ v2) by (rewrite upd_other; [exact E2|congruence]).
    rewrite (run_rdu _ _ (tr i j)) by (rewrite !upd_other; [exact Z0|congruence..]).
    rewrite (run_wr _ _ _ v3) by (rewrite !upd_other; [exact E3|congruence..]).
    eexists. split; [reflexivity|]. intros a Ha. destruct a; try discriminate; rewrite ?upd_same; rewrite ?upd_other by congruence; rewrite ?upd_other by congruence; rewrite ?upd_same;
      (do 4 f_equal; lia).
  - exists m'. split; [exact H|]. split.
    + intros r c Hc Hr. repeat split; rewrite H1 by (reflexivity || apply turned_in; (lia || auto)); reflexivity.
    + intros a i j Ha. apply H2. left. exact Ha.
Qed.
Lemma unpack_adv_loop nnx nx ny (xa ya : Z -> Z -> T) m : 0 <= nnx -> nx < 4294967296 ->
  (forall i j, 0 <= i < ny -> nnx <= j < nx -> m (BA1, j - nnx, i) = Some (D (xa i j)) /\ m (BB1, j - nnx, i) = Some (D (ya i j))) ->
  present Xadv ny nx m -> present Yadv ny nx m ->
  exists m', runs (map (unpack_adv nnx) (nodes ny nnx nx)) m = Ok m' /\
    forall a i j, m' (a, i, j) = if in_rng ny nnx nx i j then match a with
      | Xadv => Some (D (xa i j)) | Yadv => Some (D (ya i j)) | _ => m (a, i, j) end else m (a, i, j).
Proof.
  intros L1 L2 Hb P1 P2.
  destruct (loop_nodes (unpack_adv nnx) [BA1; BB1] [Xadv; Yadv] ny nnx nx m
    (fun l : loc => match l with (a, i, j) => Some (D ((match a with Xadv => xa | _ => ya end) i j)) end)) as (m' & H & H1).
  - intros []; cbn; congruence.
  - apply unpack_adv_touches.
  - intros i j Hi Hj. destruct (Hb i j Hi Hj) as [X Y]. unfold unpack_adv. rewrite !u32_small by lia.
    destruct (m (Xadv, i, j)) as [v1|] eqn:E1; [|exfalso; apply (P1 i j); (lia || exact E1)].
    destruct (m (Yadv, i, j)) as [v2|] eqn:E2; [|exfalso; apply (P2 i j); (lia || exact E2)].
    rewrite (run_rd _ _ (xa i j)) by exact X. rewrite (run_wr _ _ _ v1) by exact E1.
    rewrite (run_rd _ _ (ya i j)) by (rewrite upd_other; [exact Y|congruence]).
    rewrite (run_wr _ _ _ v2) by (rewrite upd_other; [exact E2|congruence]).
    eexists. split; [reflexivity|]. intros a Ha. destruct a; try discriminate; rewrite ?upd_same; rewrite ?upd_other by congruence; rewrite ?upd_same; reflexivity.
  - exists m'. split; [exact H|]. intros a i j. rewrite H1. unfold in_rng.
    destruct (existsb (arr_eqb a) [Xadv; Yadv]) eqn:Ea; cbn [andb].
    + destruct (_ && _)%bool; [|reflexivity]. destruct a; try discriminate; reflexivity.
    + destruct (_ && _)%bool; [|reflexivity]. destruct a; try discriminate; reflexivity.
Qed.
End Loops.

(** an unsigned int survives the way through a double *)
Lemma unsigned_back z (k : Z -> prog R) : 0 <= z < 4294967296 -> to_unsigned (nofZ z) k = k z.
Proof.
  intros Hz. unfold to_unsigned. change (nofZ z <? nofZ 0)%num with (Rltb (IZR z) 0). destruct (Rltb_spec (IZR z) 0) as [H|H]; [apply lt_IZR in H; lia|].
  change (nfloor (nofZ z)) with (Rfloor (IZR z)). rewrite (Rfloor_unique (IZR z) z) by (split; [lra|]; rewrite <- plus_IZR; apply IZR_lt; lia).
  replace ((0 <=? z) && (z <=? 4294967295))%bool with true by lia. reflexivity.
Qed.
Lemma unpack_cells_loop nnx nx ny (cx cy tr : Z -> Z -> Z) (m : mem R) : 0 <= nnx -> nx < 4294967296 ->
  (forall i j, 0 <= i < ny -> nnx <= j < nx -> m (BA3, j - nnx, i) = Some (D (nofZ (cx i j))) /\ m (BB3, j - nnx, i) = Some (D (nofZ (cy i j))) /\ m (BC3, j - nnx, i) = Some (D (nofZ (tr i j)))) ->
  (forall i j, 0 <= i < ny -> nnx <= j < nx -> 0 <= cx i j < 4294967296 /\ 0 <= cy i j < 4294967296 /\ 0 <= tr i j < 4294967296) ->
  present Cellx ny nx m -> present Celly ny nx m -> present Tracker ny nx m ->
  exists m', runs (map (unpack_cells nnx) (nodes ny nnx nx)) m = Ok m' /\
    forall a i j, m' (a, i, j) = if in_rng ny nnx nx i j then match a with
      | Cellx => Some (U (cx i j)) | Celly => Some (U (cy i j)) | Tracker => Some (U (tr i j)) | _ => m (a, i, j) end else m (a, i, j).
Proof.
  intros L1 L2 Hb Hr P1 P2 P3.
  destruct (loop_nodes (unpack_cells nnx) [BA3; BB3; BC3] [Cellx; Celly; Tracker] ny nnx nx m
    (fun l : loc => match l with (a, i, j) => Some (U ((match a with Cellx => cx | Celly => cy | _ => tr end) i j)) end)) as (m' & H & H1).
  - intros []; cbn; congruence.
  - apply unpack_cells_touches.
  - intros i j Hi Hj. destruct (Hb i j Hi Hj) as (X & Y & Z0). destruct (Hr i j Hi Hj) as (B1 & B2 & B3). unfold unpack_cells. cbv zeta. rewrite !u32_small by lia.
    destruct (m (Cellx, i, j)) as [v1|] eqn:E1; [|exfalso; apply (P1 i j); (lia || exact E1)].
    destruct (m (Celly, i, j)) as [v2|] eqn:E2; [|exfalso; apply (P2 i j); (lia || exact E2)].
    destruct (m (Tracker, i, j)) as [v3|] eqn:E3; [|exfalso; apply (P3 i j); (lia || exact E3)].
    rewrite (run_rd _ _ (nofZ (cx i j))) by exact X. rewrite unsigned_back by exact B1. rewrite (run_wr _ _ _ v1) by exact E1.
    rewrite (run_rd _ _ (nofZ (cy i j))) by (rewrite upd_other; [exact Y|congruence]). rewrite unsigned_back by exact B2.
    rewrite (run_wr _ _ _ v2) by (rewrite upd_other; [exact E2|congruence]).
    rewrite (run_rd _ _ (nofZ (tr i j))) by (rewrite !upd_other; [exact Z0|congruence..]). rewrite unsigned_back by exact B3.
    rewrite (run_wr _ _ _ v3) by (rewrite !upd_other; [exact E3|congruence..]).
    eexists. split; [reflexivity|]. intros a Ha. destruct a; try discriminate; rewrite ?upd_same; rewrite ?upd_other by congruence; rewrite ?upd_other by congruence; rewrite ?upd_same; reflexivity.
  - exists m'. split; [exact H|]. intros a i j. rewrite H1. unfold in_rng.
    destruct (existsb (arr_eqb a) [Cellx; Celly; Tracker]) eqn:Ea; cbn [andb].
    + destruct (_ && _)%bool; [|reflexivity]. destruct a; try discriminate; reflexivity.
    + destruct (_ && _)%bool; [|reflexivity]. destruct a; try discriminate; reflexivity.
Qed.

(** *** messages *)
Section Messages.
Context {T : Type} {NT : Num T}.
Implicit Types (m : mem T).
Lemma recv_other ny a b x m i j : arr_eqb a b = false -> mpi_recv ny a x m (b, i, j) = m (b, i, j).
Proof. intros H. cbn. rewrite H. reflexivity. Qed.
Lemma arr_refl a : arr_eqb a a = true.
Proof. destruct a; reflexivity. Qed.
(** which elements arrive *)
Lemma exchange size nnx ny a m0 m1 r c v : 0 <= nnx -> 0 <= r < nnx -> 0 <= c < ny -> nnx * ny < 4294967296 -> m0 (a, r, c) = Some v ->
  mpi_recv ny a (mpi_send size nnx ny a m1) m0 (a, r, c) =
    let k := r * ny + c in
    if 2 * k + 2 <=? size * (nnx * ny) then m1 (a, r, c) else if 2 * k + 1 <=? size * (nnx * ny) then Some Undef else Some v.
Proof.
  intros H0 Hr Hc Hn E. cbn [mpi_recv]. rewrite arr_refl, E. cbv zeta. unfold mpi_send. cbn [words content].
  rewrite u32_small by nia. rewrite (Z.mul_comm ny nnx).
  rewrite Z.div_add_l by lia. rewrite (Z.div_small c) by lia. rewrite Z.add_0_r.
  rewrite (Z.add_comm (r * ny)), Z.mod_add, Z.mod_small by lia. rewrite (Z.add_comm c). reflexivity.
Qed.
Lemma exchange_whole nnx ny a m0 m1 r c v : 0 <= nnx -> 0 <= r < nnx -> 0 <= c < ny -> nnx * ny < 4294967296 -> m0 (a, r, c) = Some v ->
  mpi_recv ny a (mpi_send MPI_DOUBLE nnx ny a m1) m0 (a, r, c) = m1 (a, r, c).
Proof.
  intros H0 Hr Hc Hn E. rewrite (exchange _ _ _ _ _ _ _ _ v) by assumption. cbv zeta. unfold MPI_DOUBLE.
  rewrite (proj2 (Z.leb_le _ _)) by nia. reflexivity.
Qed.
End Messages.
