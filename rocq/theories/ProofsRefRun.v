(** The serial loops of the reference code as functions of the stored fields. *)
From Coq Require Import ZArith List Permutation Bool Lia String.
From Verif Require Import Base Num NumB64 ModelVec ModelRefMath ModelRefMem ModelRef SpecRefPar SpecRefRun ProofsBase ProofsRefMem ProofsRefPar.
Open Scope Z_scope.

Section Run.
Context {T : Type} {NT : Num T}.
Implicit Types (m : mem T) (p : prog T).

Lemma run_rd m l x (k : T -> prog T) : m l = Some (D x) -> run (rd l k) m = run (k x) m.
Proof. intros H. unfold rd. cbn [run]. rewrite H. reflexivity. Qed.
Lemma run_rdu m l x (k : Z -> prog T) : m l = Some (U x) -> run (rdu l k) m = run (k x) m.
Proof. intros H. unfold rdu. cbn [run]. rewrite H. reflexivity. Qed.
Lemma run_wr m l v v0 p : m l = Some v0 -> run (Wr l v p) m = run p (upd m l v).
Proof. intros H. cbn [run]. rewrite H. reflexivity. Qed.
Lemma run_rdvec m a (f : Z -> T) n : forall i (k : list T -> prog T),
  (forall j, i <= j < i + Z.of_nat n -> m (a, j, 0) = Some (D (f j))) ->
  run (rdvec a i n k) m = run (k (map f (range i (i + Z.of_nat n)))) m.
Proof.
  induction n as [|n IH]; intros i k H; cbn [rdvec].
  - replace (range i (i + Z.of_nat 0)) with (@nil Z); [reflexivity|]. unfold range. replace (i + Z.of_nat 0 - i) with 0 by lia. reflexivity.
  - rewrite (run_rd m _ (f i)) by (apply H; lia). rewrite (IH (i + 1)) by (intros; apply H; lia).
    f_equal. f_equal. replace (range i (i + Z.of_nat (S n))) with (i :: range (i + 1) (i + 1 + Z.of_nat n)); [reflexivity|].
    unfold range. replace (i + Z.of_nat (S n) - i) with (Z.of_nat (S n)) by lia. replace (i + 1 + Z.of_nat n - (i + 1)) with (Z.of_nat n) by lia.
    rewrite !Nat2Z.id. cbn [seq map]. f_equal; [lia|]. rewrite <- seq_shift, map_map. apply map_ext. intros; lia.
Qed.

(** a loop over nodes whose iterations own their node in the arrays [B] *)
Lemma loop_nodes (body : Z * Z -> prog T) A B rows lo hi m fin :
  (forall a, existsb (arr_eqb a) A = true -> existsb (arr_eqb a) B = false) ->
  (forall ij, touches (at_node B ij) (of_arrs A) (body ij)) ->
  (forall i j, 0 <= i < rows -> lo <= j < hi -> exists m1, run (body (i, j)) m = Ok m1 /\
     forall a, existsb (arr_eqb a) B = true -> m1 (a, i, j) = fin (a, i, j)) ->
  exists m', runs (map body (nodes rows lo hi)) m = Ok m' /\
    forall a i j, m' (a, i, j) =
      if (existsb (arr_eqb a) B && ((0 <=? i) && (i <? rows) && (lo <=? j) && (j <? hi)))%bool then fin (a, i, j) else m (a, i, j).
Proof.
  intros Hd Ht Hb.
  destruct (alone_serial body (at_node B) (of_arrs A) Ht) with (is := nodes rows lo hi) (m := m) (fin := fin) as (m' & H & H1 & H2).
  - intros; eapply foot_apart; eauto.
  - apply separate_nodes, nodes_nodup.
  - intros [i j] Hin. apply in_nodes in Hin as [Hi Hj]. destruct (Hb i j Hi Hj) as (m1 & R1 & F1). exists m1. split; [exact R1|].
    intros [[a u] v] Hl. cbn in Hl. apply andb_true_iff in Hl as [Hl Hv]. apply andb_true_iff in Hl as [Ha Hu].
    apply Z.eqb_eq in Hu, Hv. subst. auto.
  - exists m'. split; [exact H|]. intros a i j.
    destruct (existsb (arr_eqb a) B && _)%bool eqn:E.
    + apply H1. apply andb_true_iff in E as [E1 E2]. unfold anyW. apply existsb_exists. exists (i, j).
      split; [apply in_nodes; lia|]. cbn. rewrite E1, !Z.eqb_refl. reflexivity.
    + apply H2. unfold anyW. destruct (existsb _ (nodes rows lo hi)) eqn:Ee; [|reflexivity].
      apply existsb_exists in Ee as ([u v] & Hin & Hl). apply in_nodes in Hin. cbn in Hl.
      apply andb_true_iff in Hl as [Hl Hv]. apply andb_true_iff in Hl as [Ha Hu]. apply Z.eqb_eq in Hu, Hv. subst.
      rewrite Ha in E. cbn [andb] in E. lia.
Qed.
End Run.
Ltac look := repeat (rewrite upd_same || rewrite upd_other by congruence).

Section Loops.
Context {T : Type} {NT : Num T}.
Implicit Types (m : mem T).

Lemma some_of {A} (o : option A) : o <> None -> exists v, o = Some v.
Proof. destruct o; [eauto|congruence]. Qed.

Lemma adv_loop (F : flow T) rk3 t dt Tp nx ny x y rows lo hi m :
  nodes_at nx ny x y m -> present Xadv ny nx m -> present Yadv ny nx m -> 0 <= lo -> hi <= nx -> rows <= ny ->
  exists m', runs (map (adv_body F rk3 t dt Tp) (nodes rows lo hi)) m = Ok m' /\
    forall a i j, m' (a, i, j) = match a with
      | Xadv => if in_rng rows lo hi i j then Some (D (fst (back_trace F rk3 (x j) (y i) t dt Tp))) else m (a, i, j)
      | Yadv => if in_rng rows lo hi i j then Some (D (snd (back_trace F rk3 (x j) (y i) t dt Tp))) else m (a, i, j)
      | _ => m (a, i, j) end.
Proof.
  intros [Hx Hy] Px Py L1 L2 L3.
  destruct (loop_nodes (adv_body F rk3 t dt Tp) [AX1; AY1] [Xadv; Yadv] rows lo hi m
    (fun l => match l with (a, i, j) => Some (D ((match a with Xadv => fst | _ => snd end) (back_trace F rk3 (x j) (y i) t dt Tp))) end))
    as (m' & H & H1).
  - intros []; cbn; congruence.
  - intros; apply adv_touches.
  - intros i j Hi Hj. unfold adv_body.
    destruct (some_of _ (Px i j ltac:(lia) ltac:(lia))) as [v1 V1]. destruct (some_of _ (Py i j ltac:(lia) ltac:(lia))) as [v2 V2].
    rewrite (run_rd _ _ (x j)) by (apply Hx; lia). rewrite (run_rd _ _ (y i)) by (apply Hy; lia). cbv zeta.
    rewrite (run_wr _ _ _ v1) by exact V1. rewrite (run_wr _ _ _ v2) by (look; exact V2).
    unfold back_trace. destruct rk3.
    + erewrite run_rd by (look; reflexivity). erewrite run_rd by (look; reflexivity).
      erewrite run_wr by (look; reflexivity). erewrite run_wr by (look; reflexivity).
      erewrite run_rd by (look; reflexivity). erewrite run_rd by (look; reflexivity).
      erewrite run_wr by (look; reflexivity). erewrite run_wr by (look; reflexivity).
      cbn [run]. eexists; split; [reflexivity|]. intros []; cbn; try discriminate; intros _; look; reflexivity.
    + cbn [run]. eexists; split; [reflexivity|]. intros []; cbn; try discriminate; intros _; look; reflexivity.
  - exists m'. split; [exact H|]. intros a i j. rewrite H1. unfold in_rng. destruct a; cbn; reflexivity.
Qed.

Lemma find_loop nx ny x1 x2 y1 y2 x y (xa ya : Z -> Z -> T) lo hi m :
  0 <= nx -> 0 <= ny ->
  nodes_at nx ny x y m -> holds Xadv ny nx xa m -> holds Yadv ny nx ya m ->
  present Tracker ny nx m -> present Cellx ny nx m -> present Celly ny nx m -> 0 <= lo -> hi <= nx ->
  let f i j := found nx ny x1 x2 y1 y2 (map x (range 0 nx)) (map y (range 0 ny)) (xa i j) (ya i j) in
  exists m', runs (find_advection_point_location_MPI nx ny x1 x2 y1 y2 lo hi) m = Ok m' /\
    forall a i j, m' (a, i, j) = if in_rng ny lo hi i j then match a with
      | Tracker => Some (U (fst (f i j)))
      | Cellx => match snd (f i j) with Some c => Some (U (fst c)) | None => m (a, i, j) end
      | Celly => match snd (f i j) with Some c => Some (U (snd c)) | None => m (a, i, j) end
      | _ => m (a, i, j) end else m (a, i, j).
Proof.
  intros N1 N2 [Hx Hy] Xa Ya Pt Px Py L1 L2 f. unfold find_advection_point_location_MPI.
  destruct (loop_nodes (find_body nx ny x1 x2 y1 y2) [AX1; AY1; Xadv; Yadv] [Tracker; Cellx; Celly] ny lo hi m
    (fun l => match l with (a, i, j) => match a with
      | Tracker => Some (U (fst (f i j)))
      | Cellx => match snd (f i j) with Some c => Some (U (fst c)) | None => m (a, i, j) end
      | _ => match snd (f i j) with Some c => Some (U (snd c)) | None => m (a, i, j) end end end)) as (m' & H & H1).
  - intros []; cbn; congruence.
  - intros; apply find_touches.
  - intros i j Hi Hj. unfold find_body.
    destruct (some_of _ (Pt i j ltac:(lia) ltac:(lia))) as [v0 V0].
    destruct (some_of _ (Px i j ltac:(lia) ltac:(lia))) as [v1 V1]. destruct (some_of _ (Py i j ltac:(lia) ltac:(lia))) as [v2 V2].
    rewrite (run_rd _ _ (xa i j)) by (apply Xa; lia). rewrite (run_rd _ _ (ya i j)) by (apply Ya; lia).
    rewrite (run_rdvec m AX1 x) by (intros; apply Hx; lia). rewrite (run_rdvec m AY1 y) by (intros; apply Hy; lia).
    rewrite !Z2Nat.id by lia. rewrite !Z.add_0_l. subst f. cbn beta. unfold found. cbv zeta.
    destruct ((x1 <? xa i j)%num && (xa i j <? x2)%num)%bool; destruct ((y1 <? ya i j)%num && (ya i j <? y2)%num)%bool; cbn [negb];
    repeat match goal with |- context [if (?u <=? ?w)%num then _ else _] => destruct (u <=? w)%num end;
    rewrite (run_wr _ _ _ v0) by exact V0;
    repeat first [ rewrite (run_wr _ _ _ v1) by (look; exact V1) | rewrite (run_wr _ _ _ v2) by (look; exact V2) ];
    cbn [run]; (eexists; split; [reflexivity|]); intros []; cbn; try discriminate; intros _; look; reflexivity.
  - exists m'. split; [exact H|]. intros a i j. rewrite H1. unfold in_rng. destruct a; cbn; try reflexivity;
      destruct ((0 <=? i) && (i <? ny) && (lo <=? j) && (j <? hi))%bool; reflexivity.
Qed.
End Loops.
