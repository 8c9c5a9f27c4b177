(** One time step of the reference programs. *)
From Coq Require Import ZArith List Permutation Bool Lia String Reals Lra.
From Verif Require Import Base Num ModelVec ModelRefMath ModelRefMem ModelRef SpecRefPar SpecRefRun ProofsBase ProofsGridProps ProofsRefMem ProofsRefPar ProofsRefRun ProofsRefUpd ProofsRefMix ProofsRefSearch.
Open Scope Z_scope.

Section Step.
Context {T : Type} {NT : Num T}.
Implicit Types (m : mem T).

Lemma alloc_in a rows cols (v : val T) m i j : 0 <= i < rows -> 0 <= j < cols -> alloc a rows cols v m (a, i, j) = Some v.
Proof.
  intros. cbn. replace (arr_eqb a a) with true by (destruct a; reflexivity).
  replace ((0 <=? i) && (i <? rows) && (0 <=? j) && (j <? cols))%bool with true by lia. reflexivity.
Qed.
Lemma alloc_other a b rows cols (v : val T) m i j : arr_eqb a b = false -> alloc a rows cols v m (b, i, j) = m (b, i, j).
Proof. intros. cbn. rewrite H. reflexivity. Qed.

Lemma mixed_vars_other a m i j : isvar a = false -> mixed_vars m (a, i, j) = m (a, i, j).
Proof. destruct a; intros H; try discriminate; reflexivity. Qed.
Lemma mixed_vars_var a m : isvar a = true -> mixed_vars m (var a) <> None.
Proof. destruct a; intros H; try discriminate; cbn; congruence. Qed.

Lemma step_next whole (F : flow T) s x y t f m :
  let nx := s_nx s in let ny := s_ny s in
  3 <= nx < 4294967296 -> 3 <= ny < 4294967296 ->
  (forall i j, 0 <= i < ny -> 0 <= j < nx -> let c := snd (where_ whole F s x y t i j) in 0 <= fst c < nx - 1 /\ 0 <= snd c < ny - 1) ->
  nodes_at nx ny x y m -> contains nx ny f m ->
  exists m', step whole F s t m = Ok m' /\ nodes_at nx ny x y m' /\ contains nx ny (next whole F s x y t f) m' /\
    (forall i j, 0 <= i < ny -> 0 <= j < nx -> m' (Xadv, i, j) = Some (D (fst (foot whole F s x y t i j))) /\
       m' (Yadv, i, j) = Some (D (snd (foot whole F s x y t i j))) /\
       m' (Tracker, i, j) = Some (U (fst (where_ whole F s x y t i j))) /\
       m' (Cellx, i, j) = Some (U (fst (snd (where_ whole F s x y t i j)))) /\
       m' (Celly, i, j) = Some (U (snd (snd (where_ whole F s x y t i j))))).
Proof.
  intros nx ny N1 N2 Hc [Hx Hy] (C1 & C2 & C3 & C4 & C5 & C6 & C7 & C8). unfold step. fold nx ny.
  set (m0 := alloc Yadv ny nx (D (nofZ 0)) (alloc Xadv ny nx (D (nofZ 0)) (alloc Tracker ny nx (U 0) m))).
  assert (K0 : forall a i j, arr_eqb Yadv a = false -> arr_eqb Xadv a = false -> arr_eqb Tracker a = false -> m0 (a, i, j) = m (a, i, j)).
  { intros. unfold m0. rewrite !alloc_other by assumption. reflexivity. }
  assert (KY : forall i j, 0 <= i < ny -> 0 <= j < nx -> m0 (Yadv, i, j) = Some (D (nofZ 0))) by (intros; apply alloc_in; assumption).
  assert (KX : forall i j, 0 <= i < ny -> 0 <= j < nx -> m0 (Xadv, i, j) = Some (D (nofZ 0))).
  { intros. unfold m0. rewrite alloc_other by reflexivity. apply alloc_in; assumption. }
  assert (KT : forall i j, 0 <= i < ny -> 0 <= j < nx -> m0 (Tracker, i, j) = Some (U 0)).
  { intros. unfold m0. rewrite !alloc_other by reflexivity. apply alloc_in; assumption. }
  clearbody m0.
  set (rows := if whole then ny else ny - 1). set (hi := if whole then nx else nx - 1).
  destruct (adv_loop F (s_rk3 s) t (s_dt s) (s_Tp s) nx ny x y rows 0 hi m0) as (m1 & R1 & V1).
  { split; intros; rewrite K0 by reflexivity; auto. }
  { intros i j Hi Hj. rewrite KX by assumption. congruence. }
  { intros i j Hi Hj. rewrite KY by assumption. congruence. }
  { lia. } { unfold hi; destruct whole; lia. } { unfold rows; destruct whole; lia. }
  assert (E1 : (if whole then advection_point_MPI F (s_rk3 s) t (s_dt s) (s_Tp s) ny 0 nx
             else advection_point F (s_rk3 s) t (s_dt s) (s_Tp s) nx ny) = map (adv_body F (s_rk3 s) t (s_dt s) (s_Tp s)) (nodes rows 0 hi)).
  { unfold rows, hi, advection_point, advection_point_MPI. destruct whole; [reflexivity|]. rewrite !u32_small by lia. reflexivity. }
  rewrite E1, R1. cbn [bind]. clear E1 R1.
  assert (Fx : forall i j, 0 <= i < ny -> 0 <= j < nx -> m1 (Xadv, i, j) = Some (D (fst (foot whole F s x y t i j)))).
  { intros i j Hi Hj. rewrite V1. unfold foot, in_rng, rows, hi. fold nx ny. rewrite KX by assumption.
    destruct whole; cbn [orb].
    - replace ((0 <=? i) && (i <? ny) && (0 <=? j) && (j <? nx))%bool with true by lia. reflexivity.
    - replace ((0 <=? i) && (i <? ny - 1) && (0 <=? j) && (j <? nx - 1))%bool with ((i <? ny - 1) && (j <? nx - 1))%bool by lia.
      destruct ((i <? ny - 1) && (j <? nx - 1))%bool; reflexivity. }
  assert (Fy : forall i j, 0 <= i < ny -> 0 <= j < nx -> m1 (Yadv, i, j) = Some (D (snd (foot whole F s x y t i j)))).
  { intros i j Hi Hj. rewrite V1. unfold foot, in_rng, rows, hi. fold nx ny. rewrite KY by assumption.
    destruct whole; cbn [orb].
    - replace ((0 <=? i) && (i <? ny) && (0 <=? j) && (j <? nx))%bool with true by lia. reflexivity.
    - replace ((0 <=? i) && (i <? ny - 1) && (0 <=? j) && (j <? nx - 1))%bool with ((i <? ny - 1) && (j <? nx - 1))%bool by lia.
      destruct ((i <? ny - 1) && (j <? nx - 1))%bool; reflexivity. }
  set (m2 := alloc Celly ny nx (U 0) (alloc Cellx ny nx (U 0) m1)).
  assert (K2 : forall a i j, arr_eqb Celly a = false -> arr_eqb Cellx a = false -> m2 (a, i, j) = m1 (a, i, j)).
  { intros. unfold m2. rewrite !alloc_other by assumption. reflexivity. }
  assert (KCy : forall i j, 0 <= i < ny -> 0 <= j < nx -> m2 (Celly, i, j) = Some (U 0)) by (intros; apply alloc_in; assumption).
  assert (KCx : forall i j, 0 <= i < ny -> 0 <= j < nx -> m2 (Cellx, i, j) = Some (U 0)).
  { intros. unfold m2. rewrite alloc_other by reflexivity. apply alloc_in; assumption. }
  clearbody m2.
  destruct (find_loop nx ny (s_xlim1 s) (s_xlim2 s) (s_ylim1 s) (s_ylim2 s) x y (fun i j => fst (foot whole F s x y t i j)) (fun i j => snd (foot whole F s x y t i j)) 0 nx m2)
    as (m3 & R3 & V3); try lia.
  { split; intros; rewrite K2, V1, K0 by reflexivity; auto. }
  { intros i j Hi Hj. rewrite K2 by reflexivity. auto. }
  { intros i j Hi Hj. rewrite K2 by reflexivity. auto. }
  { intros i j Hi Hj. rewrite K2, V1 by reflexivity. rewrite KT by assumption. congruence. }
  { intros i j Hi Hj. rewrite KCx by assumption. congruence. }
  { intros i j Hi Hj. rewrite KCy by assumption. congruence. }
  rewrite R3. cbn [bind]. clear R3.
  assert (Rng : forall i j, 0 <= i < ny -> 0 <= j < nx -> in_rng ny 0 nx i j = true) by (intros; unfold in_rng; lia).
  assert (K3 : forall a i j, existsb (arr_eqb a) [Tracker; Cellx; Celly] = false -> m3 (a, i, j) = m2 (a, i, j)).
  { intros a i j Ha. rewrite V3. destruct in_rng; [|reflexivity]. destruct a; try discriminate; reflexivity. }
  assert (T3 : forall i j, 0 <= i < ny -> 0 <= j < nx -> m3 (Tracker, i, j) = Some (U (fst (where_ whole F s x y t i j)))).
  { intros i j Hi Hj. rewrite V3, Rng by assumption. reflexivity. }
  assert (X3 : forall i j, 0 <= i < ny -> 0 <= j < nx -> m3 (Cellx, i, j) = Some (U (fst (snd (where_ whole F s x y t i j))))).
  { intros i j Hi Hj. rewrite V3, Rng, KCx by assumption. unfold where_. fold nx ny. cbv zeta. cbn [snd fst].
    destruct (snd (found _ _ _ _ _ _ _ _ _ _)); reflexivity. }
  assert (Y3 : forall i j, 0 <= i < ny -> 0 <= j < nx -> m3 (Celly, i, j) = Some (U (snd (snd (where_ whole F s x y t i j))))).
  { intros i j Hi Hj. rewrite V3, Rng, KCy by assumption. unfold where_. fold nx ny. cbv zeta. cbn [snd fst].
    destruct (snd (found _ _ _ _ _ _ _ _ _ _)); reflexivity. }
  assert (O3 : forall a i j, existsb (arr_eqb a) [Tracker; Cellx; Celly; Xadv; Yadv] = false -> m3 (a, i, j) = m (a, i, j)).
  { intros a i j Ha. rewrite K3, K2, V1 by (destruct a; try discriminate; reflexivity).
    destruct a; try discriminate; rewrite K0 by reflexivity; reflexivity. }
  assert (Xa3 : holds Xadv ny nx (fun i j => fst (foot whole F s x y t i j)) m3).
  { intros i j Hi Hj. rewrite K3, K2 by reflexivity. auto. }
  assert (Ya3 : holds Yadv ny nx (fun i j => snd (foot whole F s x y t i j)) m3).
  { intros i j Hi Hj. rewrite K3, K2 by reflexivity. auto. }
  clear V3 K3 K2 KCx KCy V1 Fx Fy K0 KX KY KT. clearbody rows hi.
  destruct (update_loop F (s_psischeme s) (s_rk3 s) t (s_dt s) (s_Tp s) nx ny x y
     (fun i j => fst (foot whole F s x y t i j)) (fun i j => snd (foot whole F s x y t i j))
     (fun i j => fst (where_ whole F s x y t i j)) (fun i j => fst (snd (where_ whole F s x y t i j))) (fun i j => snd (snd (where_ whole F s x y t i j)))
     (f_phi f) (f_x f) (f_y f) (f_xy f) (f_phi f) (f_x f) (f_y f) (f_xy f) 0 nx m3) as (m4 & R4 & V4); try lia; try assumption.
  { split; intros; rewrite O3 by reflexivity; auto. }
  1-8: intros i j Hi Hj; rewrite O3 by reflexivity; auto.
  rewrite R4. cbn [bind]. clear R4.
  assert (N4 : forall a i j, 0 <= i < ny -> 0 <= j < nx -> m4 (a, i, j) = match a with
      | Phi => Some (D (fst (fst (new_node whole F s x y t f i j)))) | Psix => Some (D (snd (fst (new_node whole F s x y t f i j))))
      | Psiy => Some (D (snd (new_node whole F s x y t f i j))) | _ => m3 (a, i, j) end).
  { intros a i j Hi Hj. rewrite V4, Rng by assumption. destruct a; reflexivity. }
  assert (O4 : forall a i j, existsb (arr_eqb a) [Phi; Psix; Psiy] = false -> m4 (a, i, j) = m3 (a, i, j)).
  { intros a i j Ha. rewrite V4. destruct in_rng; [|reflexivity]. destruct a; try discriminate; reflexivity. }
  clear V4.
  destruct (mixed_loop nx ny (s_dx s) (s_dy s) (fun i j => snd (fst (new_node whole F s x y t f i j))) (fun i j => snd (new_node whole F s x y t f i j)) 0 nx (mixed_vars m4))
    as (m5 & R5 & V5); try lia.
  { intros i j Hi Hj. rewrite mixed_vars_other by reflexivity. rewrite N4 by assumption. reflexivity. }
  { intros i j Hi Hj. rewrite mixed_vars_other by reflexivity. rewrite N4 by assumption. reflexivity. }
  { intros i j Hi Hj. rewrite mixed_vars_other by reflexivity. rewrite N4, O3, C4 by (assumption || reflexivity). congruence. }
  { intros a Ha. apply mixed_vars_var. exact Ha. }
  rewrite R5. cbn [bind]. clear R5.
  assert (N5 : forall a i j, isvar a = false -> 0 <= i < ny -> 0 <= j < nx -> m5 (a, i, j) = match a with
      | Psixy => Some (D (f_xy (next whole F s x y t f) i j)) | _ => m4 (a, i, j) end).
  { intros a i j Ha Hi Hj. rewrite V5, Rng, mixed_vars_other by assumption. destruct a; reflexivity. }
  assert (O5 : forall a i j, isvar a = false -> arr_eqb Psixy a = false -> m5 (a, i, j) = m4 (a, i, j)).
  { intros a i j Ha Hb. rewrite V5, mixed_vars_other by assumption. destruct in_rng; [|reflexivity]. destruct a; try discriminate; reflexivity. }
  clear V5.
  eexists; split; [reflexivity|]. split; [|split].
  - split; intros; unfold feed_back; cbn; rewrite O5, O4, O3 by reflexivity; auto.
  - unfold contains. unfold feed_back.
    repeat split; intros i j Hi Hj; cbn [assign arr_eqb]; rewrite N5 by (reflexivity || assumption); rewrite ?N4 by assumption; reflexivity.
  - intros i j Hi Hj. unfold feed_back. cbn [assign arr_eqb]. rewrite !O5, !O4 by reflexivity. repeat split; auto.
Qed.
End Step.
