(** The per-node loops of the reference code are free of races, except update_mixed_derivatives. *)
From Coq Require Import ZArith List Permutation Bool Lia String.
From Verif Require Import Base Num NumB64 ModelVec ModelRefMath ModelRefMem ModelRef SpecRefPar ProofsBase ProofsRefMem.

(** element (i,j) of one of the arrays; any element of one of the arrays *)
Definition at_node (arrs : list arr) (ij : Z * Z) (l : loc) : bool :=
  match l with (a, i, j) => existsb (arr_eqb a) arrs && (fst ij =? i)%Z && (snd ij =? j)%Z end.
Definition of_arrs (arrs : list arr) (l : loc) : bool := match l with (a, _, _) => existsb (arr_eqb a) arrs end.

Lemma at_node_apart arrs ij ij' l : ij <> ij' -> at_node arrs ij l = true -> at_node arrs ij' l = false.
Proof.
  destruct ij as [i j], ij' as [i' j'], l as [[a u] v]. cbn. intros N H.
  apply andb_true_iff in H as [H H3]. apply andb_true_iff in H as [H1 H2].
  apply Z.eqb_eq in H2, H3. subst. rewrite H1. destruct (Z.eqb_spec i' u); destruct (Z.eqb_spec j' v); cbn; try reflexivity.
  congruence.
Qed.
Lemma separate_nodes arrs is : NoDup is -> separate (at_node arrs) is.
Proof.
  induction 1 as [|ij is H N IH]; constructor; auto. rewrite Forall_forall. intros kl Hkl l. apply at_node_apart. congruence.
Qed.
Lemma nodes_nodup rows lo hi : NoDup (nodes rows lo hi).
Proof.
  unfold nodes. apply nodup_flat_map.
  - apply nodup_range.
  - intros i _. apply FinFun.Injective_map_NoDup; [intros x y E; congruence|apply nodup_range].
  - intros i i' [u v] Hi Hi' H1 H2. apply in_map_iff in H1 as (j & E & _). apply in_map_iff in H2 as (j' & E' & _). congruence.
Qed.
Lemma in_nodes rows lo hi i j : In (i, j) (nodes rows lo hi) <-> (0 <= i < rows /\ lo <= j < hi)%Z.
Proof.
  unfold nodes. rewrite in_flat_map. split.
  - intros (i' & Hi & H). apply in_map_iff in H as (j' & E & Hj). injection E as -> ->. rewrite in_range in *. auto.
  - intros [Hi Hj]. exists i. rewrite in_range. split; [lia|]. apply in_map. rewrite in_range. lia.
Qed.

Section Bodies.
Context {T : Type} {NT : Num T}.

Lemma touches_rd W R l (k : T -> prog T) : R l || W l = true -> (forall x, touches W R (k x)) -> touches W R (rd l k).
Proof. intros H Hk. split; [exact H|]. intros [x|z|]; [apply Hk|exact Logic.I|exact Logic.I]. Qed.
Lemma touches_rdu W R l (k : Z -> prog T) : R l || W l = true -> (forall x, touches W R (k x)) -> touches W R (rdu l k).
Proof. intros H Hk. split; [exact H|]. intros [x|z|]; [exact Logic.I|apply Hk|exact Logic.I]. Qed.
Lemma touches_wr W R l (v : val T) p : W l = true -> touches W R p -> touches W R (Wr l v p).
Proof. intros. split; auto. Qed.
Lemma touches_rdvec W R a n : forall i (k : list T -> prog T), (forall i j, R (a, i, j) = true) -> (forall x, touches W R (k x)) ->
  touches W R (rdvec a i n k).
Proof.
  induction n as [|n IH]; intros i k H Hk; cbn [rdvec]; [apply Hk|]. apply touches_rd; [rewrite H; reflexivity|].
  intros x. apply IH; auto.
Qed.
Lemma touches_rdquad W R a cy cx (k : quad T -> prog T) : (forall i j, R (a, i, j) = true) -> (forall x, touches W R (k x)) ->
  touches W R (rdquad a cy cx k).
Proof. intros H Hk. unfold rdquad. repeat (apply touches_rd; [rewrite H; reflexivity|intro]). apply Hk. Qed.
End Bodies.
Ltac in_foot := cbn; rewrite ?Z.eqb_refl; reflexivity.
Ltac touch := repeat match goal with
  | |- touches _ _ Ret => exact Logic.I
  | |- touches _ _ (rd _ _) => apply touches_rd; [in_foot|intro]
  | |- touches _ _ (rdu _ _) => apply touches_rdu; [in_foot|intro]
  | |- touches _ _ (Wr _ _ _) => apply touches_wr; [in_foot|]
  | |- touches _ _ (rdvec _ _ _ _) => apply touches_rdvec; [reflexivity|intro]
  | |- touches _ _ (rdquad _ _ _ _) => apply touches_rdquad; [reflexivity|intro]
  | |- touches _ _ (let _ := _ in _) => cbv zeta
  | |- touches _ _ (if ?b then _ else _) => destruct b
  | |- touches _ _ (match ?z with Z0 => _ | _ => _ end) => destruct z
  | |- touches _ _ (match ?z with xH => _ | _ => _ end) => destruct z
  end.

Section Loops.
Context {T : Type} {NT : Num T}.
Lemma adv_touches (F : flow T) rk3 t dt Tp ij : touches (at_node [Xadv; Yadv] ij) (of_arrs [AX1; AY1]) (adv_body F rk3 t dt Tp ij).
Proof. destruct ij as [i j]. unfold adv_body. touch. Qed.
Lemma find_touches nx ny x1 x2 y1 y2 ij : touches (at_node [Tracker; Cellx; Celly] ij) (of_arrs [AX1; AY1; Xadv; Yadv]) (@find_body T NT nx ny x1 x2 y1 y2 ij).
Proof. destruct ij as [i j]. unfold find_body. touch. Qed.
Lemma update_touches (F : flow T) sch rk3 t dt Tp ij : touches (at_node [Phi; Psix; Psiy] ij)
  (of_arrs [AX1; AY1; Xadv; Yadv; Cellx; Celly; Tracker; MPhi; MPsix; MPsiy; MPsixy; Psixy]) (update_body F sch rk3 t dt Tp ij).
Proof. destruct ij as [i j]. unfold update_body. touch. Qed.
Lemma init_touches {TG : Trig T} ij : touches (at_node [MPhi; MPsix; MPsiy; MPsixy] ij) (of_arrs [AX1; AY1]) (@init_body T NT TG ij).
Proof. destruct ij as [i j]. unfold init_body. touch. Qed.

Lemma foot_apart A B ij l : (forall a, existsb (arr_eqb a) A = true -> existsb (arr_eqb a) B = false) -> of_arrs A l = true -> at_node B ij l = false.
Proof. destruct l as [[a i] j]. cbn. intros H HA. rewrite (H a HA). reflexivity. Qed.
Lemma by_node (body : Z * Z -> prog T) A B rows lo hi teams m m' r :
  (forall a, existsb (arr_eqb a) A = true -> existsb (arr_eqb a) B = false) ->
  (forall ij, touches (at_node B ij) (of_arrs A) (body ij)) ->
  team_of (nodes rows lo hi) teams -> runs (map body (nodes rows lo hi)) m = Ok m' ->
  (interleaved (threads body teams) m r -> same_result r (Ok m')) /\ ~ data_race (threads body teams) m.
Proof.
  intros Hd Ht Hp Hr.
  assert (HR : forall i l, of_arrs A l = true -> at_node B i l = false) by (intros; eapply foot_apart; eauto).
  pose proof (separate_nodes B _ (nodes_nodup rows lo hi)) as Hs.
  split; [intros Hi; eapply (schedule_free body (at_node B) (of_arrs A)); eauto|eapply (race_free body (at_node B) (of_arrs A)); eauto].
Qed.
Ltac disj := intros []; cbn; congruence.

Lemma par_advection (F : flow T) rk3 t dt Tp ny lo hi teams m m' r :
  team_of (nodes ny lo hi) teams -> runs (advection_point_MPI F rk3 t dt Tp ny lo hi) m = Ok m' ->
  (interleaved (threads (adv_body F rk3 t dt Tp) teams) m r -> same_result r (Ok m')) /\
  ~ data_race (threads (adv_body F rk3 t dt Tp) teams) m.
Proof. apply (by_node _ [AX1; AY1] [Xadv; Yadv]); [disj|]. intros; apply adv_touches. Qed.
Lemma par_find nx ny x1 x2 y1 y2 lo hi teams m m' r :
  team_of (nodes ny lo hi) teams -> runs (@find_advection_point_location_MPI T NT nx ny x1 x2 y1 y2 lo hi) m = Ok m' ->
  (interleaved (threads (find_body nx ny x1 x2 y1 y2) teams) m r -> same_result r (Ok m')) /\
  ~ data_race (threads (find_body nx ny x1 x2 y1 y2) teams) m.
Proof. apply (by_node _ [AX1; AY1; Xadv; Yadv] [Tracker; Cellx; Celly]); [disj|]. intros; apply find_touches. Qed.
Lemma par_update (F : flow T) sch rk3 t dt Tp ny lo hi teams m m' r :
  team_of (nodes ny lo hi) teams -> runs (update_levelset_data F sch rk3 t dt Tp ny lo hi) m = Ok m' ->
  (interleaved (threads (update_body F sch rk3 t dt Tp) teams) m r -> same_result r (Ok m')) /\
  ~ data_race (threads (update_body F sch rk3 t dt Tp) teams) m.
Proof.
  apply (by_node _ [AX1; AY1; Xadv; Yadv; Cellx; Celly; Tracker; MPhi; MPsix; MPsiy; MPsixy; Psixy] [Phi; Psix; Psiy]); [disj|].
  intros; apply update_touches. Qed.
End Loops.
