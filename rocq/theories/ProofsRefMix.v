(** update_mixed_derivatives run serially. *)
From Coq Require Import ZArith List Permutation Bool Lia String.
From Verif Require Import Base Num NumB64 ModelVec ModelRefMath ModelRefMem ModelRef SpecRefPar SpecRefRun ProofsBase ProofsRefMem ProofsRefPar ProofsRefRun ProofsRefUpd.
Open Scope Z_scope.

Section Mix.
Context {T : Type} {NT : Num T}.
Implicit Types (m : mem T).

Definition isvar (a : arr) : bool := match a with Dxy1 | Dxy2 | D1 | D2 | D3 | D4 => true | _ => false end.
Definition mixW (kl : Z * Z) (l : loc) : bool := (at_node [Psixy] kl l || match l with (a, _, _) => isvar a end)%bool.
Lemma mixed_touches nx ny dx dy kl : touches (mixW kl) (of_arrs [Psix; Psiy]) (@mixed_body T NT nx ny dx dy kl).
Proof.
  destruct kl as [k l]. unfold mixed_body. cbv zeta.
  repeat match goal with |- touches _ _ (if ?b then _ else _) => destruct b end;
  unfold slope, corner_sum, var; touch;
  (apply touches_wr; [unfold mixW, at_node; cbn [fst snd]; rewrite !Z.eqb_refl; reflexivity|exact Logic.I]).
Qed.
Lemma run_keeps p : forall m m1 l, run p m = Ok m1 -> m l <> None -> m1 l <> None.
Proof.
  induction p as [|l0 k IH|l0 v p IH|e]; intros m m1 l H N; cbn in H.
  - congruence.
  - destruct (m l0); [|discriminate]. eapply IH; eauto.
  - destruct (m l0); [|discriminate]. eapply IH; eauto. unfold upd. destruct (loc_eqb l0 l); congruence.
  - discriminate.
Qed.

Lemma run_slope m d a rows cols f i j i' j' h p : holds a rows cols f m -> 0 <= i < rows -> 0 <= j < cols -> 0 <= i' < rows -> 0 <= j' < cols ->
  m (var d) <> None -> run (slope d a i j i' j' h p) m = run p (upd m (var d) (D ((f i j - f i' j') / h)%num)).
Proof.
  intros H R1 R2 R3 R4 V. unfold slope. rewrite (run_rd _ _ _ _ (H i j R1 R2)), (run_rd _ _ _ _ (H i' j' R3 R4)).
  destruct (some_of _ V) as [v V']. rewrite (run_wr _ _ _ _ _ V'). reflexivity.
Qed.
Lemma holds_upd a rows cols f m d v : (forall i j, (a, i, j) <> d) -> holds a rows cols f m -> holds a rows cols f (upd m d v).
Proof. intros N H i j Hi Hj. rewrite upd_other by (intros E; apply (N i j); congruence). auto. Qed.

Lemma mixed_run nx ny dx dy px py k l m :
  2 <= nx < 4294967296 -> 2 <= ny < 4294967296 -> 0 <= k < ny -> 0 <= l < nx ->
  holds Psix ny nx px m -> holds Psiy ny nx py m -> m (Psixy, k, l) <> None -> (forall a, isvar a = true -> m (var a) <> None) ->
  exists m1, run (mixed_body nx ny dx dy (k, l)) m = Ok m1 /\ m1 (Psixy, k, l) = Some (D (mixed_val nx ny dx dy px py k l)).
Proof.
  intros N1 N2 Hk Hl Hx Hy Hp Hv. unfold mixed_body, mixed_val, sx, sy, comb. cbv zeta.
  rewrite (u32_small (ny - 1)), (u32_small (nx - 1)), (u32_small (ny - 2)), (u32_small (nx - 2)) by lia.
  pose proof (Hv Dxy1 eq_refl) as W1. pose proof (Hv Dxy2 eq_refl) as W2. pose proof (Hv D1 eq_refl) as V1.
  pose proof (Hv D2 eq_refl) as V2. pose proof (Hv D3 eq_refl) as V3. pose proof (Hv D4 eq_refl) as V4. clear Hv. unfold var in *.
  destruct (some_of _ Hp) as [v0 P0].
  Ltac hold := repeat (apply holds_upd; [intros; unfold var; congruence|]); assumption.
  Ltac nth_slope ny nx f := match goal with |- context [run (slope ?d ?a ?i ?j ?i' ?j' ?h ?p) ?mm] =>
    rewrite (run_slope mm d a ny nx f i j i' j' h p ltac:(hold) ltac:(lia) ltac:(lia) ltac:(lia) ltac:(lia) ltac:(unfold var; look; assumption)) end.
  Ltac fin v0 P0 := unfold corner_sum, var; repeat (erewrite run_rd by (look; reflexivity));
    rewrite (run_wr _ _ _ v0) by (look; exact P0); cbn [run]; eexists; split; [reflexivity|]; look; reflexivity.
  destruct (Z.eqb_spec k 0); destruct (Z.eqb_spec k (ny - 1)); destruct (Z.eqb_spec l 0); destruct (Z.eqb_spec l (nx - 1));
    cbn [orb andb negb]; try lia;
  try (nth_slope ny nx py; nth_slope ny nx px; nth_slope ny nx px; nth_slope ny nx py; fin v0 P0).
  all: rewrite ?(u32_small (l + 1)), ?(u32_small (l - 1)), ?(u32_small (k + 1)), ?(u32_small (k - 1)) by lia.
  all: try (rewrite (run_rd _ _ _ _ (Hy k (l + 1) ltac:(lia) ltac:(lia))), (run_rd _ _ _ _ (Hy k (l - 1) ltac:(lia) ltac:(lia)))).
  all: try (rewrite (run_rd _ _ _ _ (Hx (k + 1) l ltac:(lia) ltac:(lia))), (run_rd _ _ _ _ (Hx (k - 1) l ltac:(lia) ltac:(lia)))).
  all: try (rewrite (run_wr _ _ _ v0) by exact P0; cbn [run]; eexists; split; [reflexivity|]; look; reflexivity).
  unfold var. destruct (some_of _ W1) as [w1 Q1]. destruct (some_of _ W2) as [w2 Q2].
  rewrite (run_wr _ _ _ w1) by exact Q1.
  erewrite run_rd by (look; apply Hx; lia). erewrite run_rd by (look; apply Hx; lia). rewrite (run_wr _ _ _ w2) by (look; exact Q2).
  erewrite run_rd by (look; reflexivity). erewrite run_rd by (look; reflexivity).
  rewrite (run_wr _ _ _ v0) by (look; exact P0). cbn [run]. eexists; split; [reflexivity|]. look. reflexivity.
Qed.

Lemma forM_map {A B S} (g : A -> B) (body : S -> B -> outcome S) l : forall s, forM (map g l) body s = forM l (fun s a => body s (g a)) s.
Proof. induction l as [|a l IH]; intros s; cbn; [reflexivity|]. destruct (body s (g a)); cbn; auto. Qed.
Lemma mixed_loop nx ny dx dy px py lo hi m :
  2 <= nx < 4294967296 -> 2 <= ny < 4294967296 -> 0 <= lo -> hi <= nx ->
  holds Psix ny nx px m -> holds Psiy ny nx py m -> present Psixy ny nx m -> (forall a, isvar a = true -> m (var a) <> None) ->
  exists m', runs (update_mixed_derivatives nx ny dx dy lo hi) m = Ok m' /\
    (forall a i j, isvar a = false -> m' (a, i, j) = if in_rng ny lo hi i j then
      match a with Psixy => Some (D (mixed_val nx ny dx dy px py i j)) | _ => m (a, i, j) end else m (a, i, j)).
Proof.
  intros N1 N2 L1 L2 Hx Hy Hp Hv. unfold update_mixed_derivatives, runs. rewrite forM_map.
  destruct (forM_inv (fun pre m1 => (forall a, isvar a = true -> m1 (var a) <> None) /\
      (forall a i j, isvar a = false -> m1 (a, i, j) = if existsb (fun kl => (fst kl =? i) && (snd kl =? j)) pre then
        match a with Psixy => Some (D (mixed_val nx ny dx dy px py i j)) | _ => m (a, i, j) end else m (a, i, j)))
     (fun m kl => run (mixed_body nx ny dx dy kl) m) (nodes ny lo hi) m) as (m' & H & _ & H2).
  - split; [exact Hv|]. intros; reflexivity.
  - intros pre [k l] post m1 E [I1 I2].
    assert (Hin : In (k, l) (nodes ny lo hi)) by (rewrite E; apply in_or_app; right; left; reflexivity).
    apply in_nodes in Hin as [Hk Hl].
    assert (Hx1 : holds Psix ny nx px m1) by (intros i j Hi Hj; rewrite I2 by reflexivity; destruct existsb; apply Hx; assumption).
    assert (Hy1 : holds Psiy ny nx py m1) by (intros i j Hi Hj; rewrite I2 by reflexivity; destruct existsb; apply Hy; assumption).
    assert (Hp1 : m1 (Psixy, k, l) <> None).
    { rewrite I2 by reflexivity. destruct existsb; [congruence|]. apply Hp; lia. }
    destruct (mixed_run nx ny dx dy px py k l m1 N1 N2 ltac:(lia) ltac:(lia) Hx1 Hy1 Hp1 I1) as (m2 & R2 & V2).
    exists m2. split; [exact R2|]. split.
    + intros a Ha. eapply run_keeps; eauto.
    + intros a i j Ha. rewrite existsb_app. cbn [existsb fst snd]. rewrite orb_false_r.
      destruct ((k =? i) && (l =? j))%bool eqn:Ekl.
      * rewrite orb_true_r. apply andb_true_iff in Ekl as [E1 E2]. apply Z.eqb_eq in E1, E2. subst i j.
        destruct a; try discriminate;
        try (rewrite (run_frame _ _ _ _ _ (mixed_touches nx ny dx dy (k, l)) R2) by reflexivity; rewrite I2 by reflexivity; destruct existsb; reflexivity).
        exact V2.
      * rewrite orb_false_r. rewrite (run_frame _ _ _ _ _ (mixed_touches nx ny dx dy (k, l)) R2); [apply I2; exact Ha|].
        unfold mixW. rewrite Ha, orb_false_r. cbn. rewrite <- andb_assoc, Ekl. apply andb_false_r.
  - exists m'. split; [exact H|]. intros a i j Ha. rewrite H2 by exact Ha. unfold in_rng.
    destruct (existsb _ (nodes ny lo hi)) eqn:Ee.
    + apply existsb_exists in Ee as ([k l] & Hin & Hkl). apply in_nodes in Hin. cbn in Hkl.
      apply andb_true_iff in Hkl as [E1 E2]. apply Z.eqb_eq in E1, E2. subst.
      replace ((0 <=? i) && (i <? ny) && (lo <=? j) && (j <? hi))%bool with true by lia. reflexivity.
    + destruct ((0 <=? i) && (i <? ny) && (lo <=? j) && (j <? hi))%bool eqn:Er; [|reflexivity]. exfalso.
      assert (existsb (fun kl => (fst kl =? i) && (snd kl =? j)) (nodes ny lo hi) = true).
      { apply existsb_exists. exists (i, j). split; [apply in_nodes; lia|]. cbn. rewrite !Z.eqb_refl. reflexivity. }
      congruence.
Qed.
End Mix.
