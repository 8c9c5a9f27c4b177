(** Launches of kernels: which nodes get a thread, and the results of all interleavings. *)
From Coq Require Import ZArith List Permutation Bool Lia.
From Verif Require Import Base Num NumB64 ModelVec ModelRefMath ModelRefMem ModelRef ModelRefCuda SpecRefPar SpecRefRun SpecRefCuda
  ProofsBase ProofsRefMem ProofsRefPar ProofsRefRun ProofsRefUpd.
Open Scope Z_scope.

(** * coverage *)
Lemma nodup_map_in {A B} (f : A -> B) l : (forall x y, In x l -> In y l -> f x = f y -> x = y) -> NoDup l -> NoDup (map f l).
Proof.
  induction l as [|a l IH]; cbn [map]; intros Hf N; [constructor|]. inversion N; subst. constructor.
  - intros H. apply in_map_iff in H as (y & E & Hy). assert (y = a) by (apply Hf; cbn; auto). congruence.
  - apply IH; [|assumption]. intros; apply Hf; cbn; auto.
Qed.
Lemma launch_in tile nx ny i j : 1 <= tile <= 32 -> 0 <= nx < 4294967296 -> 0 <= ny < 4294967296 ->
  In (i, j) (launch tile nx ny) <-> 0 <= i < tile * (ny / tile) /\ 0 <= j < tile * (nx / tile).
Proof.
  intros Ht Hx Hy. unfold launch. replace (1024 <? tile * tile) with false by nia.
  pose proof (Z.mul_div_le nx tile ltac:(lia)) as Qx. pose proof (Z.mul_div_le ny tile ltac:(lia)) as Qy.
  pose proof (Z.div_pos nx tile ltac:(lia) ltac:(lia)) as Px. pose proof (Z.div_pos ny tile ltac:(lia) ltac:(lia)) as Py.
  set (bx := nx / tile) in *. set (by_ := ny / tile) in *. clearbody bx by_.
  rewrite in_flat_map. split.
  - intros (b & Hb & H). apply in_flat_map in H as (c & Hc & H). apply in_flat_map in H as (ty & Hty & H).
    apply in_map_iff in H as (tx & E & Htx). rewrite in_range in *. injection E as <- <-. rewrite !u32_small by nia. nia.
  - intros [Hi Hj].
    pose proof (Z.div_mod i tile ltac:(lia)) as Di. pose proof (Z.mod_pos_bound i tile ltac:(lia)) as Mi.
    pose proof (Z.div_mod j tile ltac:(lia)) as Dj. pose proof (Z.mod_pos_bound j tile ltac:(lia)) as Mj.
    exists (i / tile). rewrite in_range. split.
    { split; [apply Z.div_pos; lia|]. apply Z.div_lt_upper_bound; lia. }
    apply in_flat_map. exists (j / tile). rewrite in_range. split.
    { split; [apply Z.div_pos; lia|]. apply Z.div_lt_upper_bound; lia. }
    apply in_flat_map. exists (i mod tile). rewrite in_range. split; [lia|].
    apply in_map_iff. exists (j mod tile). rewrite in_range. split; [|lia].
    rewrite !u32_small by nia. f_equal; lia.
Qed.
Lemma launch_nodup tile nx ny : 1 <= tile <= 32 -> 0 <= nx < 4294967296 -> 0 <= ny < 4294967296 -> NoDup (launch tile nx ny).
Proof.
  intros Ht Hx Hy. unfold launch. replace (1024 <? tile * tile) with false by nia.
  pose proof (Z.mul_div_le nx tile ltac:(lia)) as Qx. pose proof (Z.mul_div_le ny tile ltac:(lia)) as Qy.
  set (bx := nx / tile) in *. set (by_ := ny / tile) in *. clearbody bx by_.
  assert (Q : forall b t b' t', 0 <= t < tile -> 0 <= t' < tile -> b * tile + t = b' * tile + t' -> b = b' /\ t = t').
  { intros b t b' t' H H' E. apply (Z.div_mod_unique tile b b' t t'); lia. }
  apply nodup_flat_map; [apply nodup_range| |].
  - intros b Hb. rewrite in_range in Hb. apply nodup_flat_map; [apply nodup_range| |].
    + intros c Hc. rewrite in_range in Hc. apply nodup_flat_map; [apply nodup_range| |].
      * intros ty Hty. rewrite in_range in Hty. apply nodup_map_in; [|apply nodup_range].
        intros t t' I1 I2 E. rewrite in_range in I1, I2. injection E as E. rewrite !u32_small in E by nia. lia.
      * intros ty ty' [u v] I1 I2 H1 H2. rewrite in_range in I1, I2. apply in_map_iff in H1 as (t & E & _). apply in_map_iff in H2 as (t' & E' & _).
        injection E as E _. injection E' as E' _. rewrite !u32_small in E, E' by nia. lia.
    + intros c c' [u v] I1 I2 H1 H2. rewrite in_range in I1, I2.
      apply in_flat_map in H1 as (ty & J1 & H1). apply in_flat_map in H2 as (ty' & J2 & H2). rewrite in_range in J1, J2.
      apply in_map_iff in H1 as (t & E & K1). apply in_map_iff in H2 as (t' & E' & K2). rewrite in_range in K1, K2.
      injection E as _ E. injection E' as _ E'. rewrite !u32_small in E, E' by nia. apply (Q c t c' t'); lia.
  - intros b b' [u v] I1 I2 H1 H2. rewrite in_range in I1, I2.
    apply in_flat_map in H1 as (c & J1 & H1). apply in_flat_map in H2 as (c' & J2 & H2).
    apply in_flat_map in H1 as (ty & L1 & H1). apply in_flat_map in H2 as (ty' & L2 & H2). rewrite in_range in L1, L2.
    apply in_map_iff in H1 as (t & E & _). apply in_map_iff in H2 as (t' & E' & _).
    injection E as E _. injection E' as E' _. rewrite !u32_small in E, E' by nia. apply (Q b ty b' ty'); lia.
Qed.
Lemma launch_all tile nx ny : tiles tile nx ny -> 0 <= nx < 4294967296 -> 0 <= ny < 4294967296 ->
  Permutation (launch tile nx ny) (nodes ny 0 nx).
Proof.
  intros (Ht & [qx Ex] & [qy Ey]) Hx Hy. apply NoDup_Permutation; [apply launch_nodup; assumption|apply nodes_nodup|].
  intros [i j]. rewrite launch_in, in_nodes by assumption.
  replace (tile * (nx / tile)) with nx by (rewrite Ex, Z.div_mul by lia; lia).
  replace (tile * (ny / tile)) with ny by (rewrite Ey, Z.div_mul by lia; lia). tauto.
Qed.
Lemma launch_misses tile nx ny : 1 <= tile <= 32 -> 0 < nx < 4294967296 -> 0 < ny < 4294967296 -> ~ (tile | nx) \/ ~ (tile | ny) ->
  exists i j, 0 <= i < ny /\ 0 <= j < nx /\ ~ In (i, j) (launch tile nx ny).
Proof.
  intros Ht Hx Hy [H|H].
  - exists 0, (nx - 1). split; [lia|]. split; [lia|]. rewrite launch_in by lia. intros [_ K]. apply H. exists (nx / tile).
    pose proof (Z.mul_div_le nx tile ltac:(lia)). lia.
  - exists (ny - 1), 0. split; [lia|]. split; [lia|]. rewrite launch_in by lia. intros [K _]. apply H. exists (ny / tile).
    pose proof (Z.mul_div_le ny tile ltac:(lia)). lia.
Qed.

(** * interleavings *)
Section Inter.
Context {T : Type}.
Implicit Types (m : mem T) (p : prog T).

(** there is always an execution *)
Lemma reach_run p : forall m m1, run p m = Ok m1 -> forall ps1 ps2 r, interleaved (ps1 ++ Ret :: ps2) m1 r -> interleaved (ps1 ++ p :: ps2) m r.
Proof.
  induction p as [|l k IH|l v p IH|e]; intros m m1 H ps1 ps2 r Hr; cbn in H.
  - injection H as ->. exact Hr.
  - destruct (m l) as [v|] eqn:E; [|discriminate]. eapply il_step; [discriminate|cbn; rewrite E; reflexivity|]. eapply IH; eauto.
  - destruct (m l) as [v'|] eqn:E; [|discriminate]. eapply il_step; [discriminate|cbn; rewrite E; reflexivity|]. eapply IH; eauto.
  - discriminate.
Qed.
Lemma fail_run p : forall m e, run p m = UB e -> forall ps1 ps2, interleaved (ps1 ++ p :: ps2) m (UB e).
Proof.
  induction p as [|l k IH|l v p IH|e0]; intros m e H ps1 ps2; cbn in H.
  - discriminate.
  - destruct (m l) as [v|] eqn:E.
    + eapply il_step; [discriminate|cbn; rewrite E; reflexivity|]. apply IH. exact H.
    + injection H as <-. apply il_fail. cbn. rewrite E. reflexivity.
  - destruct (m l) as [v'|] eqn:E.
    + eapply il_step; [discriminate|cbn; rewrite E; reflexivity|]. apply IH. exact H.
    + injection H as <-. apply il_fail. cbn. rewrite E. reflexivity.
  - injection H as <-. apply il_fail. reflexivity.
Qed.
Lemma run_cases p : forall m, (exists m1, run p m = Ok m1) \/ exists e, run p m = UB e.
Proof.
  induction p as [|l k IH|l v p IH|e0]; intros m; cbn; eauto.
  - destruct (m l); eauto.
  - destruct (m l); eauto.
Qed.
Lemma some_execution ps : forall qs m, Forall (fun p => p = Ret) qs -> exists r, interleaved (qs ++ ps) m r.
Proof.
  induction ps as [|p ps IH]; intros qs m Hq.
  - exists (Ok m). constructor. rewrite app_nil_r. exact Hq.
  - destruct (run_cases p m) as [[m1 H]|[e H]].
    + destruct (IH (qs ++ [Ret]) m1) as [r Hr]; [apply Forall_app; split; [exact Hq|repeat constructor]|].
      exists r. eapply reach_run; [exact H|]. rewrite <- app_assoc in Hr. exact Hr.
    + exists (UB e). apply fail_run. exact H.
Qed.
Lemma execution ps m : exists r, interleaved ps m r.
Proof. apply (some_execution ps [] m). constructor. Qed.
Lemma launches_execution ks : forall m, exists r, launches ks m r.
Proof.
  induction ks as [|k ks IH]; intros m; [eexists; constructor|].
  destruct (execution k m) as [r Hr].
  assert (C : (exists m1, r = Ok m1) \/ exists e, r = UB e) by (clear -Hr; induction Hr; eauto).
  destruct C as [[m1 ->]|[e ->]].
  - destruct (IH m1) as [r Hr']. exists r. eapply kernel_ok; eauto.
  - exists (UB e). apply kernel_ub. exact Hr.
Qed.

(** nothing is written outside the elements the threads own *)
Lemma touches_act W R p m p' m' : touches W R p -> act p m = Ok (p', m') -> touches W R p' /\ forall l, W l = false -> m' l = m l.
Proof. apply act_touches. Qed.
Lemma interleaved_frame W R ps m r : interleaved ps m r -> Forall (touches W R) ps -> forall m', r = Ok m' -> forall l, W l = false -> m' l = m l.
Proof.
  induction 1 as [ps m Hd|ps1 p ps2 m p' m1 r Hn Hs Hi IH|ps1 p ps2 m e Hs]; intros Ht m' E l Hl.
  - congruence.
  - apply Forall_app in Ht as [H1 H2]. inversion H2 as [|? ? H3 H4]; subst.
    destruct (act_touches _ _ _ _ _ _ H3 Hs) as [A B]. rewrite (IH ltac:(apply Forall_app; auto) _ eq_refl l Hl). auto.
  - discriminate.
Qed.

(** a thread that fails on its own fails in every interleaving *)
Lemma run_agree_ub W R p : forall m m' e, touches W R p -> (forall l, R l || W l = true -> m l = m' l) ->
  run p m = UB e -> run p m' = UB e.
Proof.
  induction p as [|l0 k IH|l0 v p IH|e0]; intros m m' e Ht Ha H; cbn in *.
  - discriminate.
  - destruct Ht as [Hr Ht]. rewrite <- (Ha _ Hr). destruct (m l0) as [v|]; [|exact H]. eapply IH; eauto.
  - destruct Ht as [Hw Ht]. rewrite <- (Ha l0) by (rewrite Hw; apply orb_true_r).
    destruct (m l0) as [v'|]; [|exact H]. eapply IH; [exact Ht| |exact H].
    intros l Hl. unfold upd. destruct (loc_eqb l0 l); auto.
  - exact H.
Qed.
Lemma interleaved_bad R ps m r : interleaved ps m r -> forall a p b W e, ps = a ++ p :: b ->
  touches W R p -> run p m = UB e ->
  Forall (fun q => exists Wq, touches Wq R q /\ (forall l, R l || W l = true -> Wq l = false)) (a ++ b) ->
  exists e', r = UB e'.
Proof.
  induction 1 as [ps m Hd|ps1 p ps2 m p' m1 r Hn Hs Hi IH|ps1 p ps2 m e0 Hs]; intros a q b W e E Ht Hr Ho; subst.
  - exfalso. unfold finished in Hd. apply Forall_app in Hd as [_ Hd]. inversion Hd; subst. discriminate.
  - assert (C : (ps1 = a /\ p = q /\ ps2 = b) \/ (exists c, a = ps1 ++ p :: c /\ ps2 = c ++ q :: b) \/ (exists c, ps1 = a ++ q :: c /\ b = c ++ p :: ps2)).
    { clear - E. revert a E. induction ps1 as [|x ps1 IH]; intros [|y a] E; cbn in E; injection E as E1 E2; subst.
      - left. auto.
      - right; left. exists a. auto.
      - right; right. exists ps1. auto.
      - destruct (IH a E2) as [(-> & -> & ->)|[(c & -> & ->)|(c & -> & ->)]]; [left; auto|right; left; exists c; auto|right; right; exists c; auto]. }
    destruct C as [(-> & -> & ->)|[(c & -> & ->)|(c & -> & ->)]].
    + destruct (act_touches _ _ _ _ _ _ Ht Hs) as [A B]. eapply (IH a p' b W e eq_refl A); [|exact Ho]. rewrite <- (act_run _ _ _ _ Hs). exact Hr.
    + rewrite <- app_assoc in Ho. cbn in Ho. pose proof Ho as Ho'. apply Forall_app in Ho' as [H1 H2]. inversion H2 as [|? ? (Wq & A & B) H4]; subst.
      destruct (act_touches _ _ _ _ _ _ A Hs) as [A' B'].
      apply (IH (ps1 ++ p' :: c) q b W e); [rewrite <- app_assoc; reflexivity|exact Ht| |].
      * apply (run_agree_ub W R q m); [exact Ht| |exact Hr]. intros l Hl. symmetry. apply B'. auto.
      * rewrite <- app_assoc. cbn. apply Forall_app; split; [exact H1|]. constructor; [exists Wq; auto|exact H4].
    + rewrite app_assoc in Ho. pose proof Ho as Ho'. apply Forall_app in Ho' as [H1 H2]. inversion H2 as [|? ? (Wq & A & B) H4]; subst.
      destruct (act_touches _ _ _ _ _ _ A Hs) as [A' B'].
      apply (IH a q (c ++ p' :: ps2) W e); [rewrite <- app_assoc; reflexivity|exact Ht| |].
      * apply (run_agree_ub W R q m); [exact Ht| |exact Hr]. intros l Hl. symmetry. apply B'. auto.
      * rewrite app_assoc. apply Forall_app; split; [exact H1|]. constructor; [exists Wq; auto|exact H4].
  - eauto.
Qed.

(** all threads that fail on their own fail alike, and one does *)
Lemma act_ub p m e : act p m = UB e -> run p m = UB e.
Proof.
  destruct p as [|l k|l v p|e']; cbn; intros H; try discriminate.
  - destruct (m l); [discriminate|congruence].
  - destruct (m l); [discriminate|congruence].
  - congruence.
Qed.
Lemma run_ub_back W R p m m' e : touches W R p -> (forall l, R l || W l = true -> m l = m' l) -> run p m' = UB e -> run p m = UB e.
Proof. intros Ht Ha H. apply (run_agree_ub W R p m' m e Ht); [|exact H]. intros; symmetry; auto. Qed.
Lemma interleaved_spoilt R e0 ps m r : interleaved ps m r -> forall ts : list (thr (T := T)), ps = map th_p ts ->
  Forall (fun t => touches (th_W t) R (th_p t) /\ (forall l, R l = true -> th_W t l = false) /\ forall e, run (th_p t) m = UB e -> e = e0) ts ->
  ForallOrdPairs apart ts -> (exists t, In t ts /\ run (th_p t) m = UB e0) -> r = UB e0.
Proof.
  induction 1 as [ps m Hd|ps1 p ps2 m p' m1 r Hn Hs Hi IH|ps1 p ps2 m e Hs]; intros ts E Hf Ha (t0 & T0 & R0).
  - exfalso. unfold finished in Hd. rewrite Forall_forall in Hd. rewrite (Hd (th_p t0)) in R0 by (rewrite E; apply in_map; exact T0). discriminate.
  - symmetry in E. apply map_eq_app in E as (a & b0 & -> & E1 & E2). destruct b0 as [|t b]; [discriminate|]. cbn in E2. injection E2 as E2 E3.
    apply apart_app in Ha as [Ha1 Ha2]. rewrite Forall_forall in Hf.
    destruct (Hf t) as (Ht & Hr & He). { apply in_or_app; right; left; reflexivity. }
    rewrite E2 in *. destruct (act_touches _ _ _ _ _ _ Ht Hs) as [Ht' Hm].
    assert (Ag : forall u, In u (a ++ b) -> forall l, R l || th_W u l = true -> m l = m1 l).
    { intros u Hu l Hl. symmetry. apply Hm. apply orb_true_iff in Hl as [Hl|Hl]; [auto|]. destruct (Ha1 u Hu) as [A _]. auto. }
    assert (Sub : forall u, In u (a ++ b) -> In u (a ++ t :: b)).
    { intros u Hu. apply in_app_or in Hu as [Hu|Hu]; apply in_or_app; [left|right; right]; exact Hu. }
    assert (O : forall u, In u (a ++ b) -> touches (th_W u) R (th_p u) /\ (forall l, R l = true -> th_W u l = false) /\ forall e, run (th_p u) m1 = UB e -> e = e0).
    { intros u Hu. destruct (Hf u (Sub u Hu)) as (X1 & X2 & X3). split; [exact X1|]. split; [exact X2|].
      intros e He'. apply X3. apply (run_ub_back (th_W u) R _ _ m1); [exact X1|exact (Ag u Hu)|exact He']. }
    apply (IH (a ++ mkThr p' (th_W t) (th_fin t) :: b)).
    + rewrite map_app. cbn. congruence.
    + rewrite Forall_forall. intros u Hu. apply in_app_or in Hu as [Hu|[<-|Hu]].
      * apply O, in_or_app; auto.
      * split; [exact Ht'|]. split; [exact Hr|]. cbn [th_p]. rewrite <- (act_run _ _ _ _ Hs). exact He.
      * apply O, in_or_app; auto.
    + apply Ha2. reflexivity.
    + assert (C : In t0 (a ++ b) \/ t0 = t).
      { apply in_app_or in T0 as [T0|[->|T0]]; [left; apply in_or_app; auto|right; reflexivity|left; apply in_or_app; auto]. }
      destruct C as [C| ->].
      * exists t0. split; [apply in_app_or in C as [C|C]; apply in_or_app; [left|right; right]; exact C|].
        destruct (Hf t0 (Sub t0 C)) as (X1 & _ & _). apply (run_agree_ub (th_W t0) R _ m); [exact X1|exact (Ag t0 C)|exact R0].
      * exists (mkThr p' (th_W t) (th_fin t)). split; [apply in_or_app; right; left; reflexivity|]. cbn [th_p]. rewrite <- (act_run _ _ _ _ Hs), <- E2. exact R0.
  - symmetry in E. apply map_eq_app in E as (a & b0 & -> & E1 & E2). destruct b0 as [|t b]; [discriminate|]. cbn in E2. injection E2 as E2 E3.
    rewrite Forall_forall in Hf. destruct (Hf t) as (_ & _ & He). { apply in_or_app; right; left; reflexivity. }
    f_equal. apply He. rewrite E2. apply act_ub. exact Hs.
Qed.
End Inter.

(** * kernels whose threads own their node in the arrays [B] and read the arrays [A] *)
Section Kernel.
Context {T : Type}.
Variables (nx ny : Z) (is : list (Z * Z)) (body : Z * Z -> prog T) (A B : list arr).
Hypothesis Hn : indexable nx ny.
Hypothesis His : NoDup is.
Hypothesis Hin : forall i j, In (i, j) is -> 0 <= i < ny /\ 0 <= j < nx.
Hypothesis Hd : forall a, existsb (arr_eqb a) A = true -> existsb (arr_eqb a) B = false.
(** what the thread of node (i,j) owns *)
Definition own (B : list arr) (ij : Z * Z) : loc -> bool := at_node B (u32 (fst ij * nx + snd ij), 0).
Hypothesis Ht : forall ij, touches (own B ij) (of_arrs A) (body ij).

Lemma index_small i j : 0 <= i < ny -> 0 <= j < nx -> 0 <= i * nx + j < 4294967296.
Proof. destruct Hn as (H1 & H2 & H3). intros. split; nia. Qed.
Lemma index_inj i j i' j' : 0 <= j < nx -> 0 <= j' < nx -> i * nx + j = i' * nx + j' -> i = i' /\ j = j'.
Proof. intros H H' E. apply (Z.div_mod_unique nx i i' j j'); lia. Qed.
Lemma own_apart ij ij' l : In ij is -> In ij' is -> ij <> ij' -> own B ij l = true -> own B ij' l = false.
Proof.
  destruct ij as [i j], ij' as [i' j']. intros H H' N. apply Hin in H as [Hi Hj]. apply Hin in H' as [Hi' Hj'].
  apply at_node_apart. cbn [fst snd]. rewrite !u32_small by (apply index_small; assumption).
  intros E. injection E as E. apply index_inj in E as [-> ->]; auto.
Qed.
Lemma own_R ij l : of_arrs A l = true -> own B ij l = false.
Proof. apply foot_apart. exact Hd. Qed.

Definition threads_of (fin : mem T) : list thr := map (fun ij => mkThr (body ij) (own B ij) (fun l => match l with (a, _, _) => fin (a, fst ij, snd ij) end)) is.
Lemma kernel_fine m fin : (forall i j, In (i, j) is -> exists m1, run (body (i, j)) m = Ok m1 /\
     forall a, existsb (arr_eqb a) B = true -> m1 (a, i * nx + j, 0) = fin (a, i, j)) ->
  Forall (fine (of_arrs A) m) (threads_of fin) /\ ForallOrdPairs apart (threads_of fin).
Proof.
  intros Hb. split.
  - unfold threads_of. rewrite Forall_map, Forall_forall. intros [i j] Hij. split; [apply Ht|]. split; [intros; apply own_R; assumption|].
    destruct (Hb i j Hij) as (m1 & R1 & F1). exists m1. split; [exact R1|]. intros [[a u] v] Hl. cbn [th_W th_fin] in *. unfold own, at_node in Hl. cbn [fst snd] in Hl.
    apply andb_true_iff in Hl as [Hl Hv]. apply andb_true_iff in Hl as [Ha Hu]. apply Z.eqb_eq in Hu, Hv. subst u v. cbn [fst snd].
    destruct (Hin i j Hij). rewrite u32_small by (apply index_small; assumption). auto.
  - unfold threads_of. assert (S : forall l, (forall x, In x l -> In x is) -> NoDup l -> ForallOrdPairs apart (map (fun ij => mkThr (body ij) (own B ij) (fun l => match l with (a, _, _) => fin (a, fst ij, snd ij) end)) l)).
    { induction l as [|x l IH]; intros Hs N; cbn [map]; constructor; inversion N; subst.
      - rewrite Forall_map, Forall_forall. intros y Hy l0. cbn [th_W]. apply own_apart; [apply Hs; left; reflexivity|apply Hs; right; exact Hy|congruence].
      - apply IH; auto. intros; apply Hs; right; assumption. }
    apply S; auto.
Qed.
Lemma kernel_result m fin r : (forall i j, In (i, j) is -> exists m1, run (body (i, j)) m = Ok m1 /\
     forall a, existsb (arr_eqb a) B = true -> m1 (a, i * nx + j, 0) = fin (a, i, j)) ->
  interleaved (map body is) m r ->
  exists m', r = Ok m' /\ (forall a i j, In (i, j) is -> existsb (arr_eqb a) B = true -> m' (a, i * nx + j, 0) = fin (a, i, j)) /\
    (forall a k l, existsb (arr_eqb a) B = false -> m' (a, k, l) = m (a, k, l)) /\
    (forall a i j, ~ In (i, j) is -> 0 <= i < ny -> 0 <= j < nx -> m' (a, i * nx + j, 0) = m (a, i * nx + j, 0)).
Proof.
  intros Hb Hi. destruct (kernel_fine m fin Hb) as [F1 F2].
  replace (map body is) with (map th_p (threads_of fin)) in Hi by (unfold threads_of; rewrite map_map; reflexivity).
  destruct (interleaved_fine _ _ _ _ Hi _ eq_refl F1 F2) as (m' & -> & I1 & I2).
  exists m'. split; [reflexivity|]. split; [|split].
  - intros a i j Hij Ha. destruct (Hin i j Hij) as [Hi' Hj'].
    rewrite (I1 (mkThr (body (i, j)) (own B (i, j)) (fun l => match l with (a, _, _) => fin (a, fst (i, j), snd (i, j)) end)) (a, i * nx + j, 0)).
    + reflexivity.
    + unfold threads_of. apply (in_map (fun ij => mkThr (body ij) (own B ij) (fun l => match l with (a, _, _) => fin (a, fst ij, snd ij) end))). exact Hij.
    + cbn [th_W]. unfold own, at_node. cbn [fst snd]. rewrite Ha, u32_small by (apply index_small; assumption). rewrite Z.eqb_refl. reflexivity.
  - intros a k l Ha. apply I2. intros t Hit. unfold threads_of in Hit. apply in_map_iff in Hit as (ij & <- & _). cbn [th_W]. unfold own, at_node. cbn [fst snd]. rewrite Ha. reflexivity.
  - intros a i j Hij Hi' Hj'. apply I2. intros t Hit. unfold threads_of in Hit. apply in_map_iff in Hit as ([u v] & <- & Huv). cbn [th_W]. unfold own, at_node. cbn [fst snd].
    destruct (Hin u v Huv) as [Hu Hv]. rewrite u32_small by (apply index_small; assumption).
    destruct (Z.eqb_spec (u * nx + v) (i * nx + j)) as [E|E]; [|rewrite andb_false_r; reflexivity].
    apply index_inj in E as [-> ->]; tauto.
Qed.
Lemma kernel_no_race m fin : (forall i j, In (i, j) is -> exists m1, run (body (i, j)) m = Ok m1 /\
     forall a, existsb (arr_eqb a) B = true -> m1 (a, i * nx + j, 0) = fin (a, i, j)) -> ~ data_race (map body is) m.
Proof.
  intros Hb (qs & n & Hreach & Hc). destruct (kernel_fine m fin Hb) as [F1 F2].
  replace (map body is) with (map th_p (threads_of fin)) in Hreach by (unfold threads_of; rewrite map_map; reflexivity).
  destruct (reaches_fine _ _ _ _ _ Hreach _ eq_refl F1 F2) as (us & -> & G1 & G2).
  exact (no_conflict _ us n G1 G2 Hc).
Qed.
(** one thread that fails on its own spoils the kernel *)
Lemma kernel_bad m i j e r : In (i, j) is -> run (body (i, j)) m = UB e -> interleaved (map body is) m r -> exists e', r = UB e'.
Proof.
  intros Hij Hr Hi. apply in_split in Hij as (l1 & l2 & E). rewrite E, map_app in Hi. cbn [map] in Hi.
  eapply (interleaved_bad (of_arrs A) _ _ _ Hi _ _ _ (own B (i, j)) e eq_refl); [apply Ht|exact Hr|].
  rewrite <- map_app, Forall_map, Forall_forall. intros ij Hx. exists (own B ij). split; [apply Ht|].
  assert (N : ij <> (i, j)) by (intros ->; rewrite E in His; apply (NoDup_remove_2 _ _ _ His); exact Hx).
  assert (I1 : In (i, j) is) by (rewrite E; apply in_or_app; right; left; reflexivity).
  assert (I2 : In ij is) by (rewrite E; apply in_app_or in Hx as [Hx|Hx]; apply in_or_app; [left|right; right]; exact Hx).
  intros l Hl. apply orb_true_iff in Hl as [Hl|Hl]; [apply own_R; exact Hl|]. apply (own_apart (i, j) ij); auto.
Qed.
(** .. and decides the error if all threads that fail on their own fail alike *)
Lemma kernel_spoilt m i j e0 r : In (i, j) is -> run (body (i, j)) m = UB e0 ->
  (forall i' j' e, In (i', j') is -> run (body (i', j')) m = UB e -> e = e0) -> interleaved (map body is) m r -> r = UB e0.
Proof.
  intros Hij Hr He Hi.
  set (ts := map (fun ij => mkThr (body ij) (own B ij) (fun _ => None)) is).
  apply (interleaved_spoilt (of_arrs A) e0 (map body is) m r Hi ts).
  - unfold ts. rewrite map_map. reflexivity.
  - unfold ts. rewrite Forall_map, Forall_forall. intros [u v] Hx. cbn [th_W th_p]. split; [apply Ht|]. split; [intros; apply own_R; assumption|].
    intros e. apply He. exact Hx.
  - unfold ts. assert (S : forall l, (forall x, In x l -> In x is) -> NoDup l -> ForallOrdPairs apart (map (fun ij => mkThr (body ij) (own B ij) (fun _ => None)) l)).
    { induction l as [|x l IH]; intros Hs N; cbn [map]; constructor; inversion N; subst.
      - rewrite Forall_map, Forall_forall. intros y Hy l0. cbn [th_W]. apply own_apart; [apply Hs; left; reflexivity|apply Hs; right; exact Hy|congruence].
      - apply IH; auto. intros; apply Hs; right; assumption. }
    apply S; auto.
  - exists (mkThr (body (i, j)) (own B (i, j)) (fun _ => None)). split; [|exact Hr].
    unfold ts. apply (in_map (fun ij => mkThr (body ij) (own B ij) (fun _ => None))). exact Hij.
Qed.
(** a kernel changes only the arrays [B], at the nodes that have a thread *)
Lemma kernel_frame m r m' : interleaved (map body is) m r -> r = Ok m' ->
  (forall a k l, existsb (arr_eqb a) B = false -> m' (a, k, l) = m (a, k, l)) /\
  (forall a i j, ~ In (i, j) is -> 0 <= i < ny -> 0 <= j < nx -> m' (a, i * nx + j, 0) = m (a, i * nx + j, 0)).
Proof.
  intros Hi E.
  assert (F : Forall (touches (anyW (own B) is) (of_arrs A)) (map body is)).
  { rewrite Forall_map, Forall_forall. intros ij Hij. eapply touches_mono; [|apply Ht]. intros l Hl. eapply anyW_in; eauto. }
  pose proof (interleaved_frame _ _ _ _ _ Hi F m' E) as K. split.
  - intros a k l Ha. apply K. unfold anyW. match goal with |- ?x = false => destruct x eqn:Ee end; [|reflexivity]. apply existsb_exists in Ee as (ij & _ & H). unfold own, at_node in H. cbn [fst snd] in H. rewrite Ha in H. discriminate.
  - intros a i j Hij Hi' Hj'. apply K. unfold anyW. match goal with |- ?x = false => destruct x eqn:Ee end; [|reflexivity]. exfalso. apply existsb_exists in Ee as ([u v] & Huv & H).
    unfold own, at_node in H. cbn [fst snd] in H. destruct (Hin u v Huv). rewrite u32_small in H by (apply index_small; assumption).
    apply andb_true_iff in H as [H _]. apply andb_true_iff in H as [_ H]. apply Z.eqb_eq in H. apply index_inj in H as [-> ->]; tauto.
Qed.
End Kernel.
