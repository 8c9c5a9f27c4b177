(** The programs with threads. *)
From Coq Require Import ZArith List Permutation Bool Lia Arith Reals FunctionalExtensionality String.
From Verif Require Import Base Num NumB64 ModelVec ModelRefMath ModelRefMem ModelRef ModelRefMpi ModelRefOmp SpecRefPar SpecRefRun
  ProofsBase ProofsRefMem ProofsRefPar ProofsRefRun ProofsRefMix ProofsRefStep ProofsRefMain ProofsRefRace ProofsRefKernel ProofsRefMpi ProofsRefMpiApi ProofsRefReal ProofsRefApi.
Open Scope Z_scope.

Section Loops.
Context {T : Type} {NT : Num T}.
Implicit Types (m : mem T) (p : prog T).

Lemma interleaved_cases (ps : list (prog T)) m r : interleaved ps m r -> (exists m1, r = Ok m1) \/ exists e, r = UB e.
Proof. induction 1; eauto. Qed.
Lemma runs_cases (ps : list (prog T)) m : (exists m1, runs ps m = Ok m1) \/ exists e, runs ps m = UB e.
Proof. rewrite <- run_in_order. apply run_cases. Qed.
(** one thread *)
Lemma single p m : interleaved [p] m (run p m).
Proof.
  destruct (run_cases p m) as [[m1 H]|[e H]]; rewrite H.
  - apply (reach_run p m m1 H [] []). cbn. constructor. repeat constructor.
  - apply (fail_run p m e H [] []).
Qed.
Lemma single_only ps m r : interleaved ps m r -> forall p, ps = [p] -> r = run p m.
Proof.
  induction 1 as [ps m Hd|ps1 p ps2 m p' m1 r Hn Hs Hi IH|ps1 p ps2 m e Hs]; intros p0 E.
  - subst. inversion Hd; subst. reflexivity.
  - destruct ps1; [|destruct ps1; discriminate]. cbn in E. injection E as -> ->. rewrite (act_run _ _ _ _ Hs). apply IH. reflexivity.
  - destruct ps1; [|destruct ps1; discriminate]. cbn in E. injection E as -> ->.
    destruct p0 as [|l k|l v q|e0]; cbn in *; try discriminate; try (destruct (m l); try discriminate); congruence.
Qed.
Lemma reaches_length (ps : list (prog T)) m qs n : reaches ps m qs n -> List.length qs = List.length ps.
Proof. induction 1 as [|? ? ? ? ? ? ? ? ? ? ? IH]; [reflexivity|]. rewrite IH, !app_length. reflexivity. Qed.
Lemma single_race p m : ~ data_race [p] m.
Proof.
  intros (qs & n & H & (a & b & c & p1 & p2 & l & w & w' & E & _)). apply reaches_length in H. rewrite E in H.
  rewrite app_length in H. cbn in H. rewrite app_length in H. cbn in H. lia.
Qed.

Section One.
Context {I : Type} (body : I -> prog T).
Lemma one_team its m r : omp_for body [its] m r <-> r = runs (map body its) m.
Proof.
  split.
  - destruct 1 as [m r H|m H].
    + rewrite <- run_in_order. eapply single_only; [exact H|reflexivity].
    + exfalso. eapply single_race. exact H.
  - intros ->. apply for_runs. unfold threads. cbn [map]. rewrite <- run_in_order. apply single.
Qed.
Lemma static_serial k its m : 1 <= k -> static_for k body its m (runs (map body its) m).
Proof.
  intros Hk. exists [its]. split; [|apply one_team; reflexivity]. split; [cbn; apply app_nil_r|]. split; [cbn; lia|].
  intros a b [<-|[]] [<-|[]]. lia.
Qed.
Lemma static_one its m r : static_for 1 body its m r <-> r = runs (map body its) m.
Proof.
  split; [|intros ->; apply static_serial; lia]. intros (teams & (E & L & _) & H).
  destruct teams as [|t [|u ts]]; cbn in L; try lia. cbn in E. rewrite app_nil_r in E. subst t. apply one_team. exact H.
Qed.
End One.

Lemma rows_concat lo hi (teams : list (list Z)) : concat (map (flat_map (row lo hi)) teams) = flat_map (row lo hi) (concat teams).
Proof. induction teams as [|t ts IH]; [reflexivity|]. cbn [map concat]. rewrite IH, flat_map_app. reflexivity. Qed.
Lemma perm_flat_map {A B} (f : A -> list B) l l' : Permutation l l' -> Permutation (flat_map f l) (flat_map f l').
Proof.
  induction 1 as [|x l l' H IH|x y l|l l1 l2 H1 IH1 H2 IH2]; cbn.
  - constructor.
  - apply Permutation_app_head. exact IH.
  - rewrite !app_assoc. apply Permutation_app_tail, Permutation_app_comm.
  - eapply Permutation_trans; eauto.
Qed.
Lemma rows_team rows lo hi teams : Permutation (concat teams) (range 0 rows) -> team_of (nodes rows lo hi) (map (flat_map (row lo hi)) teams).
Proof. intros H. unfold team_of. rewrite rows_concat. apply perm_flat_map. exact H. Qed.
Lemma rows_serial k (body : Z * Z -> prog T) rows lo hi m : 1 <= k -> rows_for k body rows lo hi m (runs (map body (nodes rows lo hi)) m).
Proof.
  intros Hk. exists [range 0 rows]. split; [cbn; rewrite app_nil_r; reflexivity|]. split; [cbn; lia|].
  cbn [map]. apply one_team. reflexivity.
Qed.
(** pieces in sequence *)
Lemma seqr_intro (p q : phase (T := T)) m o r : p m o -> andr o q r -> seqr p q m r.
Proof. intros. exists o. auto. Qed.
Lemma bind_andr {A B} (o : outcome A) (f : A -> outcome B) (q : A -> outcome B -> Prop) : (forall a, q a (f a)) -> andr o q (bind o f).
Proof. destruct o; cbn; auto. Qed.
Lemma andr_bind {A B} (o : outcome A) (f : A -> outcome B) (q : A -> outcome B -> Prop) r :
  (forall a r, o = Ok a -> q a r -> r = f a) -> andr o q r -> r = bind o f.
Proof. destruct o; cbn; auto. Qed.
(** every outcome is the one of a function, or both are undefined *)
Definition refines {A B} (R : A -> outcome B -> Prop) (f : A -> outcome B) : Prop :=
  (forall a, R a (f a)) /\ forall a r, R a r -> r = f a \/ exists e e', f a = UB e /\ r = UB e'.
Lemma ref_pre {A B C} (g : C -> A) (R : A -> outcome B -> Prop) f : refines R f -> refines (fun c => R (g c)) (fun c => f (g c)).
Proof. intros [H1 H2]. split; intros; auto. Qed.
Lemma ref_eq {A B} (f : A -> outcome B) : refines (fun a r => r = f a) f.
Proof. split; auto. Qed.
Lemma ref_seq {A B C} (p : A -> outcome B -> Prop) f (q : B -> outcome C -> Prop) g : refines p f -> refines q g ->
  refines (fun a r => exists o, p a o /\ andr o q r) (fun a => bind (f a) g).
Proof.
  intros [P1 P2] [Q1 Q2]. split.
  - intros a. exists (f a). split; [apply P1|]. apply bind_andr. exact Q1.
  - intros a r (o & Hp & Ha). destruct (P2 a o Hp) as [->|(e & e' & -> & ->)].
    + destruct (f a) as [b|e|n|]; cbn [bind andr] in *; auto.
    + cbn in *. right. eauto.
Qed.

(** loops whose iterations keep apart *)
Definition tame {I} (body : I -> prog T) (its : list I) : Prop := exists (W : I -> loc -> bool) (R : loc -> bool),
  (forall i, touches (W i) R (body i)) /\ (forall i l, R l = true -> W i l = false) /\ separate W its.
Lemma first_bad {I} (body : I -> prog T) its : forall m e, runs (map body its) m = UB e ->
  exists a i b m1, its = a ++ i :: b /\ runs (map body a) m = Ok m1 /\ run (body i) m1 = UB e.
Proof.
  induction its as [|i its IH]; intros m e H; [discriminate|]. cbn [map runs forM] in H. unfold runs in H. cbn [forM] in H.
  destruct (run (body i) m) as [m1|e1|n|] eqn:E; cbn [bind] in H; try discriminate.
  - destruct (IH m1 e H) as (a & j & b & m2 & -> & Ra & Rj). exists (i :: a), j, b, m2. split; [reflexivity|]. split; [|exact Rj].
    unfold runs. cbn [map forM]. rewrite E. exact Ra.
  - exists [], i, its, m. split; [reflexivity|]. split; [reflexivity|]. congruence.
Qed.
Lemma run_agree_bad W R p m m' e : touches W R p -> (forall l, R l || W l = true -> m l = m' l) -> run p m = UB e -> exists e', run p m' = UB e'.
Proof.
  intros Ht Ha H. destruct (run_cases p m') as [[m1 E]|[e' E]]; [|eauto]. exfalso.
  destruct (run_agree W R p m' m m1 Ht (fun l K => eq_sym (Ha l K)) E) as (m2 & E2 & _). congruence.
Qed.
Lemma runs_other {I} (W : I -> loc -> bool) R (body : I -> prog T) a : (forall i, touches (W i) R (body i)) -> forall m m', runs (map body a) m = Ok m' ->
  forall l, (forall i, In i a -> W i l = false) -> m' l = m l.
Proof.
  intros Ht. induction a as [|i a IH]; intros m m' H l Hl; [cbn in H; congruence|]. unfold runs in H. cbn [map forM] in H.
  destruct (run (body i) m) as [m1|e|n|] eqn:E; cbn [bind] in H; try discriminate.
  rewrite (IH m1 m' H l) by (intros; apply Hl; right; assumption). apply (run_frame _ _ _ _ _ (Ht i) E). apply Hl. left. reflexivity.
Qed.
Lemma sep_sym {I} (W : I -> loc -> bool) i j : (forall l, W i l = true -> W j l = false) -> forall l, W j l = true -> W i l = false.
Proof. intros H l Hl. destruct (W i l) eqn:E; [|reflexivity]. rewrite (H l E) in Hl. discriminate. Qed.
Lemma tame_bad {I} (body : I -> prog T) its teams m e r : tame body its -> team_of its teams -> runs (map body its) m = UB e ->
  interleaved (threads body teams) m r -> exists e', r = UB e'.
Proof.
  intros (W & R & Ht & HR & Hs) Tm H Hi. destruct (first_bad body its m e H) as (a & i & b & m1 & E & Ra & Ri). subst its.
  assert (A1 : exists e1, run (body i) m = UB e1).
  { eapply run_agree_bad; [apply Ht| |exact Ri]. intros l Hl. apply (runs_other W R body a Ht m m1 Ra). intros j Hj.
    apply orb_true_iff in Hl as [Hl|Hl]; [apply HR; exact Hl|]. apply separate_app in Hs as (_ & _ & S). apply (sep_sym W j i); [apply S; [exact Hj|left; reflexivity]|exact Hl]. }
  destruct A1 as [e1 A1].
  assert (In i (concat teams)) as Hin by (eapply Permutation_in; [symmetry; exact Tm|apply in_or_app; right; left; reflexivity]).
  apply in_concat in Hin as (t & Htm & Hit). apply in_split in Htm as (ts1 & ts2 & ->).
  assert (Hs' : separate W (concat (ts1 ++ t :: ts2))) by (eapply separate_perm; [symmetry; exact Tm|exact Hs]).
  rewrite concat_app in Hs'. cbn [concat] in Hs'. pose proof Hs' as Hs2.
  apply separate_app in Hs' as (_ & Hs3 & S12). apply separate_app in Hs3 as (St & _ & S23).
  assert (A2 : exists e2, run (in_order (map body t)) m = UB e2).
  { rewrite run_in_order. apply in_split in Hit as (t1 & t2 & ->). rewrite map_app. cbn [map].
    destruct (runs_cases (map body (t1 ++ i :: t2)) m) as [[m2 K]|K]; [|rewrite map_app in K; exact K]. exfalso. rewrite map_app in K. cbn [map] in K.
    unfold runs in K. rewrite forM_app in K. fold (runs (map body t1) m) in K. destruct (runs (map body t1) m) as [m3|e3|n3|] eqn:E3; cbn [bind] in K; try discriminate.
    cbn [forM] in K. destruct (run_agree_bad (W i) R (body i) m m3 e1 (Ht i)) as [e4 E4]; [|exact A1|rewrite E4 in K; discriminate].
    intros l Hl. symmetry. apply (runs_other W R body t1 Ht m m3 E3). intros j Hj. apply orb_true_iff in Hl as [Hl|Hl]; [apply HR; exact Hl|].
    apply separate_app in St as (_ & _ & S). apply (sep_sym W j i); [apply S; [exact Hj|left; reflexivity]|exact Hl]. }
  destruct A2 as [e2 A2]. unfold threads in Hi. rewrite map_app in Hi. cbn [map] in Hi.
  eapply (interleaved_bad R _ _ _ Hi _ _ _ (anyW W t) e2 eq_refl); [apply touches_order; exact Ht|exact A2|].
  assert (Hany : forall u l, anyW W u l = true -> R l = true -> False).
  { intros u l Hu Hl. apply existsb_exists in Hu as (j & _ & Hj). rewrite (HR j l Hl) in Hj. discriminate. }
  apply Forall_app. split; apply Forall_forall; intros q Hq; apply in_map_iff in Hq as (u & <- & Hu); exists (anyW W u); split; try (apply touches_order; exact Ht);
    intros l Hl; destruct (anyW W u l) eqn:Eu; try reflexivity; exfalso;
    (apply orb_true_iff in Hl as [Hl|Hl]; [eapply Hany; eassumption|]); apply existsb_exists in Hl as (j & Hj & Hl); apply existsb_exists in Eu as (j' & Hj' & Eu).
  - rewrite (S12 j' j) with (l := l) in Hl; [discriminate|apply in_concat; eauto|apply in_or_app; auto|exact Eu].
  - rewrite (S23 j j') with (l := l) in Eu; [discriminate|exact Hj|apply in_concat; eauto|exact Hl].
Qed.
Lemma tame_for {I} (body : I -> prog T) its teams m r : tame body its -> team_of its teams -> omp_for body teams m r ->
  r = runs (map body its) m \/ exists e e', runs (map body its) m = UB e /\ r = UB e'.
Proof.
  intros Hb Tm H. destruct (runs_cases (map body its) m) as [[m' E]|[e E]]; rewrite E.
  - left. destruct Hb as (W & R & Ht & HR & Hs). destruct H as [m r H|m H].
    + destruct (schedule_free body W R Ht HR its teams m m' r Hs Tm E H) as (a & b & -> & Eb & S). injection Eb as <-. f_equal. extensionality l. apply S.
    + exfalso. exact (race_free body W R Ht HR its teams m m' Hs Tm E H).
  - right. exists e. destruct H as [m r H|m H]; [|eauto]. destruct (tame_bad body its teams m e r Hb Tm E H) as [e' ->]. eauto.
Qed.
Lemma static_ref k {I} (body : I -> prog T) its : 1 <= k -> tame body its -> refines (static_for k body its) (runs (map body its)).
Proof.
  intros Hk Hb. split; [intros m; apply static_serial; exact Hk|]. intros m r (teams & (E & _) & H).
  eapply tame_for; [exact Hb| |exact H]. unfold team_of. rewrite E. reflexivity.
Qed.
Lemma static_ref_one {I} (body : I -> prog T) its : refines (static_for 1 body its) (runs (map body its)).
Proof. split; [intros m; apply static_serial; lia|]. intros m r H. left. apply static_one. exact H. Qed.
Lemma rows_ref k (body : Z * Z -> prog T) rows lo hi : 1 <= k -> tame body (nodes rows lo hi) ->
  refines (rows_for k body rows lo hi) (runs (map body (nodes rows lo hi))).
Proof.
  intros Hk Hb. split; [intros m; apply rows_serial; exact Hk|]. intros m r (teams & Pm & _ & H).
  eapply tame_for; [exact Hb|apply rows_team; exact Pm|exact H].
Qed.
Lemma rows_one_team (body : Z * Z -> prog T) rows lo hi m r : tame body (nodes rows lo hi) -> rows_for 1 body rows lo hi m r -> 
  r = runs (map body (nodes rows lo hi)) m \/ exists e e', runs (map body (nodes rows lo hi)) m = UB e /\ r = UB e'.
Proof. intros Hb. apply (proj2 (rows_ref 1 body rows lo hi ltac:(lia) Hb)). Qed.
(** the loops of the programs *)
Lemma tame_nodes (body : Z * Z -> prog T) A B rows lo hi : (forall a, existsb (arr_eqb a) A = true -> existsb (arr_eqb a) B = false) ->
  (forall ij, touches (at_node B ij) (of_arrs A) (body ij)) -> tame body (nodes rows lo hi).
Proof.
  intros Hd Ht. exists (at_node B), (of_arrs A). split; [exact Ht|]. split; [intros; eapply foot_apart; eauto|]. apply separate_nodes, nodes_nodup.
Qed.
Lemma tame_turned (body : Z * Z -> prog T) A B nnx nx ny : 0 <= nnx -> nx < 4294967296 -> (forall a, existsb (arr_eqb a) A = true -> existsb (arr_eqb a) B = false) ->
  (forall ij, touches (own_pos (turned nnx) B ij) (of_arrs A) (body ij)) -> tame body (nodes ny nnx nx).
Proof.
  intros H1 H2 Hd Ht. exists (own_pos (turned nnx) B), (of_arrs A). split; [exact Ht|]. split; [intros; eapply foot_apart; eauto|]. apply separate_pos, turned_nodup; assumption.
Qed.
Lemma tame_adv (F : flow T) rk3 t dt Tp ny lo hi : tame (adv_body F rk3 t dt Tp) (nodes ny lo hi).
Proof. eapply tame_nodes; [|intros; apply adv_touches]. intros []; cbn; congruence. Qed.
Lemma tame_find nx ny x1 x2 y1 y2 rows lo hi : tame (find_body nx ny x1 x2 y1 y2) (nodes rows lo hi).
Proof. eapply tame_nodes; [|intros; apply find_touches]. intros []; cbn; congruence. Qed.
Lemma tame_update (F : flow T) sch rk3 t dt Tp ny lo hi : tame (update_body F sch rk3 t dt Tp) (nodes ny lo hi).
Proof. eapply tame_nodes; [|intros; apply update_touches]. intros []; cbn; congruence. Qed.
End Loops.

Section Program.
Context {T : Type} {NT : Num T} {TG : Trig T}.
Variables (F : flow T) (s : settings T).

Lemma omp_step_serial k kmix t m : 1 <= k -> 1 <= kmix -> omp_step k kmix F s t m (step true F s t m).
Proof.
  intros Hk Hx. unfold omp_step, step. cbv zeta. set (m0 := alloc Yadv _ _ _ _). clearbody m0.
  eapply seqr_intro; [apply static_serial; exact Hk|]. apply bind_andr. intros m1.
  eapply seqr_intro; [apply static_serial; exact Hk|]. apply bind_andr. intros m2.
  eapply seqr_intro; [apply static_serial; exact Hk|]. apply bind_andr. intros m3.
  eapply seqr_intro; [apply static_serial; exact Hx|]. apply bind_andr. intros m4. reflexivity.
Qed.
Lemma omp_step_ref k t : 1 <= k -> refines (omp_step k 1 F s t) (step true F s t).
Proof.
  intros Hk. unfold omp_step, step. cbv zeta.
  apply (ref_pre (fun m => alloc Yadv (s_ny s) (s_nx s) (D (nofZ 0)) (alloc Xadv (s_ny s) (s_nx s) (D (nofZ 0)) (alloc Tracker (s_ny s) (s_nx s) (U 0) m)))
    (seqr _ _) (fun m => m <- _ m ;; _)).
  apply ref_seq; [apply static_ref; [exact Hk|apply tame_adv]|].
  apply (ref_seq (fun m => static_for k _ _ (alloc _ _ _ _ (alloc _ _ _ _ m))) (fun m => runs _ (alloc _ _ _ _ (alloc _ _ _ _ m))));
    [apply (ref_pre (fun m => alloc Celly _ _ _ (alloc Cellx _ _ _ m))); apply static_ref; [exact Hk|apply tame_find]|].
  apply ref_seq; [apply static_ref; [exact Hk|apply tame_update]|].
  apply (ref_seq (fun m => static_for 1 _ _ (mixed_vars m)) (fun m => runs _ (mixed_vars m))); [apply ref_pre, static_ref_one|]. apply ref_eq.
Qed.
Lemma omp_step_one t m r : omp_step 1 1 F s t m r -> r = step true F s t m.
Proof.
  unfold omp_step, step. cbv zeta. set (m0 := alloc Yadv _ _ _ _). clearbody m0.
  intros (o1 & H1 & A1). apply static_one in H1. subst o1. revert A1. apply andr_bind. intros m1 r1 _.
  intros (o2 & H2 & A2). apply static_one in H2. subst o2. revert A2. apply andr_bind. intros m2 r2 _.
  intros (o3 & H3 & A3). apply static_one in H3. subst o3. revert A3. apply andr_bind. intros m3 r3 _.
  intros (o4 & H4 & A4). apply static_one in H4. subst o4. revert A4. apply andr_bind. intros m4 r4 _ ->. reflexivity.
Qed.

Lemma omp_steps_serial k kmix every : 1 <= k -> 1 <= kmix -> forall n t m out,
  omp_steps k kmix F s every t n m out (time_steps true F s every t n m out).
Proof.
  intros Hk Hx. induction n as [|n IH]; intros t m out; [reflexivity|]. cbn [omp_steps time_steps].
  exists (step true F s t m). split; [apply omp_step_serial; assumption|]. apply bind_andr. intros m1.
  destruct (every =? 0); [reflexivity|]. apply IH.
Qed.
Lemma omp_steps_one every : forall n t m out r, omp_steps 1 1 F s every t n m out r -> r = time_steps true F s every t n m out.
Proof.
  induction n as [|n IH]; intros t m out r H; [exact H|]. cbn [omp_steps time_steps] in *. destruct H as (o & H & A).
  apply omp_step_one in H. subst o. revert A. apply andr_bind. intros m1 r1 _ H1. destruct (every =? 0); [exact H1|]. apply IH. exact H1.
Qed.
Lemma omp_steps_ref k every : 1 <= k -> forall n t out, refines (fun m => omp_steps k 1 F s every t n m out) (fun m => time_steps true F s every t n m out).
Proof.
  intros Hk. induction n as [|n IH]; intros t out; [apply ref_eq|]. cbn [omp_steps time_steps].
  apply ref_seq; [apply omp_step_ref; exact Hk|]. destruct (every =? 0); [apply ref_eq|].
  split; intros m; [|intros r]; apply (IH (t + 1) (if u32 (t + 1) mod every =? 0 then out ++ [(time_at (t + 1) (s_dt s), m)] else out)).
Qed.

Lemma omp_main_one r : omp_main 1 1 F s r <-> r = main_ true F s.
Proof.
  unfold omp_main, main_. split.
  - apply andr_bind. intros n r1 _. apply andr_bind. intros m r2 _. apply omp_steps_one.
  - intros ->. apply bind_andr. intros n. apply bind_andr. intros m. apply omp_steps_serial; lia.
Qed.
Lemma omp_main_some k kmix : 1 <= k -> 1 <= kmix -> omp_main k kmix F s (main_ true F s).
Proof. intros. unfold omp_main, main_. apply bind_andr. intros n. apply bind_andr. intros m. apply omp_steps_serial; lia. Qed.
Lemma omp_main_like k r : 1 <= k -> omp_main k 1 F s r -> r = main_ true F s \/ exists e e', main_ true F s = UB e /\ r = UB e'.
Proof.
  intros Hk. unfold omp_main, main_. intros H. destruct (step_count s) as [n|e|c|]; cbn [bind andr] in *; auto.
  destruct (setup s) as [m|e|c|]; cbn [bind andr] in *; auto. apply (omp_steps_ref k _ Hk _ _ _) in H. exact H.
Qed.
End Program.

(** two equal chunks *)
Lemma halves {A} (l : list A) : (2 <= List.length l)%nat -> exists a b, static_teams 2 l [a; b] /\ two_busy [a; b].
Proof.
  intros H. set (h := Nat.div2 (List.length l)).
  assert (D : (List.length l = 2 * h \/ List.length l = 2 * h + 1)%nat).
  { pose proof (Nat.div2_odd (List.length l)) as E. fold h in E. destruct (Nat.odd (List.length l)); cbn [Nat.b2n] in E; lia. }
  exists (firstn h l), (skipn h l). split.
  - split; [cbn; rewrite app_nil_r; apply firstn_skipn|]. split; [cbn; lia|].
    intros a b Ha Hb. assert (La : (h <= List.length a <= h + 1)%nat). { destruct Ha as [<-|[<-|[]]]; rewrite ?firstn_length, ?skipn_length; lia. }
    assert (Lb : (h <= List.length b <= h + 1)%nat). { destruct Hb as [<-|[<-|[]]]; rewrite ?firstn_length, ?skipn_length; lia. } lia.
  - exists [], (firstn h l), [], (skipn h l), []. split; [reflexivity|].
    split; intros E; apply (f_equal (@List.length A)) in E; rewrite ?firstn_length, ?skipn_length in E; cbn in E; lia.
Qed.
Lemma static_more k k' {I} (its : list I) teams : k <= k' -> static_teams k its teams -> static_teams k' its teams.
Proof. intros L (A & B & C). split; [exact A|]. split; [lia|exact C]. Qed.
Lemma nodes_many nx ny : 2 <= nx -> 1 <= ny -> (2 <= List.length (nodes ny 0 nx))%nat.
Proof.
  intros Hx Hy. assert (I0 : In (0, 0) (nodes ny 0 nx)) by (apply in_nodes; lia). assert (I1 : In (0, 1) (nodes ny 0 nx)) by (apply in_nodes; lia).
  destruct (nodes ny 0 nx) as [|u [|v l]]; cbn in *; try lia. exfalso. destruct I0 as [->|[]]. destruct I1 as [E|[]]. discriminate E.
Qed.
(** the mixed-derivative loop on several threads *)
Lemma mixed_races {T} {NT : Num T} k nx ny (dx dy : T) px py (m : mem T) : 2 <= k -> 2 <= nx < 4294967296 -> 2 <= ny < 4294967296 ->
  holds Psix ny nx px m -> holds Psiy ny nx py m -> present Psixy ny nx m ->
  static_for k (mixed_body nx ny dx dy) (nodes ny 0 nx) (mixed_vars m) (UB DataRace).
Proof.
  intros Hk N1 N2 H1 H2 H3. destruct (halves (nodes ny 0 nx) (nodes_many nx ny ltac:(lia) ltac:(lia))) as (a & b & St & Bu).
  exists [a; b]. split; [eapply static_more; [exact Hk|exact St]|]. apply for_races.
  eapply race_static; eauto. apply St.
Qed.
(** a completed mixed-derivative loop started from complete data *)
Lemma mixed_before {T} {NT : Num T} nx ny (dx dy : T) (its : list (Z * Z)) : forall (m m' : mem T), runs (map (mixed_body nx ny dx dy) its) m = Ok m' ->
  (forall i j, m (Psix, i, j) = m' (Psix, i, j) /\ m (Psiy, i, j) = m' (Psiy, i, j)) /\ (forall l, m' l <> None -> m l <> None).
Proof.
  induction its as [|kl its IH]; intros m m' H; cbn in H.
  - injection H as <-. auto.
  - destruct (run (mixed_body nx ny dx dy kl) m) as [m1|e|c|] eqn:E; cbn in H; try discriminate. destruct (IH _ _ H) as [A B].
    pose proof (run_frame _ _ _ _ _ (mixed_touches nx ny dx dy kl) E) as Fr. split.
    + intros i j. rewrite <- !Fr by (destruct kl; reflexivity). apply A.
    + intros l Hl. apply B in Hl. clear -E Hl. revert E Hl. generalize (mixed_body nx ny dx dy kl). intros p. revert m.
      induction p as [|l0 k IH|l0 v p IH|e]; intros m E Hl; cbn in E.
      * congruence.
      * destruct (m l0) eqn:El; [|discriminate]. eapply IH; eauto.
      * destruct (m l0) eqn:El; [|discriminate]. specialize (IH _ E Hl). unfold upd in IH. destruct (loc_eqb_spec l0 l) as [<-|]; congruence.
      * discriminate.
Qed.

(** the end of a time step on several threads *)
Lemma end_races {T} {NT : Num T} k nx ny (dx dy : T) f (m m4 : mem T) : 2 <= k -> 2 <= nx < 4294967296 -> 2 <= ny < 4294967296 ->
  runs (update_mixed_derivatives nx ny dx dy 0 nx) (mixed_vars m) = Ok m4 -> contains nx ny f (feed_back m4) ->
  static_for k (mixed_body nx ny dx dy) (nodes ny 0 nx) (mixed_vars m) (UB DataRace).
Proof.
  intros Hk N1 N2 Rm (_ & C2 & C3 & C4 & _). unfold update_mixed_derivatives in Rm. destruct (mixed_before _ _ _ _ _ _ _ Rm) as [A B].
  apply (mixed_races k nx ny dx dy (f_x f) (f_y f)); try assumption.
  - intros i j Hi Hj. rewrite <- (mixed_vars_other Psix) by reflexivity. rewrite (proj1 (A i j)). apply (C2 i j Hi Hj).
  - intros i j Hi Hj. rewrite <- (mixed_vars_other Psiy) by reflexivity. rewrite (proj2 (A i j)). apply (C3 i j Hi Hj).
  - intros i j Hi Hj. rewrite <- (mixed_vars_other Psixy) by reflexivity. apply B. pose proof (C4 i j Hi Hj) as K. unfold feed_back in K. cbn [assign arr_eqb] in K. congruence.
Qed.

Section Race.
Variables (F : flow R) (s : settings R).
Hypothesis P : proper s.
Lemma omp_step_races k t f m : 2 <= k -> nodes_at (s_nx s) (s_ny s) (xs_of s) (ys_of s) m -> contains (s_nx s) (s_ny s) f m ->
  omp_step k k F s t m (UB DataRace).
Proof.
  intros Hk Nd Ct. destruct P as (N1 & N2 & X1 & X2).
  destruct (step_R true F s t f m N1 N2 X1 X2 Nd Ct) as (m' & R' & _ & C' & _). revert R'.
  unfold omp_step, step. cbv zeta. set (m0 := alloc Yadv _ _ _ _). clearbody m0. intros R'.
  destruct (runs (advection_point_MPI _ _ _ _ _ _ _ _) m0) as [m1|e|n|] eqn:E1; cbn [bind] in R'; try discriminate.
  apply (seqr_intro _ _ _ (Ok m1)); [rewrite <- E1; apply static_serial; lia|]. cbn [andr].
  destruct (runs (find_advection_point_location_MPI _ _ _ _ _ _ _ _) _) as [m2|e|n|] eqn:E2; cbn [bind] in R'; try discriminate.
  apply (seqr_intro _ _ _ (Ok m2)); [rewrite <- E2; apply static_serial; lia|]. cbn [andr].
  destruct (runs (update_levelset_data _ _ _ _ _ _ _ _ _) _) as [m3|e|n|] eqn:E3; cbn [bind] in R'; try discriminate.
  apply (seqr_intro _ _ _ (Ok m3)); [rewrite <- E3; apply static_serial; lia|]. cbn [andr].
  destruct (runs (update_mixed_derivatives _ _ _ _ _ _) _) as [m4|e|n|] eqn:E4; cbn [bind] in R'; try discriminate.
  injection R' as <-. exists (UB DataRace). split; [|reflexivity].
  eapply end_races; [exact Hk|lia|lia|exact E4|exact C'].
Qed.
Lemma omp_main_races k n : 2 <= k -> 1 <= n < 4294967296 -> (IZR n <= s_Tfinal s / s_dt s < IZR n + 1)%R -> omp_main k k F s (UB DataRace).
Proof.
  intros Hk Hn Hq. unfold omp_main. rewrite (step_count_R s n) by (lia || assumption). cbn [andr].
  destruct (ProofsRefMain.setup_ok s) as (m & -> & A & B & _). cbn [andr]. destruct (Z.to_nat n) as [|n'] eqn:En; [lia|]. cbn [omp_steps].
  exists (UB DataRace). split; [|reflexivity]. eapply omp_step_races; eauto.
Qed.
End Race.
