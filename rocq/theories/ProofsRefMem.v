(** Loops whose iterations write disjoint sets of elements and read nothing another iteration writes
    give the same result for every team and every interleaving, without data races. *)
From Coq Require Import ZArith List Permutation Bool Lia.
From Verif Require Import Base ModelRefMem SpecRefPar ProofsBase.

Section Foot.
Context {T : Type}.
Implicit Types (p : prog T) (m : mem T).

(** [p] writes only in [W] and reads only in [R] or [W] *)
Fixpoint touches (W R : loc -> bool) p : Prop :=
  match p with
  | Ret => True
  | Err _ => True
  | Rd l k => (R l || W l = true) /\ forall v, touches W R (k v)
  | Wr l _ p' => W l = true /\ touches W R p'
  end.

Lemma loc_eqb_spec l l' : reflect (l = l') (loc_eqb l l').
Proof.
  destruct l as [[a i] j], l' as [[a' i'] j']. unfold loc_eqb.
  destruct (Z.eqb_spec i i'); destruct (Z.eqb_spec j j'); rewrite ?andb_false_r; cbn;
    try (constructor; congruence); subst.
  destruct a, a'; cbn; constructor; congruence.
Qed.
Lemma upd_same m l v : upd m l v l = Some v.
Proof. unfold upd. destruct (loc_eqb_spec l l); congruence. Qed.
Lemma upd_other m l v l' : l <> l' -> upd m l v l' = m l'.
Proof. unfold upd. destruct (loc_eqb_spec l l'); congruence. Qed.

Lemma run_frame W R p : forall m m1, touches W R p -> run p m = Ok m1 -> forall l, W l = false -> m1 l = m l.
Proof.
  induction p as [|l0 k IH|l0 v p IH|e]; intros m m1 Ht H l Hl; cbn in *.
  - congruence.
  - destruct (m l0); [|discriminate]. eapply IH; eauto. apply Ht.
  - destruct Ht as [Hw Ht]. destruct (m l0); [|discriminate]. rewrite (IH _ _ Ht H l Hl). apply upd_other. congruence.
  - discriminate.
Qed.

Lemma run_agree W R p : forall m m' m1, touches W R p -> (forall l, R l || W l = true -> m l = m' l) ->
  run p m = Ok m1 -> exists m1', run p m' = Ok m1' /\ forall l, R l || W l = true -> m1' l = m1 l.
Proof.
  induction p as [|l0 k IH|l0 v p IH|e]; intros m m' m1 Ht Ha H; cbn in *.
  - injection H as <-. exists m'. split; [reflexivity|]. intros l Hl. symmetry. auto.
  - destruct Ht as [Hr Ht]. rewrite <- (Ha _ Hr). destruct (m l0) as [v|]; [|discriminate]. eapply IH; eauto.
  - destruct Ht as [Hw Ht]. rewrite <- (Ha l0) by (rewrite Hw; apply orb_true_r).
    destruct (m l0) as [v0|]; [|discriminate]. apply (IH _ (upd m' l0 v) _ Ht) in H; [exact H|].
    intros l Hl. unfold upd. destruct (loc_eqb l0 l); auto.
  - discriminate.
Qed.

Lemma act_run p m p' m' : act p m = Ok (p', m') -> run p m = run p' m'.
Proof.
  destruct p as [|l k|l v p|e]; cbn; intros H.
  - injection H as <- <-. reflexivity.
  - destruct (m l); [|discriminate]. injection H as <- <-. reflexivity.
  - destruct (m l); [|discriminate]. injection H as <- <-. reflexivity.
  - discriminate.
Qed.
Lemma act_touches W R p m p' m' : touches W R p -> act p m = Ok (p', m') ->
  touches W R p' /\ forall l, W l = false -> m' l = m l.
Proof.
  destruct p as [|l k|l v p|e]; cbn; intros Ht H.
  - injection H as <- <-. auto.
  - destruct (m l); [|discriminate]. injection H as <- <-. split; [apply Ht|auto].
  - destruct (m l); [|discriminate]. injection H as <- <-. split; [apply Ht|].
    intros l' Hl. apply upd_other. destruct Ht. congruence.
  - discriminate.
Qed.
Lemma act_fail p m e m1 : act p m = UB e -> run p m <> Ok m1.
Proof.
  destruct p as [|l k|l v p|e']; cbn; intros H.
  - discriminate.
  - destruct (m l); [discriminate|discriminate].
  - destruct (m l); discriminate.
  - discriminate.
Qed.

(** a thread: its program, what it owns, what its elements will hold in the end *)
Record thr := mkThr { th_p : prog T; th_W : loc -> bool; th_fin : mem T }.
Variable R : loc -> bool.
Definition fine m (t : thr) : Prop :=
  touches (th_W t) R (th_p t) /\ (forall l, R l = true -> th_W t l = false) /\
  exists m1, run (th_p t) m = Ok m1 /\ forall l, th_W t l = true -> m1 l = th_fin t l.
Definition apart (t u : thr) : Prop := forall l, th_W t l = true -> th_W u l = false.

Lemma fine_other m m' t u : (forall l, th_W u l = false -> m' l = m l) ->
  (forall l, R l = true -> th_W u l = false) -> (forall l, th_W t l = true -> th_W u l = false) ->
  fine m t -> fine m' t.
Proof.
  intros Hm HR Hd (Ht & Hr & m1 & H1 & H2). split; [exact Ht|]. split; [exact Hr|].
  assert (A : forall l, R l || th_W t l = true -> m l = m' l).
  { intros l Hl. symmetry. apply Hm. apply orb_true_iff in Hl as [Hl|Hl]; auto. }
  destruct (run_agree _ _ _ _ _ _ Ht A H1) as (m1' & H1' & H2').
  exists m1'. split; [exact H1'|]. intros l Hl. rewrite H2' by (rewrite Hl; apply orb_true_r). auto.
Qed.

Lemma apart_app a t b : ForallOrdPairs apart (a ++ t :: b) ->
  (forall u, In u (a ++ b) -> apart u t /\ apart t u) /\
  (forall t', th_W t' = th_W t -> ForallOrdPairs apart (a ++ t' :: b)).
Proof.
  assert (S : forall x y, apart x y -> apart y x).
  { intros x y H l Hl. destruct (th_W x l) eqn:E; [|reflexivity]. rewrite (H l E) in Hl. discriminate. }
  induction a as [|c a IH]; cbn; intros H; inversion H as [|x y Hc Hr]; subst.
  - split.
    + intros u Hu. rewrite Forall_forall in Hc. split; [apply S|]; auto.
    + intros t' E. constructor; [|exact Hr]. rewrite Forall_forall in *. intros u Hu. unfold apart. rewrite E. apply Hc; auto.
  - destruct (IH Hr) as [IH1 IH2]. rewrite Forall_forall in Hc. split.
    + intros u [<-|Hu]; [|apply IH1; exact Hu].
      assert (Q : apart c t) by (apply Hc; apply in_or_app; right; left; reflexivity). auto.
    + intros t' E. constructor; [|apply IH2; exact E]. rewrite Forall_forall. intros u Hu.
      apply in_app_or in Hu as [Hu|[<-|Hu]].
      * apply Hc. apply in_or_app; auto.
      * unfold apart. rewrite E. apply Hc. apply in_or_app; right; left; reflexivity.
      * apply Hc. apply in_or_app; right; right; exact Hu.
Qed.

(** one step keeps the invariant *)
Lemma step_fine ts ps1 p ps2 m p' m' :
  map th_p ts = ps1 ++ p :: ps2 -> Forall (fine m) ts -> ForallOrdPairs apart ts -> act p m = Ok (p', m') ->
  exists a t b, ts = a ++ t :: b /\ let t' := mkThr p' (th_W t) (th_fin t) in
    map th_p (a ++ t' :: b) = ps1 ++ p' :: ps2 /\ Forall (fine m') (a ++ t' :: b) /\
    ForallOrdPairs apart (a ++ t' :: b) /\ (forall l, th_W t l = false -> m' l = m l).
Proof.
  intros E Hf Ha Hs. apply map_eq_app in E as (a & b0 & -> & E1 & E2).
  destruct b0 as [|t b]; [discriminate|]. cbn in E2. injection E2 as E2 E3.
  exists a, t, b. split; [reflexivity|]. cbv zeta.
  apply apart_app in Ha as [Ha1 Ha2].
  rewrite Forall_forall in Hf. destruct (Hf t) as (Ht & Hr & m1 & H1 & H2). { apply in_or_app; right; left; reflexivity. }
  rewrite E2 in *. destruct (act_touches _ _ _ _ _ _ Ht Hs) as [Ht' Hm].
  split; [rewrite map_app; cbn; congruence|]. split; [|split; [apply Ha2; reflexivity|exact Hm]].
  assert (O : forall u, In u (a ++ b) -> fine m' u).
  { intros u Hu. apply (fine_other m m' u t Hm Hr); [apply Ha1; exact Hu|]. apply Hf.
    apply in_app_or in Hu as [Hu|Hu]; apply in_or_app; [left|right; right]; exact Hu. }
  rewrite Forall_forall. intros u Hu. apply in_app_or in Hu as [Hu|[<-|Hu]].
  - apply O, in_or_app; auto.
  - split; [exact Ht'|]. split; [exact Hr|]. exists m1. cbn [th_p th_W th_fin]. rewrite <- (act_run _ _ _ _ Hs). auto.
  - apply O, in_or_app; auto.
Qed.

Lemma interleaved_fine ps m r : interleaved ps m r -> forall ts, ps = map th_p ts -> Forall (fine m) ts -> ForallOrdPairs apart ts ->
  exists m', r = Ok m' /\ (forall t l, In t ts -> th_W t l = true -> m' l = th_fin t l) /\
    (forall l, (forall t, In t ts -> th_W t l = false) -> m' l = m l).
Proof.
  induction 1 as [ps m Hd|ps1 p ps2 m p' m' r Hn Hs Hi IH|ps1 p ps2 m e Hs]; intros ts E Hf Ha.
  - exists m. split; [reflexivity|]. split; [|auto]. intros t l Ht Hl.
    rewrite Forall_forall in Hf. destruct (Hf t Ht) as (_ & _ & m1 & H1 & H2).
    unfold finished in Hd. rewrite Forall_forall in Hd. rewrite (Hd (th_p t)) in H1 by (rewrite E; apply in_map; exact Ht).
    cbn in H1. injection H1 as ->. auto.
  - destruct (step_fine ts ps1 p ps2 m p' m' (eq_sym E) Hf Ha Hs) as (a & t & b & -> & E' & Hf' & Ha' & Hm).
    destruct (IH _ (eq_sym E') Hf' Ha') as (m2 & -> & I1 & I2). exists m2. split; [reflexivity|]. split.
    + intros u l Hu Hl. apply in_app_or in Hu as [Hu|[<-|Hu]].
      * apply (I1 u l); [apply in_or_app; auto|exact Hl].
      * apply (I1 (mkThr p' (th_W t) (th_fin t)) l); [apply in_or_app; right; left; reflexivity|exact Hl].
      * apply (I1 u l); [apply in_or_app; right; right; exact Hu|exact Hl].
    + intros l Hl. rewrite I2.
      * apply Hm. apply Hl. apply in_or_app; right; left; reflexivity.
      * intros u Hu. apply in_app_or in Hu as [Hu|[<-|Hu]]; cbn.
        -- apply Hl, in_or_app; auto.
        -- apply (Hl t). apply in_or_app; right; left; reflexivity.
        -- apply Hl, in_or_app; right; right; exact Hu.
  - exfalso. symmetry in E. apply map_eq_app in E as (a & b0 & -> & E1 & E2).
    destruct b0 as [|t b]; [discriminate|]. cbn in E2. injection E2 as E2 E3.
    rewrite Forall_forall in Hf. destruct (Hf t) as (_ & _ & m1 & H1 & _). { apply in_or_app; right; left; reflexivity. }
    rewrite E2 in H1. exact (act_fail _ _ _ _ Hs H1).
Qed.

Lemma no_conflict ts m : Forall (fine m) ts -> ForallOrdPairs apart ts -> ~ conflict (map th_p ts).
Proof.
  intros Hf Ha (a & b & c & p & q & l & w & w' & E & Np & Nq & Hw).
  apply map_eq_app in E as (ta & t0 & -> & E1 & E2). destruct t0 as [|t t1]; [discriminate|]. cbn in E2. injection E2 as E2 E3.
  apply map_eq_app in E3 as (tb & t2 & -> & E4 & E5). destruct t2 as [|u tc]; [discriminate|]. cbn in E5. injection E5 as E5 E6.
  apply apart_app in Ha as [Ha _]. rewrite Forall_forall in Hf.
  assert (Iu : In u (ta ++ tb ++ u :: tc)) by (apply in_or_app; right; apply in_or_app; right; left; reflexivity).
  destruct (Ha u Iu) as [A1 A2].
  destruct (Hf t) as (Ht & Hr & _). { apply in_or_app; right; left; reflexivity. }
  destruct (Hf u) as (Hu & Hr' & _). { apply in_or_app; right; right. apply in_or_app; right; left; reflexivity. }
  rewrite E2 in Ht. rewrite E5 in Hu.
  assert (G : forall W x w, touches W R x -> next_access x = Some (l, w) -> if w then W l = true else R l || W l = true).
  { intros W x v Hx Nx. destruct x; cbn in *; try discriminate; injection Nx as -> <-; apply Hx. }
  pose proof (G _ _ _ Ht Np) as Gt. pose proof (G _ _ _ Hu Nq) as Gu.
  destruct w, w'; try discriminate.
  - rewrite (A1 l Gu) in Gt. discriminate.
  - apply orb_true_iff in Gu as [Gu|Gu]; [rewrite (Hr l Gu) in Gt|rewrite (A1 l Gu) in Gt]; discriminate.
  - apply orb_true_iff in Gt as [Gt|Gt]; [rewrite (Hr' l Gt) in Gu|rewrite (A2 l Gt) in Gu]; discriminate.
Qed.
Lemma reaches_fine ps m qs n : reaches ps m qs n -> forall ts, ps = map th_p ts -> Forall (fine m) ts -> ForallOrdPairs apart ts ->
  exists us, qs = map th_p us /\ Forall (fine n) us /\ ForallOrdPairs apart us.
Proof.
  induction 1 as [ps m|ps1 p ps2 m p' m' qs n Hn Hs Hi IH]; intros ts E Hf Ha.
  - exists ts. auto.
  - destruct (step_fine ts ps1 p ps2 m p' m' (eq_sym E) Hf Ha Hs) as (a & t & b & -> & E' & Hf' & Ha' & Hm).
    exact (IH _ (eq_sym E') Hf' Ha').
Qed.
End Foot.

Section Loop.
Context {T I : Type} (body : I -> prog T) (W : I -> loc -> bool) (R : loc -> bool).
Hypothesis Hbody : forall i, touches (W i) R (body i).
Hypothesis HR : forall i l, R l = true -> W i l = false.

Lemma run_andthen (p q : prog T) : forall m, run (andthen p q) m = bind (run p m) (run q).
Proof.
  induction p as [|l k IH|l v p IH|e]; intros m; cbn; try reflexivity.
  - destruct (m l); [apply IH|reflexivity].
  - destruct (m l); [apply IH|reflexivity].
Qed.
Lemma run_in_order (ps : list (prog T)) : forall m, run (in_order ps) m = runs ps m.
Proof.
  induction ps as [|p ps IH]; intros m; [reflexivity|]. cbn [in_order]. rewrite run_andthen.
  unfold runs. cbn [forM]. destruct (run p m); cbn; try reflexivity. apply IH.
Qed.
Lemma touches_andthen W0 R0 (p q : prog T) : touches W0 R0 p -> touches W0 R0 q -> touches W0 R0 (andthen p q).
Proof. induction p; cbn; intros; intuition. Qed.
Lemma touches_mono (W1 W2 R0 : loc -> bool) (p : prog T) : (forall l, W1 l = true -> W2 l = true) -> touches W1 R0 p -> touches W2 R0 p.
Proof.
  intros H. induction p; cbn; intros Ht; auto.
  - destruct Ht as [A B]. split; [|auto]. apply orb_true_iff in A. apply orb_true_iff. intuition.
  - destruct Ht. split; auto.
Qed.
Definition anyW (is : list I) (l : loc) : bool := existsb (fun i => W i l) is.
Lemma anyW_in is i l : In i is -> W i l = true -> anyW is l = true.
Proof. intros. apply existsb_exists. eauto. Qed.
Lemma touches_order is : touches (anyW is) R (in_order (map body is)).
Proof.
  induction is as [|i is IH]; cbn [map in_order]; [exact Logic.I|]. apply touches_andthen.
  - eapply touches_mono; [|apply Hbody]. intros l Hl. unfold anyW. cbn. rewrite Hl. reflexivity.
  - eapply touches_mono; [|exact IH]. intros l Hl. unfold anyW in *. cbn. rewrite Hl. apply orb_true_r.
Qed.

(** iterations of [is] write different elements *)
Definition separate (is : list I) : Prop :=
  ForallOrdPairs (fun i j => forall l, W i l = true -> W j l = false) is.
(** the result each iteration has on its own *)
Definition alone (m : mem T) (fin : mem T) (is : list I) : Prop :=
  forall i, In i is -> exists m1, run (body i) m = Ok m1 /\ forall l, W i l = true -> m1 l = fin l.

Lemma alone_other m m' fin i j : (forall l, W j l = false -> m' l = m l) -> (forall l, W i l = true -> W j l = false) ->
  (exists m1, run (body i) m = Ok m1 /\ forall l, W i l = true -> m1 l = fin l) ->
  exists m1, run (body i) m' = Ok m1 /\ forall l, W i l = true -> m1 l = fin l.
Proof.
  intros Hm Hd H.
  destruct (fine_other R m m' (mkThr (body i) (W i) fin) (mkThr (body j) (W j) fin)) as (_ & _ & Q); cbn in *; auto.
  - split; [apply Hbody|]. split; [intros l Hl; eapply HR; eauto|exact H].
Qed.

Lemma serial_alone is : forall m m', separate is -> runs (map body is) m = Ok m' ->
  alone m m' is /\ (forall l, anyW is l = false -> m' l = m l).
Proof.
  induction is as [|i is IH]; intros m m' Hs H; cbn in H.
  - injection H as ->. split; [intros i []|auto].
  - inversion Hs as [|x y Hc Hr]; subst. rewrite Forall_forall in Hc.
    destruct (run (body i) m) as [m1| | |] eqn:E; cbn in H; try discriminate.
    assert (Fi : forall l, W i l = false -> m1 l = m l) by (apply (run_frame _ _ _ _ _ (Hbody i) E)).
    destruct (IH m1 m' Hr H) as [I1 I2]. split.
    + intros j [<-|Hj].
      * exists m1. split; [exact E|]. intros l Hl. symmetry. apply I2.
        destruct (anyW is l) eqn:Ea; [|reflexivity]. apply existsb_exists in Ea as (j & Hj & Hjl).
        rewrite (Hc j Hj l Hl) in Hjl. discriminate.
      * apply (alone_other m1 m m' j i).
        -- intros l Hl. symmetry. auto.
        -- intros l Hl. destruct (W i l) eqn:Ei; [|reflexivity]. rewrite (Hc j Hj l Ei) in Hl. discriminate.
        -- apply I1. exact Hj.
    + intros l Hl. unfold anyW in *. cbn in Hl. apply orb_false_iff in Hl as [L1 L2]. rewrite I2 by exact L2. auto.
Qed.

Lemma alone_serial is : forall m fin, separate is -> alone m fin is ->
  exists m', runs (map body is) m = Ok m' /\ (forall l, anyW is l = true -> m' l = fin l) /\
    (forall l, anyW is l = false -> m' l = m l).
Proof.
  induction is as [|i is IH]; intros m fin Hs Ha.
  - exists m. repeat split; auto. discriminate.
  - inversion Hs as [|x y Hc Hr]; subst. rewrite Forall_forall in Hc.
    destruct (Ha i) as (m1 & E & Hf); [left; reflexivity|].
    assert (Fi : forall l, W i l = false -> m1 l = m l) by (apply (run_frame _ _ _ _ _ (Hbody i) E)).
    destruct (IH m1 fin Hr) as (m' & H & I1 & I2).
    { intros j Hj. apply (alone_other m m1 fin j i); auto.
      - intros l Hl. destruct (W i l) eqn:Ei; [|reflexivity]. rewrite (Hc j Hj l Ei) in Hl. discriminate.
      - apply Ha. right; exact Hj. }
    exists m'. split; [unfold runs; cbn; rewrite E; exact H|]. unfold anyW in *. split; intros l Hl; cbn in Hl.
    + destruct (existsb (fun i => W i l) is) eqn:Ea; [apply I1; exact Ea|]. rewrite I2 by exact Ea.
      apply orb_true_iff in Hl as [Hl|Hl]; [auto|congruence].
    + apply orb_false_iff in Hl as [L1 L2]. rewrite I2 by exact L2. auto.
Qed.

Lemma separate_perm is is' : Permutation is is' -> separate is -> separate is'.
Proof.
  intros HP. assert (S : forall x y : I, (forall l, W x l = true -> W y l = false) -> forall l, W y l = true -> W x l = false).
  { intros x y H l Hl. destruct (W x l) eqn:E; [|reflexivity]. rewrite (H l E) in Hl. discriminate. }
  unfold separate. induction HP; intros Hs; auto.
  - inversion Hs; subst. constructor; auto. eapply Permutation_Forall; eauto.
  - inversion Hs as [|? ? H1 H2]; subst. inversion H2 as [|? ? H3 H4]; subst. inversion H1; subst.
    constructor; [constructor; [apply S; assumption|assumption]|]. constructor; assumption.
Qed.
Lemma separate_app a b : separate (a ++ b) -> separate a /\ separate b /\
  forall i j, In i a -> In j b -> forall l, W i l = true -> W j l = false.
Proof.
  unfold separate. induction a as [|x a IH]; cbn; intros H.
  - split; [constructor|]. split; [exact H|]. intros i j [].
  - inversion H as [|? ? H1 H2]; subst. destruct (IH H2) as (A & B & C). rewrite Forall_forall in H1.
    split; [constructor; auto; rewrite Forall_forall; intros y Hy; apply H1, in_or_app; auto|]. split; [exact B|].
    intros i j [<-|Hi] Hj; [apply H1, in_or_app; auto|apply C; auto].
Qed.

Definition thr_of (fin : mem T) (t : list I) : thr := mkThr (in_order (map body t)) (anyW t) fin.
Lemma threads_thr fin teams : threads body teams = map th_p (map (thr_of fin) teams).
Proof. unfold threads. rewrite map_map. reflexivity. Qed.
Lemma team_fine m fin teams : separate (concat teams) -> alone m fin (concat teams) ->
  Forall (fine R m) (map (thr_of fin) teams) /\ ForallOrdPairs apart (map (thr_of fin) teams).
Proof.
  induction teams as [|t teams IH]; cbn [concat map]; intros Hs Ha; [split; constructor|].
  apply separate_app in Hs as (S1 & S2 & S3).
  destruct IH as [F1 F2]; [exact S2|intros i Hi; apply Ha, in_or_app; auto|].
  split; constructor; auto.
  - split; [apply touches_order|]. split.
    + intros l Hl. cbn. destruct (anyW t l) eqn:E; [|reflexivity]. apply existsb_exists in E as (i & _ & Hi).
      rewrite (HR i l Hl) in Hi. discriminate.
    + destruct (alone_serial t m fin S1) as (m' & H & H1 & _); [intros i Hi; apply Ha, in_or_app; auto|].
      exists m'. cbn [th_p th_W th_fin thr_of]. rewrite run_in_order. auto.
  - rewrite Forall_forall. intros u Hu. apply in_map_iff in Hu as (t' & <- & Ht').
    intros l Hl. cbn in *. apply existsb_exists in Hl as (i & Hi & Hl).
    destruct (anyW t' l) eqn:E; [|reflexivity]. apply existsb_exists in E as (j & Hj & Hjl).
    rewrite (S3 i j Hi) with (l := l) in Hjl; [discriminate|apply in_concat; eauto|exact Hl].
Qed.

(** Any team, any interleaving: the result of the serial loop, and no race. *)
Theorem schedule_free is teams m m' r : separate is -> team_of is teams ->
  runs (map body is) m = Ok m' -> interleaved (threads body teams) m r -> same_result r (Ok m').
Proof.
  intros Hs Hp Hr Hi. destruct (serial_alone is m m' Hs Hr) as [Ha Hf].
  assert (Hs' : separate (concat teams)) by (eapply separate_perm; [symmetry; exact Hp|exact Hs]).
  assert (Ha' : alone m m' (concat teams)) by (intros i Hin; apply Ha; eapply Permutation_in; eauto).
  destruct (team_fine m m' teams Hs' Ha') as [F1 F2].
  rewrite (threads_thr m') in Hi.
  destruct (interleaved_fine R _ _ _ Hi _ eq_refl F1 F2) as (m2 & -> & I1 & I2).
  exists m2, m'. repeat split. intros l.
  destruct (anyW (concat teams) l) eqn:E.
  - apply existsb_exists in E as (i & Hin & Hl). apply in_concat in Hin as (t & Ht & Hit).
    rewrite (I1 (thr_of m' t) l); [reflexivity|apply in_map; exact Ht|]. eapply anyW_in; eauto.
  - assert (N : forall i, In i is -> W i l = false).
    { intros i Hin. destruct (W i l) eqn:Ei; [|reflexivity]. rewrite <- E. symmetry. eapply anyW_in; [|exact Ei].
      eapply Permutation_in; [symmetry; exact Hp|exact Hin]. }
    rewrite I2.
    + symmetry. apply Hf. destruct (anyW is l) eqn:Ea; [|reflexivity].
      apply existsb_exists in Ea as (i & Hin & Hl). rewrite (N i Hin) in Hl. discriminate.
    + intros u Hu. apply in_map_iff in Hu as (t & <- & Ht). cbn.
      destruct (anyW t l) eqn:Ea; [|reflexivity]. apply existsb_exists in Ea as (i & Hin & Hl).
      rewrite N in Hl; [discriminate|]. eapply Permutation_in; [exact Hp|]. apply in_concat. eauto.
Qed.
Theorem race_free is teams m m' : separate is -> team_of is teams ->
  runs (map body is) m = Ok m' -> ~ data_race (threads body teams) m.
Proof.
  intros Hs Hp Hr (qs & n & Hreach & Hc). destruct (serial_alone is m m' Hs Hr) as [Ha _].
  assert (Hs' : separate (concat teams)) by (eapply separate_perm; [symmetry; exact Hp|exact Hs]).
  assert (Ha' : alone m m' (concat teams)) by (intros i Hin; apply Ha; eapply Permutation_in; eauto).
  destruct (team_fine m m' teams Hs' Ha') as [F1 F2]. rewrite (threads_thr m') in Hreach.
  destruct (reaches_fine R _ _ _ _ Hreach _ eq_refl F1 F2) as (us & -> & G1 & G2).
  exact (no_conflict R us n G1 G2 Hc).
Qed.
End Loop.
