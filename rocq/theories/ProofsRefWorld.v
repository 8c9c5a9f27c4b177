(** Further senders do not change what the first two processes do. *)
From Coq Require Import ZArith List Lia Arith Wf_nat.
From Verif Require Import Base ModelRefMpi ModelRefMpiN ProofsRefPair.

Section World.
Context {S M : Type}.
Implicit Types (c : conf S M) (o : other S M) (os : list (other S M)).

(** how a sender ends and all it sends *)
Definition oend o : outcome S * list M := (fst (wrun (o_w o) (o_s o)), o_q o ++ snd (wrun (o_w o) (o_s o))).
Lemma omove_keeps cap o o' : omove cap o o' -> oend o' = oend o.
Proof.
  destruct 1; unfold oend; cbn [o_w o_s o_q wrun fst snd].
  - rewrite H. reflexivity.
  - rewrite <- app_assoc. reflexivity.
Qed.
(** what holds of a sender before and after each move *)
Definition oinv (cap : nat) (e : outcome S * list M) o : Prop := oend o = e /\ (length (o_q o) <= cap)%nat.
Lemma omove_inv cap e o o' : omove cap o o' -> oinv cap e o -> oinv cap e o'.
Proof.
  intros H (A & B). split; [rewrite (omove_keeps _ _ _ H); exact A|]. destruct H; cbn [o_q] in *; [exact B|]. rewrite app_length. cbn. lia.
Qed.
Lemma move_os cap e c os w' : wmove cap (c, os) w' -> Forall (oinv cap e) os ->
  (whole (fst w') = whole c) /\ Forall (oinv cap e) (snd w') /\ length (snd w') = length os.
Proof.
  intros H F. inversion H; subst; cbn [fst snd].
  - split; [eapply move_keeps; eassumption|]. auto.
  - split; [reflexivity|]. split; [|rewrite !app_length; reflexivity].
    apply Forall_app in F. destruct F as (F1 & F2). inversion F2; subst. apply Forall_app. split; [exact F1|]. constructor; [|assumption].
    eapply omove_inv; eassumption.
Qed.

(** a sender at rest *)
Lemma orest cap s' l o : oinv cap (Ok s', l) o -> (forall o', ~ omove cap o o') -> (forall e, ~ obreaks o e) ->
  length (o_q o) = Nat.min cap (length l) /\ (o_w o = [] <-> (length l <= cap)%nat) /\ o_q o = firstn (length (o_q o)) l.
Proof.
  destruct o as [w s q]. intros (E & B) Hm Hb. unfold oend in E. cbn [o_w o_s o_q] in *. injection E as E1 E2.
  assert (P : q = firstn (length q) l). { rewrite <- E2, firstn_app, Nat.sub_diag, firstn_all, firstn_O, app_nil_r. reflexivity. }
  destruct w as [|[f|f] w]; cbn [wrun fst snd] in *.
  - rewrite app_nil_r in E2. subst q. rewrite Nat.min_r by exact B. split; [reflexivity|]. split; [tauto|exact P].
  - exfalso. destruct (f s) eqn:Ef; try discriminate. eapply Hm. apply om_do. exact Ef.
  - assert (L : (cap <= length q)%nat). { destruct (Nat.lt_ge_cases (length q) cap); [|assumption]. exfalso. eapply Hm. apply om_send. assumption. }
    assert (Q : (length q < length l)%nat). { rewrite <- E2, app_length. cbn. lia. }
    rewrite Nat.min_l by lia. split; [lia|]. split; [|exact P]. split; [discriminate|lia].
Qed.
Lemma some_stuck c os cap : (forall w', ~ wmove cap (c, os) w') -> (forall c', ~ move cap c c') /\ (forall o o', In o os -> ~ omove cap o o').
Proof.
  intros H. split.
  - intros c' Hc. eapply H. apply wm_pair. exact Hc.
  - intros o o' Hi Ho. apply in_split in Hi. destruct Hi as (a & b & ->). eapply H. apply wm_other. exact Ho.
Qed.
Lemma some_fine c os : (forall e, ~ wbreaks (c, os) e) -> (forall e, ~ breaks c e) /\ (forall o e, In o os -> ~ obreaks o e).
Proof.
  intros H. split.
  - intros e Hc. eapply H. apply wb_pair. exact Hc.
  - intros o e Hi Ho. eapply H. eapply wb_other; eassumption.
Qed.
(** a pair at rest that will end well has ended *)
Lemma pair_rest cap c s0 s1 : whole c = (RFin s0 [], Ok s1) -> (forall c', ~ move cap c c') -> (forall e, ~ breaks c e) -> c = mkConf [] s0 [] s1 [].
Proof.
  intros E Hm Hb. destruct (can cap c) as [O|[[c' H]|[[e H]|(A & B & C)]]].
  - pose proof (pair_ok cap c _ (ex_over cap c O) s0 s1 E) as Q. injection Q as Q. exact Q.
  - exfalso. eapply Hm. exact H.
  - exfalso. eapply Hb. exact H.
  - pose proof (pair_ok cap c _ (ex_stuck cap c A B C) s0 s1 E) as Q. discriminate.
Qed.

Definition rest (cap : nat) (l : list M) o : Prop :=
  length (o_q o) = Nat.min cap (length l) /\ (o_w o = [] <-> (length l <= cap)%nat) /\ o_q o = firstn (length (o_q o)) l.
(** the first two processes end well; so do the others if their messages can be stored *)
Lemma world_ok cap w r : wexecutes cap w r -> forall s0 s1 s' l, whole (fst w) = (RFin s0 [], Ok s1) -> Forall (oinv cap (Ok s', l)) (snd w) ->
  exists os, length os = length (snd w) /\ Forall (rest cap l) os /\
    r = if Nat.eqb (length os) 0 || Nat.leb (length l) cap then WFinished (mkConf [] s0 [] s1 []) os else WDeadlock (mkConf [] s0 [] s1 []) os.
Proof.
  induction 1 as [[c os] (O1 & O2)|[c os] w' r Hm H IH|[c os] e Hb|[c os] Ho Hm Hb]; intros s0 s1 s' l E Fo; cbn [fst snd] in *.
  - exists os. split; [reflexivity|].
    pose proof (pair_ok cap c _ (ex_over cap c O1) s0 s1 E) as Q. injection Q as Q.
    assert (R : Forall (rest cap l) os).
    { rewrite Forall_forall in *. intros o Hi. specialize (Fo o Hi). specialize (O2 o Hi). destruct o as [ow s q]. cbn [o_w] in O2. subst ow.
      apply (orest cap s' l _ Fo); intros ? X; inversion X. }
    split; [exact R|]. rewrite Q. destruct os as [|o os]; [reflexivity|]. cbn [length Nat.eqb orb].
    replace (Nat.leb (length l) cap) with true; [reflexivity|]. symmetry. apply Nat.leb_le. inversion R as [|? ? (_ & R1 & _) _]; subst. apply R1. apply O2. left. reflexivity.
  - destruct (move_os _ _ _ _ _ Hm Fo) as (A & B & C). rewrite <- C. eapply IH; [rewrite A; exact E|exact B].
  - exfalso. inversion Hb; subst.
    + match goal with X : breaks _ _ |- _ => pose proof (pair_ok cap c _ (ex_ub cap c e X) s0 s1 E) as Q; discriminate end.
    + match goal with X : obreaks _ _, I : In _ _ |- _ => rewrite Forall_forall in Fo; destruct (Fo _ I) as (E' & _); destruct X as [f p s q e' Ef]; unfold oend in E'; cbn in E'; rewrite Ef in E'; discriminate end.
  - destruct (some_stuck _ _ _ Hm) as (M1 & M2). destruct (some_fine _ _ Hb) as (B1 & B2).
    pose proof (pair_rest cap c s0 s1 E M1 B1) as Q.
    assert (R : Forall (rest cap l) os).
    { rewrite Forall_forall in *. intros o Hi. apply (orest cap s' l o (Fo o Hi)); [intros o'; apply M2; exact Hi|intros e'; apply B2; exact Hi]. }
    exists os. split; [reflexivity|]. split; [exact R|]. rewrite Q.
    destruct (Nat.eqb (length os) 0 || Nat.leb (length l) cap)%bool eqn:D; [exfalso|reflexivity].
    apply Ho. split; [rewrite Q; split; reflexivity|]. cbn [snd]. intros o Hi. apply Bool.orb_true_iff in D. destruct D as [D|D].
    + apply Nat.eqb_eq in D. destruct os; [destruct Hi|discriminate].
    + rewrite Forall_forall in R. apply (R o Hi). apply Nat.leb_le. exact D.
Qed.
(** rank 0 fails, the senders would not *)
Lemma world_bad cap w r : wexecutes cap w r -> forall e s1 s' l, whole (fst w) = (RUb e, Ok s1) -> Forall (oinv cap (Ok s', l)) (snd w) -> r = WUndefined e.
Proof.
  induction 1 as [[c os] (O1 & O2)|[c os] w' r Hm H IH|[c os] e' Hb|[c os] Ho Hm Hb]; intros e s1 s' l E Fo; cbn [fst snd] in *.
  - pose proof (pair_bad cap c _ (ex_over cap c O1) e s1 E). discriminate.
  - destruct (move_os _ _ _ _ _ Hm Fo) as (A & B & C). eapply IH; [rewrite A; exact E|exact B].
  - inversion Hb; subst.
    + match goal with X : breaks _ _ |- _ => pose proof (pair_bad cap c _ (ex_ub cap c e' X) e s1 E) as Q; injection Q as ->; reflexivity end.
    + exfalso. match goal with X : obreaks _ _, I : In _ _ |- _ => rewrite Forall_forall in Fo; destruct (Fo _ I) as (E' & _); destruct X as [f p s q e'' Ef]; unfold oend in E'; cbn in E'; rewrite Ef in E'; discriminate end.
  - exfalso. destruct (some_stuck _ _ _ Hm) as (M1 & M2). destruct (some_fine _ _ Hb) as (B1 & B2).
    destruct (can cap c) as [O|[[c' X]|[[e' X]|(A & B & C)]]].
    + pose proof (pair_bad cap c _ (ex_over cap c O) e s1 E). discriminate.
    + eapply M1; exact X.
    + eapply B1; exact X.
    + pose proof (pair_bad cap c _ (ex_stuck cap c A B C) e s1 E). discriminate.
Qed.
(** rank 1 fails, and so do the other senders, all in the same way *)
Lemma world_lost cap w r : wexecutes cap w r -> forall e l, whole (fst w) = (RWait, UB e) -> Forall (oinv cap (UB e, l)) (snd w) -> r = WUndefined e.
Proof.
  induction 1 as [[c os] (O1 & O2)|[c os] w' r Hm H IH|[c os] e' Hb|[c os] Ho Hm Hb]; intros e l E Fo; cbn [fst snd] in *.
  - pose proof (pair_lost cap c _ (ex_over cap c O1) e E). discriminate.
  - destruct (move_os _ _ _ _ _ Hm Fo) as (A & B & C). eapply IH; [rewrite A; exact E|exact B].
  - inversion Hb; subst.
    + match goal with X : breaks _ _ |- _ => pose proof (pair_lost cap c _ (ex_ub cap c e' X) e E) as Q; injection Q as ->; reflexivity end.
    + match goal with X : obreaks _ _, I : In _ _ |- _ => rewrite Forall_forall in Fo; destruct (Fo _ I) as (E' & _); destruct X as [f p s q e'' Ef]; unfold oend in E'; cbn in E'; rewrite Ef in E'; cbn in E'; congruence end.
  - exfalso. destruct (some_stuck _ _ _ Hm) as (M1 & M2). destruct (some_fine _ _ Hb) as (B1 & B2).
    destruct (can cap c) as [O|[[c' X]|[[e' X]|(A & B & C)]]].
    + pose proof (pair_lost cap c _ (ex_over cap c O) e E). discriminate.
    + eapply M1; exact X.
    + eapply B1; exact X.
    + pose proof (pair_lost cap c _ (ex_stuck cap c A B C) e E). discriminate.
Qed.
(** there is an execution *)
Definition otodo os : nat := list_sum (map (fun o => length (o_w o)) os).
Definition wtodo (w : conf S M * list (other S M)) : nat := (todo (fst w) + otodo (snd w))%nat.
Lemma wmove_less cap w w' : wmove cap w w' -> (wtodo w' < wtodo w)%nat.
Proof.
  destruct 1 as [c c' os H|c a o o' b H]; unfold wtodo, otodo; cbn [fst snd]; [pose proof (move_less _ _ _ H); lia|].
  rewrite !map_app, !list_sum_app. cbn [map list_sum fold_right]. destruct H; cbn [o_w length]; lia.
Qed.
Lemma ocan cap o : (exists o', omove cap o o') \/ (exists e, obreaks o e) \/ ((forall o', ~ omove cap o o') /\ (forall e, ~ obreaks o e)).
Proof.
  destruct o as [[|[f|f] w] s q].
  - right. right. split; intros ? X; inversion X.
  - destruct (f s) eqn:E; [left; eexists; apply om_do; exact E|right; left; eexists; apply ob_do; exact E|right; right; split; intros ? X; inversion X; congruence..].
  - destruct (Nat.lt_ge_cases (length q) cap); [left; eexists; apply om_send; assumption|]. right. right. split; intros ? X; inversion X; subst. lia.
Qed.
Lemma oscan cap os : (exists o o', In o os /\ omove cap o o') \/ (exists o e, In o os /\ obreaks o e) \/
  forall o, In o os -> (forall o', ~ omove cap o o') /\ (forall e, ~ obreaks o e).
Proof.
  induction os as [|o os IH]; [right; right; intros o []|].
  destruct (ocan cap o) as [(o' & H)|[(e & H)|H]]; [left; exists o, o'; split; [left; reflexivity|exact H]|right; left; exists o, e; split; [left; reflexivity|exact H]|].
  destruct IH as [(u & u' & I & X)|[(u & e & I & X)|G]]; [left; exists u, u'; split; [right; exact I|exact X]|right; left; exists u, e; split; [right; exact I|exact X]|].
  right. right. intros u [<-|I]; [exact H|apply G; exact I].
Qed.
Lemma wsome_ending cap (w : conf S M * list (other S M)) : exists r, wexecutes cap w r.
Proof.
  remember (wtodo w) as n eqn:E. revert w E. induction n as [n IH] using (well_founded_induction lt_wf). intros w ->.
  assert (G : (exists w', wmove cap w w') -> exists r, wexecutes cap w r).
  { intros (w' & H). destruct (IH _ (wmove_less _ _ _ H) w' eq_refl) as [r Hr]. exists r. eapply wx_move; eauto. }
  destruct w as [c os]. destruct (can cap c) as [O|[[c' H]|[[e H]|(A & B & C)]]].
  2:{ apply G. exists (c', os). apply wm_pair. exact H. }
  2:{ exists (WUndefined e). apply wx_ub, wb_pair. exact H. }
  all: destruct (oscan cap os) as [(u & u' & I & X)|[(u & e & I & X)|Hs]];
    [apply in_split in I; destruct I as (a & b & ->); apply G; eexists; apply wm_other; exact X|exists (WUndefined e); apply wx_ub; eapply wb_other; eassumption|].
  - destruct (list_eq_dec Bool.bool_dec (map (fun o => match o_w o with [] => true | _ => false end) os) (map (fun _ => true) os)) as [D|D].
    + exists (WFinished c os). apply (wx_over cap (c, os)). split; [exact O|]. cbn [snd]. intros o Hi.
      assert (Q : (fun o => match o_w o with [] => true | _ => false end) o = (fun _ => true) o).
      { clear - D Hi. induction os as [|u os IH]; [destruct Hi|]. cbn [map] in D. injection D as D1 D2. destruct Hi as [<-|Hi]; [exact D1|apply IH; assumption]. }
      cbn beta in Q. destruct (o_w o); [reflexivity|discriminate].
    + exists (WDeadlock c os). apply (wx_stuck cap (c, os)).
      * intros (_ & Q). apply D. apply map_ext_in. intros o Hi. cbn [snd] in Q. rewrite (Q o Hi). reflexivity.
      * intros w' X. inversion X; subst; [destruct c as [cr rs cw ws q], O as [O1 O2]; cbn in O1, O2; subst; match goal with Y : move _ _ _ |- _ => inversion Y end|].
        eapply (proj1 (Hs o ltac:(apply in_or_app; right; left; reflexivity))). eassumption.
      * intros e X. inversion X; subst; [destruct c as [cr rs cw ws q], O as [O1 O2]; cbn in O1, O2; subst; match goal with Y : breaks _ _ |- _ => inversion Y end|].
        eapply (proj2 (Hs _ ltac:(eassumption))). eassumption.
  - exists (WDeadlock c os). apply (wx_stuck cap (c, os)).
    + intros (Q & _). apply A. exact Q.
    + intros w' X. inversion X; subst; [eapply B; eassumption|]. eapply (proj1 (Hs o ltac:(apply in_or_app; right; left; reflexivity))). eassumption.
    + intros e X. inversion X; subst; [eapply C; eassumption|]. eapply (proj2 (Hs _ ltac:(eassumption))). eassumption.
Qed.
End World.
