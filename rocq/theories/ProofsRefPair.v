(** Two processes, messages one way: all executions end alike. *)
From Coq Require Import ZArith List Lia Arith Wf_nat.
From Verif Require Import Base ModelRefMpi.

Section Pair.
Context {S M : Type}.
Implicit Types (c : conf S M).

(** rank 1 alone: how it ends and what it sends *)
Fixpoint wrun (w : list (writer S M)) (s : S) : outcome S * list M :=
  match w with
  | [] => (Ok s, [])
  | WDo f :: w => match f s with Ok s' => wrun w s' | UB e => (UB e, []) | Exit n => (Exit n, []) | Throw => (Throw, []) end
  | Send f :: w => let r := wrun w s in (fst r, f s :: snd r)
  end.
(** rank 0 alone on given messages *)
Inductive rend := RFin (s : S) (q : list M) | RUb (e : ub) | RWait | ROther.
Fixpoint rrun (r : list (reader S M)) (s : S) (q : list M) : rend :=
  match r with
  | [] => RFin s q
  | RDo f :: r => match f s with Ok s' => rrun r s' q | UB e => RUb e | _ => ROther end
  | Recv f :: r => match q with [] => RWait | x :: q' => rrun r (f x s) q' end
  end.
Definition whole c : rend * outcome S := let w := wrun (c_w c) (c_ws c) in (rrun (c_r c) (c_rs c) (c_q c ++ snd w), fst w).

Lemma wait_app r : forall s q q', rrun r s (q ++ q') = RWait -> rrun r s q = RWait.
Proof.
  induction r as [|[f|f] r IH]; intros s q q' H; cbn [rrun] in *; [discriminate| |].
  - destruct (f s); try discriminate. eapply IH; exact H.
  - destruct q as [|x q]; [reflexivity|]. cbn [app] in H. eapply IH; exact H.
Qed.

Lemma move_keeps cap c c' : move cap c c' -> whole c' = whole c.
Proof.
  destruct 1; unfold whole; cbn [c_r c_rs c_w c_ws c_q wrun rrun fst snd app].
  - rewrite H. reflexivity.
  - rewrite H. reflexivity.
  - rewrite <- app_assoc. reflexivity.
  - reflexivity.
  - reflexivity.
Qed.
(** a defined ending *)
Lemma pair_ok cap c r : executes cap c r -> forall s0 s1, whole c = (RFin s0 [], Ok s1) -> r = Finished (mkConf [] s0 [] s1 []).
Proof.
  induction 1 as [c O|c c' r Hm H IH|c e Hb|c Ho Hs Hb]; intros s0 s1 E.
  - destruct c as [cr rs w ws q]. destruct O as [O1 O2]. cbn in O1, O2. subst. unfold whole in E. cbn in E. rewrite app_nil_r in E. injection E as -> -> ->. reflexivity.
  - apply IH. rewrite (move_keeps _ _ _ Hm). exact E.
  - exfalso. destruct Hb; unfold whole in E; cbn in E; rewrite H in E; cbn in E; discriminate.
  - exfalso. destruct c as [cr rs w ws q]. unfold whole in E. cbn [c_r c_rs c_w c_ws c_q] in E.
    destruct w as [|[f|f] w].
    + destruct cr as [|[f|f] cr]; [apply Ho; split; reflexivity| |].
      * cbn in E. destruct (f rs) eqn:Ef; try discriminate. eapply Hs. apply mv_rdo. exact Ef.
      * destruct q as [|x q]; [cbn in E; discriminate|]. eapply Hs. apply mv_recv.
    + cbn in E. destruct (f ws) eqn:Ef; try discriminate. eapply Hs. apply mv_wdo. exact Ef.
    + destruct cr as [|[g|g] cr].
      * cbn in E. injection E as _ E _. destruct q; discriminate.
      * cbn in E. destruct (g rs) eqn:Ef; try discriminate. eapply Hs. apply mv_rdo. exact Ef.
      * destruct q as [|x q]; eapply Hs; [apply mv_meet|apply mv_recv].
Qed.
(** rank 0 fails *)
Lemma pair_bad cap c r : executes cap c r -> forall e s1, whole c = (RUb e, Ok s1) -> r = Undefined e.
Proof.
  induction 1 as [c O|c c' r Hm H IH|c e' Hb|c Ho Hs Hb]; intros e s1 E.
  - destruct c as [cr rs w ws q]. destruct O as [O1 O2]. cbn in O1, O2. subst. unfold whole in E. cbn in E. discriminate.
  - eapply IH. rewrite (move_keeps _ _ _ Hm). exact E.
  - destruct Hb; unfold whole in E; cbn in E; rewrite H in E; cbn in E; congruence.
  - exfalso. destruct c as [cr rs w ws q]. unfold whole in E. cbn [c_r c_rs c_w c_ws c_q] in E.
    destruct cr as [|[g|g] cr]; [cbn in E; discriminate| |].
    + cbn in E. destruct (g rs) eqn:Ef; try discriminate; [eapply Hs; apply mv_rdo; exact Ef|eapply Hb; apply br_r; exact Ef].
    + destruct q as [|x q]; [|eapply Hs; apply mv_recv]. destruct w as [|[f|f] w].
      * cbn in E. discriminate.
      * cbn in E. destruct (f ws) eqn:Ef; cbn in E; try discriminate. eapply Hs; apply mv_wdo; exact Ef.
      * eapply Hs. apply mv_meet.
Qed.
(** rank 1 fails while rank 0 waits *)
Lemma pair_lost cap c r : executes cap c r -> forall e, whole c = (RWait, UB e) -> r = Undefined e.
Proof.
  induction 1 as [c O|c c' r Hm H IH|c e' Hb|c Ho Hs Hb]; intros e E.
  - destruct c as [cr rs w ws q]. destruct O as [O1 O2]. cbn in O1, O2. subst. unfold whole in E. cbn in E. discriminate.
  - eapply IH. rewrite (move_keeps _ _ _ Hm). exact E.
  - destruct Hb; unfold whole in E; cbn in E; rewrite H in E; cbn in E; congruence.
  - exfalso. destruct c as [cr rs w ws q]. unfold whole in E. cbn [c_r c_rs c_w c_ws c_q] in E.
    destruct cr as [|[g|g] cr]; [cbn in E; discriminate| |].
    + cbn in E. destruct (g rs) eqn:Ef; try discriminate. eapply Hs; apply mv_rdo; exact Ef.
    + destruct q as [|x q]; [|eapply Hs; apply mv_recv]. destruct w as [|[f|f] w].
      * cbn in E. discriminate.
      * cbn in E. destruct (f ws) eqn:Ef; cbn in E; try discriminate; [eapply Hs; apply mv_wdo; exact Ef|eapply Hb; apply br_w; exact Ef].
      * eapply Hs. apply mv_meet.
Qed.
(** there is an execution *)
Definition todo c : nat := (length (c_r c) + length (c_w c))%nat.
Lemma move_less cap c c' : move cap c c' -> (todo c' < todo c)%nat.
Proof. destruct 1; unfold todo; cbn [c_r c_w length]; lia. Qed.
Lemma can cap c : over c \/ (exists c', move cap c c') \/ (exists e, breaks c e) \/
   (~ over c /\ (forall c', ~ move cap c c') /\ (forall e, ~ breaks c e)).
Proof.
  destruct c as [r rs w ws q].
  assert (A : (exists c', move cap (mkConf r rs w ws q) c') \/ (exists e, breaks (mkConf r rs w ws q) e) \/
     match r with [] => True | RDo f :: _ => (forall s', f rs <> Ok s') /\ (forall e, f rs <> UB e) | Recv f :: _ => q = [] end).
  { destruct r as [|[f|f] r]; [auto| |].
    - destruct (f rs) eqn:E; [left; eexists; apply mv_rdo; exact E|right; left; eexists; apply br_r; exact E|right; right; split; congruence..].
    - destruct q as [|x q]; [auto|]. left. eexists. apply mv_recv. }
  assert (B : (exists c', move cap (mkConf r rs w ws q) c') \/ (exists e, breaks (mkConf r rs w ws q) e) \/
     match w with [] => True | WDo f :: _ => (forall s', f ws <> Ok s') /\ (forall e, f ws <> UB e) | Send f :: _ => (cap <= length q)%nat end).
  { destruct w as [|[f|f] w]; [auto| |].
    - destruct (f ws) eqn:E; [left; eexists; apply mv_wdo; exact E|right; left; eexists; apply br_w; exact E|right; right; split; congruence..].
    - destruct (Nat.lt_ge_cases (length q) cap); [left; eexists; apply mv_send; assumption|auto]. }
  destruct A as [A|[A|A]]; [auto..|]. destruct B as [B|[B|B]]; [auto..|].
  destruct r as [|r0 r], w as [|w0 w]; [left; split; reflexivity| | |].
  - right. right. right. split; [intros [_ O]; discriminate O|]. split; [intros c' H; inversion H; subst; [eapply (proj1 B); eassumption|lia]|].
    intros e H; inversion H; subst. eapply (proj2 B); eassumption.
  - right. right. right. split; [intros [O _]; discriminate O|]. split; [intros c' H; inversion H; subst; [eapply (proj1 A); eassumption|discriminate]|].
    intros e H; inversion H; subst. eapply (proj2 A); eassumption.
  - assert (D : (exists f g, r0 = Recv f /\ w0 = Send g /\ q = []) \/ ~ exists f g, r0 = Recv f /\ w0 = Send g /\ q = []).
    { destruct r0 as [f|f], w0 as [g|g]; try (right; intros (? & ? & ? & ? & ?); discriminate).
      subst q. left. eauto. }
    destruct D as [(f & g & -> & -> & ->)|D]; [right; left; eexists; apply mv_meet|].
    right. right. right. split; [intros [O _]; discriminate O|]. split.
    + intros c' H. inversion H; subst; try discriminate; [eapply (proj1 A); eassumption|eapply (proj1 B); eassumption|lia|apply D; eauto].
    + intros e H. inversion H; subst; [eapply (proj2 A); eassumption|eapply (proj2 B); eassumption].
Qed.
Lemma some_ending cap c : exists r, executes cap c r.
Proof.
  remember (todo c) as n eqn:E. revert c E. induction n as [n IH] using (well_founded_induction lt_wf). intros c ->.
  destruct (can cap c) as [O|[[c' H]|[[e H]|(A & B & C)]]].
  - eexists. apply ex_over. exact O.
  - destruct (IH _ (move_less _ _ _ H) c' eq_refl) as [r Hr]. exists r. eapply ex_move; eauto.
  - eexists. apply ex_ub. exact H.
  - eexists. apply ex_stuck; assumption.
Qed.

(** programs in sequence *)
Lemma wrun_app a : forall s b s' q, wrun a s = (Ok s', q) -> wrun (a ++ b) s = (fst (wrun b s'), q ++ snd (wrun b s')).
Proof.
  induction a as [|[f|f] a IH]; intros s b s' q H; cbn [wrun app] in *.
  - injection H as -> <-. destruct (wrun b s'); reflexivity.
  - destruct (f s); try discriminate. apply IH. exact H.
  - destruct (wrun a s) as [o l] eqn:E. cbn [fst snd] in H. injection H as -> <-. rewrite (IH s b s' l E). reflexivity.
Qed.
Lemma wrun_app_ub a : forall s b e q, wrun a s = (UB e, q) -> wrun (a ++ b) s = (UB e, q).
Proof.
  induction a as [|[f|f] a IH]; intros s b e q H; cbn [wrun app] in *; [discriminate| |].
  - destruct (f s); try discriminate; [eapply IH; exact H|exact H].
  - destruct (wrun a s) as [o l] eqn:E. cbn [fst snd] in H. injection H as -> <-. rewrite (IH s b e l E). reflexivity.
Qed.
Lemma rrun_app a : forall s b q s' q', rrun a s q = RFin s' q' -> rrun (a ++ b) s q = rrun b s' q'.
Proof.
  induction a as [|[f|f] a IH]; intros s b q s' q' H; cbn [rrun app] in *.
  - injection H as -> ->. reflexivity.
  - destruct (f s); try discriminate. apply IH. exact H.
  - destruct q; [discriminate|]. apply IH. exact H.
Qed.
Lemma rrun_app_ub a : forall s b q e, rrun a s q = RUb e -> rrun (a ++ b) s q = RUb e.
Proof.
  induction a as [|[f|f] a IH]; intros s b q e H; cbn [rrun app] in *; [discriminate| |].
  - destruct (f s); try discriminate; [apply IH; exact H|exact H].
  - destruct q; [discriminate|]. apply IH. exact H.
Qed.
Lemma rrun_app_wait a : forall s b q, rrun a s q = RWait -> rrun (a ++ b) s q = RWait.
Proof.
  induction a as [|[f|f] a IH]; intros s b q H; cbn [rrun app] in *; [discriminate| |].
  - destruct (f s); try discriminate. apply IH. exact H.
  - destruct q; [reflexivity|]. apply IH. exact H.
Qed.
End Pair.
