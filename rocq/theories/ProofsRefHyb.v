(** The program with processes and threads. *)
From Coq Require Import ZArith List Permutation Bool Lia Arith Wf_nat Reals String.
From Verif Require Import Base Num NumB64 ModelVec ModelRefMath ModelRefMem ModelRef ModelRefMpi ModelRefOmp SpecRefPar SpecRefRun SpecRefMpi
  ProofsBase ProofsRefMem ProofsRefPar ProofsRefRun ProofsRefMain ProofsRefReal ProofsRefPair ProofsRefMpi ProofsRefMpiStep ProofsRefMpiMain ProofsRefMpiApi ProofsRefOmp.
Open Scope Z_scope.

Section Sim.
Context {S M : Type}.
Definition rsim (a : reader S M) (b : preader S M) : Prop :=
  match a, b with RDo f, PRDo R => refines R f | Recv f, PRecv g => f = g | _, _ => False end.
Definition wsim (a : writer S M) (b : pwriter S M) : Prop :=
  match a, b with WDo f, PWDo R => refines R f | Send f, PSend g => f = g | _, _ => False end.
(** weaker: the outcome of the function is possible *)
Definition rcan (a : reader S M) (b : preader S M) : Prop :=
  match a, b with RDo f, PRDo R => forall s, R s (f s) | Recv f, PRecv g => f = g | _, _ => False end.
Definition wcan (a : writer S M) (b : pwriter S M) : Prop :=
  match a, b with WDo f, PWDo R => forall s, R s (f s) | Send f, PSend g => f = g | _, _ => False end.
Lemma rsim_can a b : rsim a b -> rcan a b.
Proof. destruct a, b; cbn; auto. intros [H _]; exact H. Qed.
Lemma wsim_can a b : wsim a b -> wcan a b.
Proof. destruct a, b; cbn; auto. intros [H _]; exact H. Qed.

Lemma ref_ok {R : S -> outcome S -> Prop} {f s s' r} : refines R f -> f s = Ok s' -> R s r -> r = Ok s'.
Proof. intros [_ H] E K. destruct (H s r K) as [->|(e & e' & E' & _)]; congruence. Qed.
Lemma ref_ub {R : S -> outcome S -> Prop} {f s e r} : refines R f -> f s = UB e -> R s r -> exists e', r = UB e'.
Proof. intros [_ H] E K. destruct (H s r K) as [->|(e1 & e' & E' & ->)]; eauto. Qed.
Lemma ref_can {R : S -> outcome S -> Prop} {f s} : refines R f -> R s (f s).
Proof. intros [H _]. apply H. Qed.

Lemma sim_ok cap c r : pexecutes cap c r -> forall a w s0 s1, Forall2 rsim a (p_r c) -> Forall2 wsim w (p_w c) ->
  whole (mkConf a (p_rs c) w (p_ws c) (p_q c)) = (RFin s0 [], Ok s1) -> r = PFinished s0 s1 [].
Proof.
  induction 1 as [c O|c c' r Hm H IH|c e Hb|c Ho Hs Hb]; intros a w s0 s1 Fa Fw E.
  - destruct c as [cr rs cw ws q]. destruct O as [O1 O2]. cbn in O1, O2. subst. cbn in *. inversion Fa; subst. inversion Fw; subst.
    unfold whole in E. cbn in E. rewrite app_nil_r in E. injection E as -> -> ->. reflexivity.
  - destruct Hm as [f p s s' w' ws q Hf|f p s s' r' rs q Hf|f r' rs p s q Hl|f p s w' ws x q|f g p s w' ws]; cbn [p_r p_rs p_w p_ws p_q] in *.
    + inversion Fa as [|h ? a1 ? Hh Fa1]; subst. destruct h as [g|g]; [|destruct Hh]. unfold whole in E. cbn in E.
      destruct (g s) as [s2|e|n|] eqn:Eg; try discriminate. cbn in Hh. pose proof (ref_ok Hh Eg Hf) as K. injection K as ->.
      apply (IH a1 w); assumption.
    + inversion Fw as [|h ? w1 ? Hh Fw1]; subst. destruct h as [g|g]; [|destruct Hh]. unfold whole in E. cbn in E.
      destruct (g s) as [s2|e|n|] eqn:Eg; cbn in E; try discriminate. cbn in Hh. pose proof (ref_ok Hh Eg Hf) as K. injection K as ->.
      apply (IH a w1); assumption.
    + inversion Fw as [|h ? w1 ? Hh Fw1]; subst. destruct h as [g|g]; [destruct Hh|]. cbn in Hh. subst g.
      apply (IH a w1); try assumption. unfold whole in *. cbn in *. rewrite <- app_assoc. exact E.
    + inversion Fa as [|h ? a1 ? Hh Fa1]; subst. destruct h as [g|g]; [destruct Hh|]. cbn in Hh. subst g. apply (IH a1 w); assumption.
    + inversion Fa as [|h ? a1 ? Hh Fa1]; subst. destruct h as [g'|g']; [destruct Hh|]. cbn in Hh. subst g'.
      inversion Fw as [|h ? w1 ? Hh Fw1]; subst. destruct h as [g'|g']; [destruct Hh|]. cbn in Hh. subst g'. apply (IH a1 w1); assumption.
  - exfalso. destruct Hb as [f p s w' ws q e Hf|f p s r' rs q e Hf]; cbn [p_r p_rs p_w p_ws p_q] in *.
    + inversion Fa as [|h ? a1 ? Hh Fa1]; subst. destruct h as [g|g]; [|destruct Hh]. unfold whole in E. cbn in E.
      destruct (g s) as [s2|e'|n|] eqn:Eg; try discriminate. cbn in Hh. pose proof (ref_ok Hh Eg Hf) as K. discriminate.
    + inversion Fw as [|h ? w1 ? Hh Fw1]; subst. destruct h as [g|g]; [|destruct Hh]. unfold whole in E. cbn in E.
      destruct (g s) as [s2|e'|n|] eqn:Eg; cbn in E; try discriminate. cbn in Hh. pose proof (ref_ok Hh Eg Hf) as K. discriminate.
  - exfalso. destruct c as [cr rs cw ws q]. cbn [p_r p_rs p_w p_ws p_q] in *. unfold whole in E. cbn [c_r c_rs c_w c_ws c_q] in E.
    assert (Hr : forall f a', a = RDo f :: a' -> False).
    { intros f a' ->. inversion Fa as [|? k ? l Hh Fa1]; subst. destruct k as [k|k]; [|destruct Hh]. cbn in Hh. cbn in E.
      destruct (f rs) as [s2|e'|n|] eqn:Ef; try discriminate. eapply Hs. apply pm_rdo. rewrite <- Ef. apply (ref_can Hh). }
    destruct Fw as [|[f|f] [g|g] w w' Hh Fw1]; try (destruct Hh; fail).
    + destruct Fa as [|[f|f] [g|g] a a' Hh Fa1]; try (destruct Hh; fail).
      * apply Ho; split; reflexivity.
      * eapply Hr; reflexivity.
      * destruct q as [|x q]; [cbn in E; discriminate|]. eapply Hs. apply pm_recv.
    + cbn in E. destruct (f ws) as [s2|e'|n|] eqn:Ef; try discriminate. eapply Hs. apply pm_wdo. rewrite <- Ef. apply (ref_can Hh).
    + destruct Fa as [|[k|k] [l|l] a a' Hh2 Fa1]; try (destruct Hh2; fail).
      * cbn in E. injection E as _ E _. destruct q; discriminate.
      * eapply Hr; reflexivity.
      * destruct q as [|x q]; eapply Hs; [apply pm_meet|apply pm_recv].
Qed.

(** Rank 0 fails within the first part [a] of its program, or waits for ever in it because rank 1
    fails within the first part [w] of its own; nothing is known of the later parts. *)
Definition lost (a : list (reader S M)) rs (w : list (writer S M)) ws q (b b' : Prop) : Prop :=
  let v := wrun w ws in
  (exists e s1, rrun a rs (q ++ snd v) = RUb e /\ fst v = Ok s1 /\ b) \/ (exists e, rrun a rs (q ++ snd v) = RWait /\ fst v = UB e /\ b').
Lemma sim_lost cap c r : pexecutes cap c r -> forall a a' a'' w w' w'', p_r c = a' ++ a'' -> p_w c = w' ++ w'' -> Forall2 rsim a a' -> Forall2 wsim w w' ->
  lost a (p_rs c) w (p_ws c) (p_q c) (w'' = []) True -> exists e, r = PUndefined e.
Proof.
  induction 1 as [c O|c c' r Hm H IH|c e Hb|c Ho Hs Hb]; intros a a' a'' w w' w'' Ea Ew Fa Fw E.
  - exfalso. destruct c as [cr rs cw ws q]. destruct O as [O1 O2]. cbn in O1, O2. subst. cbn in *. symmetry in Ea, Ew.
    apply app_eq_nil in Ea as [-> ->]. apply app_eq_nil in Ew as [-> ->]. inversion Fa; subst. inversion Fw; subst.
    destruct E as [(e & s1 & K & _)|(e & K & _)]; cbn in K; discriminate.
  - destruct Hm as [f p s s' cw ws q Hf|f p s s' cr rs q Hf|f cr rs p s q Hl|f p s cw ws x q|f g p s cw ws]; cbn [p_r p_rs p_w p_ws p_q] in *.
    + destruct Fa as [|h k a a' Hh Fa1]; [exfalso; destruct E as [(e & s1 & K & _)|(e & K & _)]; cbn in K; discriminate|].
      cbn [app] in Ea. injection Ea as <- ->. destruct h as [g|g]; [|destruct Hh].
      eapply (IH a a' a'' w w' w''); try assumption; try reflexivity.
      unfold lost in E |- *. cbn [rrun] in E. destruct (g s) as [s2|e|n|] eqn:Eg.
      * pose proof (ref_ok Hh Eg Hf) as K. injection K as ->. exact E.
      * destruct (ref_ub Hh Eg Hf) as [e' K]. discriminate.
      * exfalso. destruct E as [(e & s1 & K & _)|(e & K & _)]; discriminate.
      * exfalso. destruct E as [(e & s1 & K & _)|(e & K & _)]; discriminate.
    + destruct Fw as [|h k w w' Hh Fw1].
      { exfalso. unfold lost in E. cbn in E. destruct E as [(e & s1 & _ & _ & ->)|(e & _ & K & _)]; discriminate. }
      cbn [app] in Ew. injection Ew as <- ->. destruct h as [g|g]; [|destruct Hh].
      eapply (IH a a' a'' w w' w''); try assumption; try reflexivity.
      unfold lost in E |- *. cbn [wrun] in E. destruct (g s) as [s2|e|n|] eqn:Eg.
      * pose proof (ref_ok Hh Eg Hf) as K. injection K as ->. exact E.
      * destruct (ref_ub Hh Eg Hf) as [e' K]. discriminate.
      * exfalso. cbn in E. destruct E as [(e & s1 & _ & K & _)|(e & _ & K & _)]; discriminate.
      * exfalso. cbn in E. destruct E as [(e & s1 & _ & K & _)|(e & _ & K & _)]; discriminate.
    + destruct Fw as [|h k w w' Hh Fw1].
      { exfalso. unfold lost in E. cbn in E. destruct E as [(e & s1 & _ & _ & ->)|(e & _ & K & _)]; discriminate. }
      cbn [app] in Ew. injection Ew as <- ->. destruct h as [g|g]; [destruct Hh|]. cbn in Hh. subst g.
      eapply (IH a a' a'' w w' w''); try assumption; try reflexivity.
      unfold lost in E |- *. cbn [wrun fst snd] in E. rewrite <- app_assoc. exact E.
    + destruct Fa as [|h k a a' Hh Fa1]; [exfalso; destruct E as [(e & s1 & K & _)|(e & K & _)]; cbn in K; discriminate|].
      cbn [app] in Ea. injection Ea as <- ->. destruct h as [g|g]; [destruct Hh|]. cbn in Hh. subst g.
      eapply (IH a a' a'' w w' w''); try assumption; reflexivity.
    + destruct Fa as [|h k a a' Hh Fa1]; [exfalso; destruct E as [(e & s1 & K & _)|(e & K & _)]; cbn in K; discriminate|].
      cbn [app] in Ea. injection Ea as <- ->. destruct h as [g'|g']; [destruct Hh|]. cbn in Hh. subst g'.
      destruct Fw as [|h k w w' Hh Fw1].
      { exfalso. unfold lost in E. cbn in E. destruct E as [(e & s1 & _ & _ & ->)|(e & _ & K & _)]; discriminate. }
      cbn [app] in Ew. injection Ew as <- ->. destruct h as [g'|g']; [destruct Hh|]. cbn in Hh. subst g'.
      eapply (IH a a' a'' w w' w''); try assumption; reflexivity.
  - eauto.
  - exfalso. destruct c as [cr rs cw ws q]. cbn [p_r p_rs p_w p_ws p_q] in *. subst cr cw.
    destruct Fa as [|[f|f] [g|g] a a' Hh Fa1]; try (destruct Hh; fail).
    + destruct E as [(e & s1 & K & _)|(e & K & _)]; cbn in K; discriminate.
    + assert (C : (exists s2, f rs = Ok s2) \/ exists e, f rs = UB e).
      { destruct (f rs) as [s2|e|n|] eqn:Ef; eauto; exfalso; unfold lost in E; cbn in E; rewrite Ef in E;
          destruct E as [(e & s1 & K & _)|(e & K & _)]; discriminate. }
      pose proof (ref_can (s := rs) Hh) as Hcan. destruct C as [[s2 Ef]|[e Ef]]; rewrite Ef in Hcan; [eapply Hs; apply pm_rdo; exact Hcan|eapply Hb; apply pb_r; exact Hcan].
    + destruct q as [|x q]; [|eapply Hs; apply pm_recv].
      destruct Fw as [|[k|k] [l|l] w w' Hh2 Fw1]; try (destruct Hh2; fail).
      * unfold lost in E. cbn in E. destruct E as [(e & s1 & K & _)|(e & _ & K & _)]; discriminate.
      * assert (C : (exists s2, k ws = Ok s2) \/ exists e, k ws = UB e).
        { destruct (k ws) as [s2|e|n|] eqn:Ef; eauto; exfalso; unfold lost in E; cbn in E; rewrite Ef in E;
            destruct E as [(e & s1 & _ & K & _)|(e & _ & K & _)]; discriminate. }
        pose proof (ref_can (s := ws) Hh2) as Hcan. destruct C as [[s2 Ef]|[e Ef]]; rewrite Ef in Hcan; [eapply Hs; apply pm_wdo; exact Hcan|eapply Hb; apply pb_w; exact Hcan].
      * eapply Hs. apply pm_meet.
Qed.

(** a defined or undefined ending is possible *)
Definition conv (r : ending S M) (r' : pending S M) : Prop :=
  match r with Finished c => r' = PFinished (c_rs c) (c_ws c) (c_q c) | Undefined e => r' = PUndefined e | Deadlock _ => False end.
Lemma sim_exec cap c r : executes cap c r -> forall a w r', conv r r' -> Forall2 rcan (c_r c) a -> Forall2 wcan (c_w c) w ->
  pexecutes cap (mkPConf a (c_rs c) w (c_ws c) (c_q c)) r'.
Proof.
  induction 1 as [c O|c c' r Hm H IH|c e Hb|c Ho Hs Hb]; intros a w r' Cv Fa Fw.
  - cbn in Cv. subst r'. destruct c as [cr rs cw ws q]. destruct O as [O1 O2]. cbn in *. subst. inversion Fa; subst. inversion Fw; subst.
    apply (px_over cap (mkPConf [] rs [] ws q)). split; reflexivity.
  - destruct Hm; cbn [c_r c_rs c_w c_ws c_q] in *; 
      try (inversion Fa as [|? k1 ? l1 Hh Fa1]; subst; destruct k1 as [k1|k1]; try (destruct Hh; fail); cbn in Hh; try subst k1);
      try (inversion Fw as [|? k2 ? l2 Hh2 Fw1]; subst; destruct k2 as [k2|k2]; try (destruct Hh2; fail); cbn in Hh2; try subst k2);
      (eapply px_move; [|apply IH; eassumption]); try (apply pm_recv || apply pm_meet || (apply pm_send; assumption)).
    + apply pm_rdo. rewrite <- H0. apply Hh.
    + apply pm_wdo. rewrite <- H0. apply Hh2.
  - cbn in Cv. subst r'. apply px_ub. destruct Hb; cbn [c_r c_rs c_w c_ws c_q] in *.
    + inversion Fa as [|? k1 ? l1 Hh Fa1]; subst. destruct k1 as [k1|k1]; [|destruct Hh]. apply pb_r. rewrite <- H. apply Hh.
    + inversion Fw as [|? k1 ? l1 Hh Fa1]; subst. destruct k1 as [k1|k1]; [|destruct Hh]. apply pb_w. rewrite <- H. apply Hh.
  - destruct Cv.
Qed.
(** rank 0 reaches the end of the first part of its program and fails there *)
Lemma sim_reach cap : forall n a a' w w' rs ws q s0 q' (R : S -> outcome S -> Prop) rest e, (List.length a + List.length w <= n)%nat -> Forall2 rcan a a' -> Forall2 wcan w w' ->
  rrun a rs (q ++ snd (wrun w ws)) = RFin s0 q' -> R s0 (UB e) ->
  pexecutes cap (mkPConf (a' ++ PRDo R :: rest) rs w' ws q) (PUndefined e).
Proof.
  induction n as [|n IH]; intros a a' w w' rs ws q s0 q' R rest e Hn Fa Fw E HR.
  - destruct a; [|cbn in Hn; lia]. inversion Fa; subst. cbn in *. injection E as -> _. apply px_ub. apply pb_r. exact HR.
  - destruct Fa as [|[f|f] [g|g] a a' Hh Fa1]; try (destruct Hh; fail).
    + cbn in *. injection E as -> _. apply px_ub. apply pb_r. exact HR.
    + cbn in E. destruct (f rs) as [s2|e2|c2|] eqn:Ef; try discriminate. cbn [app]. eapply px_move; [apply pm_rdo; rewrite <- Ef; apply Hh|].
      eapply IH; try eassumption. cbn in Hn. lia.
    + cbn in Hh. subst g. destruct q as [|x q].
      * cbn [app] in E. destruct Fw as [|[k|k] [l|l] w w' Hh2 Fw1]; try (destruct Hh2; fail).
        -- cbn in E. discriminate.
        -- cbn [wrun] in E. destruct (k ws) as [s2|e2|c2|] eqn:Ef; try (cbn in E; discriminate). eapply px_move; [apply pm_wdo; rewrite <- Ef; apply Hh2|].
           eapply (IH (Recv f :: a)); try eassumption; [cbn in *; lia|constructor; [reflexivity|exact Fa1]].
        -- cbn in Hh2. subst l. cbn [wrun fst snd] in E. cbn [rrun] in E. eapply px_move; [apply pm_meet|]. eapply IH; try eassumption. cbn in *. lia.
      * cbn [app rrun] in E. eapply px_move; [apply pm_recv|]. eapply IH; try eassumption. cbn in *. lia.
Qed.
End Sim.

Lemma forall2_app {A B} (R : A -> B -> Prop) a a' b b' : Forall2 R a a' -> Forall2 R b b' -> Forall2 R (a ++ b) (a' ++ b').
Proof. induction 1; cbn; auto. Qed.
Lemma forall2_upto {A B} (R : A -> B -> Prop) f g : (forall t, Forall2 R (f t) (g t)) -> forall n t, Forall2 R (upto f t n) (upto g t n).
Proof. intros H. induction n as [|n IH]; intros t; cbn [upto]; [constructor|]. apply forall2_app; auto. Qed.
Lemma forall2_mono {A B} (R R' : A -> B -> Prop) l l' : (forall a b, R a b -> R' a b) -> Forall2 R l l' -> Forall2 R' l l'.
Proof. intros H. induction 1; constructor; auto. Qed.

Section Phases.
Context {T : Type} {NT : Num T} {TG : Trig T}.
Variables (F : flow T) (s : settings T) (k : Z).
Hypothesis Hk : 1 <= k.
Hypothesis Hnx : 0 <= s_nx s < 4294967296.

Lemma tame_unpack_adv nnx ny lo hi : tame (@unpack_adv T nnx) (nodes ny lo hi).
Proof. eapply tame_nodes; [|intros; apply unpack_adv_touches]. intros []; cbn; congruence. Qed.
Lemma tame_unpack_cells nnx ny lo hi : tame (unpack_cells nnx) (nodes ny lo hi).
Proof. eapply tame_nodes; [|intros; apply unpack_cells_touches]. intros []; cbn; congruence. Qed.
Lemma tame_pack_adv ny : tame (@pack_adv T (s_nx s / 2)) (nodes ny (s_nx s / 2) (s_nx s)).
Proof. eapply tame_turned; [apply Z.div_pos; lia|lia| |intros; apply pack_adv_touches]. intros []; cbn; congruence. Qed.
Lemma tame_pack_cells ny : tame (pack_cells (s_nx s / 2)) (nodes ny (s_nx s / 2) (s_nx s)).
Proof. eapply tame_turned; [apply Z.div_pos; lia|lia| |intros; apply pack_cells_touches]. intros []; cbn; congruence. Qed.

Lemma root_start_ref t : refines (hyb_root_start k F s t) (root_start F s t).
Proof. apply (ref_pre (fresh s)), static_ref; [exact Hk|apply tame_adv]. Qed.
Lemma root_middle_ref : refines (hyb_root_middle k s) (root_middle s).
Proof.
  apply ref_seq; [apply rows_ref; [exact Hk|apply tame_unpack_adv]|].
  apply (ref_pre (fresh_cells s)), static_ref; [exact Hk|apply tame_find].
Qed.
Lemma root_end_ref t : refines (hyb_root_end k 1 F s t) (root_end F s t).
Proof.
  apply ref_seq; [apply rows_ref; [exact Hk|apply tame_unpack_cells]|].
  apply ref_seq; [apply static_ref; [exact Hk|apply tame_update]|].
  apply (ref_seq (fun m => static_for 1 _ _ (mixed_vars m)) (fun m => runs _ (mixed_vars m))); [apply ref_pre, static_ref_one|]. apply ref_eq.
Qed.
Lemma root_end_can kmix t m : 1 <= kmix -> hyb_root_end k kmix F s t m (root_end F s t m).
Proof.
  intros Hx. unfold hyb_root_end, root_end. cbv zeta.
  eapply seqr_intro; [apply rows_serial; exact Hk|]. apply bind_andr. intros m1.
  eapply seqr_intro; [apply static_serial; exact Hk|]. apply bind_andr. intros m2.
  eapply seqr_intro; [apply static_serial; exact Hx|]. apply bind_andr. intros m3. reflexivity.
Qed.
Lemma helper_start_ref t : refines (hyb_helper_start k F s t) (helper_start F s t).
Proof.
  apply (ref_pre (fresh s) (seqr _ _) (fun m => m <- trace_cols F s t (s_nx s / 2) (s_nx s) m ;; _)).
  apply ref_seq; [apply static_ref; [exact Hk|apply tame_adv]|]. apply rows_ref; [exact Hk|apply tame_pack_adv].
Qed.
Lemma helper_middle_ref : refines (hyb_helper_middle k s) (helper_middle s).
Proof.
  apply (ref_pre (fresh_cells s) (seqr _ _) (fun m => m <- find_cols s (s_nx s / 2) (s_nx s) m ;; _)).
  apply ref_seq; [apply static_ref; [exact Hk|apply tame_find]|]. apply rows_ref; [exact Hk|apply tame_pack_cells].
Qed.
Lemma on_ref R f : refines R f -> refines (on_memr (T := T) R) (on_mem f).
Proof.
  intros [H1 H2]. split.
  - intros p. exists (f (fst p)). split; [apply H1|reflexivity].
  - intros p r (o & H & ->). unfold on_mem. destruct (H2 _ _ H) as [->|(e & e' & -> & ->)]; [auto|]. right. cbn. eauto.
Qed.
Lemma on_can (R : phase) f m : R (fst m) (f (fst m)) -> on_memr (T := T) R m (on_mem f m).
Proof. intros H. exists (f (fst m)). auto. Qed.

Lemma root_sim every t : Forall2 rsim (root_step F s every t) (hyb_root_step k 1 F s every t).
Proof.
  unfold root_step, hyb_root_step. cbv zeta. repeat (apply Forall2_cons || apply Forall2_nil); cbn [rsim]; try reflexivity; try apply on_ref; try apply ref_eq.
  - apply root_start_ref. - apply root_middle_ref. - apply root_end_ref.
Qed.
Lemma root_can kmix every t : 1 <= kmix -> Forall2 rcan (root_step F s every t) (hyb_root_step k kmix F s every t).
Proof.
  intros Hx. unfold root_step, hyb_root_step. cbv zeta. repeat (apply Forall2_cons || apply Forall2_nil); cbn [rcan]; try reflexivity; try (intros p; apply on_can); 
   try (apply root_start_ref); try (apply root_middle_ref). apply root_end_can. exact Hx.
Qed.
Lemma helper_sim size t : Forall2 wsim (helper_step size F s t) (hyb_helper_step k size F s t).
Proof.
  unfold helper_step, hyb_helper_step. cbv zeta. repeat (apply Forall2_cons || apply Forall2_nil); cbn [wsim]; try reflexivity; try apply on_ref.
  - apply helper_start_ref. - apply helper_middle_ref.
Qed.
(** the part of a step of rank 0 before its last computation *)
Definition root_first (t : Z) : list (reader proc message) := firstn 7 (root_step F s 1 t).
Definition hyb_first (t : Z) : list (preader proc message) := firstn 7 (hyb_root_step k 1 F s 1 t).
Lemma root_parts every t : root_step F s every t = root_first t ++ [RDo (on_mem (root_end F s t)); RDo (root_print s every t)].
Proof. reflexivity. Qed.
Lemma hyb_parts kmix every t : hyb_root_step k kmix F s every t = hyb_first t ++ [PRDo (on_memr (hyb_root_end k kmix F s t)); PRDo (fun p r => r = root_print s every t p)].
Proof. reflexivity. Qed.
Lemma first_sim t : Forall2 rsim (root_first t) (hyb_first t).
Proof.
  pose proof (root_sim 1 t) as H. unfold root_first, hyb_first. revert H. generalize (root_step F s 1 t) (hyb_root_step k 1 F s 1 t). generalize 7%nat.
  induction n as [|n IH]; intros l l' H; cbn [firstn]; [constructor|]. destruct H; [constructor|]. constructor; auto.
Qed.
End Phases.

Section Main.
Variables (F : flow R) (s : settings R) (n k : Z) (cap : nat).
Let nx := s_nx s.
Let ny := s_ny s.
Hypothesis P : proper s.
Hypothesis Hn : s_nx s / 2 * s_ny s < 2147483648.
Hypothesis Hc : 0 <= n < 4294967296.
Hypothesis Hq : (IZR n <= s_Tfinal s / s_dt s < IZR n + 1)%R.
Hypothesis Hk : 1 <= k.

Lemma nx_range : 0 <= s_nx s < 4294967296.
Proof. destruct P as (N1 & _). lia. Qed.

Lemma hyb_can kmix size r r' : 1 <= kmix -> mpi_runs size cap F s r -> conv r r' -> hyb_runs k kmix size cap F s r'.
Proof.
  intros Hx (c & E & H) Cv. destruct (start_ok F s n Hc Hq size) as (m & _ & _ & E'). rewrite E' in E. injection E as <-.
  destruct (ProofsRefMain.setup_ok s) as (m0 & R0 & _). unfold mpi_start in E'. rewrite (step_count_R s n Hc Hq), R0 in E'. cbn [bind] in E'. injection E' as <- E1 E2.
  exists n, m0. split; [apply step_count_R; assumption|]. split; [exact R0|].
  eapply (sim_exec cap _ r H _ _ r' Cv); cbn [c_r c_w].
  - apply forall2_upto. intros t. apply root_can; [exact Hk|exact Hx].
  - apply forall2_upto. intros t. eapply forall2_mono; [apply wsim_can|]. apply helper_sim; [exact Hk|exact nx_range].
Qed.

Lemma keeps_whole c s0 s1 : executes cap c (Finished (mkConf (M := @message R) [] s0 [] s1 [])) -> whole c = (RFin (s0 : @proc R) [], Ok s1).
Proof.
  intros H. remember (Finished _) as r eqn:E. induction H as [c O|c c' r Hm H IH|c e Hb|c Ho Hs Hb]; try discriminate.
  - injection E as ->. reflexivity.
  - rewrite <- (move_keeps _ _ _ Hm). auto.
Qed.

Lemma hyb_double : Z.Even (s_nx s) -> 0 < print_every s n \/ n = 0 ->
  (exists r, hyb_runs k 1 MPI_DOUBLE cap F s r) /\
  forall r, hyb_runs k 1 MPI_DOUBLE cap F s r -> exists m out p m' out', r = PFinished (m, out) p [] /\
    main_ true F s = Ok (m', out') /\ same_data (s_nx s) (s_ny s) m m' /\ same_blocks (s_nx s) (s_ny s) out out'.
Proof.
  intros Ev He. destruct (mpi_like_openmp F s n cap P Hn Ev Hc Hq He) as ((r0 & H0) & Hall).
  destruct (Hall r0 H0) as (m & out & p & m' & out' & -> & Em & Sd & Sb). split.
  - eexists. eapply hyb_can; [|exact H0|reflexivity]. lia.
  - intros r (n' & m0 & En & Es & H). exists m, out, p, m', out'. split; [|auto].
    destruct H0 as (c & Ec & Hx). unfold mpi_start in Ec. rewrite En, Es in Ec. cbn [bind] in Ec. injection Ec as <-.
    apply keeps_whole in Hx. eapply (sim_ok cap _ r H); cbn [p_r p_w p_rs p_ws p_q]; [| |exact Hx].
    + apply forall2_upto. intros t. apply root_sim. exact Hk.
    + apply forall2_upto. intros t. apply helper_sim; [exact Hk|exact nx_range].
Qed.

Lemma helper_all size t l : Forall2 wsim (upto (helper_step size F s) t l) (upto (hyb_helper_step k size F s) t l).
Proof. apply forall2_upto. intros. apply helper_sim; [exact Hk|exact nx_range]. Qed.
Lemma hyb_start r kmix size : hyb_runs k kmix size cap F s r -> exists m, nodes_at nx ny (xs_of s) (ys_of s) m /\ contains nx ny (initial (xs_of s) (ys_of s)) m /\
  pexecutes cap (mkPConf (upto (hyb_root_step k kmix F s (print_every s n)) 0 (Z.to_nat n)) (m, [(0%R, m)])
                         (upto (hyb_helper_step k size F s) 0 (Z.to_nat n)) (m, [(0%R, m)]) []) r.
Proof.
  intros (n' & m0 & En & Es & H). rewrite (step_count_R s n Hc Hq) in En. injection En as <-.
  destruct (ProofsRefMain.setup_ok s) as (m & R0 & A & B & _). rewrite R0 in Es. injection Es as <-. exists m. auto.
Qed.
Lemma even_half : Z.Even (s_nx s) -> s_nx s = s_nx s / 2 + s_nx s / 2.
Proof. intros [q E]. rewrite E, (Z.mul_comm 2), Z.div_mul by lia. lia. Qed.
Lemma odd_half : Z.Odd (s_nx s) -> s_nx s = s_nx s / 2 + s_nx s / 2 + 1.
Proof. intros [q E]. rewrite E, (Z.mul_comm 2), Z.div_add_l by lia. change (1 / 2) with 0. lia. Qed.

Lemma hyb_bad kmix size r : 1 <= n -> size = MPI_FLOAT \/ Z.Odd (s_nx s) -> hyb_runs k kmix size cap F s r -> exists e, r = PUndefined e.
Proof.
  intros N1 Hs H. destruct (hyb_start r kmix size H) as (m & A & B & Hx). destruct (Z.to_nat n) as [|n'] eqn:En; [lia|].
  eapply (sim_lost cap _ r Hx (root_first F s 0) (hyb_first F s k 0) _ (upto (helper_step size F s) 0 (S n')) (upto (hyb_helper_step k size F s) 0 (S n')) []);
    cbn [p_r p_w p_rs p_ws p_q].
  - cbn [upto]. rewrite hyb_parts, <- app_assoc. reflexivity.
  - rewrite app_nil_r. reflexivity.
  - apply first_sim. exact Hk.
  - apply helper_all.
  - unfold lost. cbv zeta. cbn [app]. destruct (Z.Even_or_Odd (s_nx s)) as [Ev|Od].
    + left. destruct Hs as [->|Od]; [|destruct Ev as [u Eu], Od as [v Ev']; lia]. apply even_half in Ev.
      destruct (helper_steps_ok F s P MPI_FLOAT Ev (S n') 0 m [(0%R, m)] A) as [p Hp]. exists Uninitialised, p. split; [|auto].
      cbn [upto]. destruct (helper_step_ok F s P Ev MPI_FLOAT 0 m [(0%R, m)] A) as (m1 & m2 & W & Nh2 & B1 & B2).
      rewrite (wrun_app _ _ _ _ _ W). cbn [snd].
      change (root_first F s 0) with (firstn 4 (root_step F s 1 0) ++ firstn 3 (skipn 4 (root_step F s 1 0))). apply rrun_app_ub.
      apply root_first_float; assumption.
    + right. apply odd_half in Od. pose proof (helper_step_odd F s P Hn size 0 m [(0%R, m)] Od A) as W. exists OutOfBounds.
      cbn [upto]. rewrite (wrun_app_ub _ _ _ _ _ W). cbn [fst snd]. split; [|auto].
      destruct (root_start_ok F s P 0 m A) as (ma & Ra & _). unfold root_first, root_step, on_mem. cbv zeta. cbn [firstn rrun fst snd bind]. rewrite Ra. reflexivity.
Qed.
Lemma hyb_exists kmix size : 1 <= kmix -> 1 <= n -> size = MPI_FLOAT \/ Z.Odd (s_nx s) -> exists r, hyb_runs k kmix size cap F s r.
Proof.
  intros Hx N1 Hs. destruct (mpi_exists F s n Hc Hq size cap) as [r0 H0]. 
  assert (E : exists e, r0 = Undefined e).
  { destruct (Z.Even_or_Odd (s_nx s)) as [Ev|Od].
    - destruct Hs as [->|Od]; [|destruct Ev as [u Eu], Od as [v Ev']; lia]. exists Uninitialised. eapply (mpi_float F s P Hn n Hc Hq cap); [apply even_half; exact Ev|lia|exact H0].
    - exists OutOfBounds. eapply (mpi_odd F s P Hn n Hc Hq size cap); [apply odd_half; exact Od|lia|exact H0]. }
  destruct E as [e ->]. exists (PUndefined e). eapply hyb_can; [exact Hx|exact H0|reflexivity].
Qed.

Lemma rrun_parts {S M} (a : list (reader S M)) : forall s0 b q s' q', rrun (a ++ b) s0 q = RFin s' q' -> exists s1 q1, rrun a s0 q = RFin s1 q1 /\ rrun b s1 q1 = RFin s' q'.
Proof.
  induction a as [|[f|f] a IH]; intros s0 b q s' q' H; cbn [rrun app] in *.
  - eauto.
  - destruct (f s0); try discriminate. eauto.
  - destruct q; [discriminate|]. eauto.
Qed.
Lemma hyb_races : 2 <= k -> 1 <= n -> Z.Even (s_nx s) -> hyb_runs k k MPI_DOUBLE cap F s (PUndefined DataRace).
Proof.
  intros K2 N1 Ev. apply even_half in Ev. destruct (ProofsRefMain.setup_ok s) as (m & R0 & A & B & _).
  exists n, m. split; [apply step_count_R; assumption|]. split; [exact R0|]. destruct (Z.to_nat n) as [|n'] eqn:En; [lia|].
  destruct (helper_step_ok F s P Ev MPI_DOUBLE 0 m [(0%R, m)] A) as (m1 & m2 & W & Nh2 & B1 & B2).
  destruct (root_step_ok F s P Hn Ev 1 0 (initial (xs_of s) (ys_of s)) m [(0%R, m)] m1 m2 (snd (wrun (upto (helper_step MPI_DOUBLE F s) 1 n') (m2, [(0%R, m)])))) as (m' & Rr & _ & C'); try assumption; try lia.
  rewrite root_parts in Rr. apply rrun_parts in Rr as ([ms outs] & q1 & Ra & Rb). cbn [rrun] in Rb. unfold on_mem in Rb. cbn [fst snd] in Rb.
  destruct (root_end F s 0 ms) as [m9|e|c|] eqn:Ee; cbn [bind] in Rb; try discriminate.
  assert (E9 : m9 = m'). { unfold root_print in Rb. cbn [Z.eqb] in Rb. cbn [fst snd] in Rb. injection Rb. auto. } subst m9. clear Rb.
  cbn [upto]. rewrite hyb_parts, <- app_assoc. cbn [app].
  eapply (sim_reach cap _ (root_first F s 0) (hyb_first F s k 0) (upto (helper_step MPI_DOUBLE F s) 0 (S n')) _ _ _ _ (ms, outs) q1).
  - reflexivity.
  - eapply forall2_mono; [apply rsim_can|]. apply first_sim. exact Hk.
  - eapply forall2_mono; [apply wsim_can|]. apply (helper_all MPI_DOUBLE 0 (S n')).
  - cbn [app upto]. rewrite (wrun_app _ _ _ _ _ W). cbn [snd]. exact Ra.
  - exists (UB DataRace). split; [|reflexivity]. cbn [fst]. revert Ee. unfold root_end, hyb_root_end. cbv zeta. intros Ee.
    destruct (runs (map (unpack_cells _) _) ms) as [k1|e|c|] eqn:E1; cbn [bind] in Ee; try discriminate.
    apply (seqr_intro _ _ _ (Ok k1)); [rewrite <- E1; apply rows_serial; lia|]. cbn [andr].
    destruct (runs (update_levelset_data _ _ _ _ _ _ _ _ _) _) as [k2|e|c|] eqn:E3; cbn [bind] in Ee; try discriminate.
    apply (seqr_intro _ _ _ (Ok k2)); [rewrite <- E3; apply static_serial; lia|]. cbn [andr].
    destruct (runs (update_mixed_derivatives _ _ _ _ _ _) _) as [k4|e|c|] eqn:E4; cbn [bind] in Ee; try discriminate.
    injection Ee as <-. exists (UB DataRace). split; [|reflexivity]. destruct P as (N3 & N4 & _).
    eapply end_races; [exact K2|lia|lia|exact E4|exact C'].
Qed.
End Main.
