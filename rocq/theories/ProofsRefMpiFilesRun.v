From Coq Require Import ZArith List Lia Bool Ascii.
From Verif Require Import Base ModelRefPrint ModelRefMpiFiles SpecRefMpiFiles ProofsRefMpiFiles ProofsRefMpiFilesTwo.
Import ListNotations.
Open Scope nat_scope.

(** *** two copies of details.txt cannot be read *)
Definition commas (t : text) : nat := length (filter (Ascii.eqb comma) t).
Lemma split_length : forall t acc, length (split (Ascii.eqb comma) t acc) = S (commas t).
Proof.
  unfold commas. induction t as [|c t IH]; intros acc; [reflexivity|]. cbn [split filter].
  destruct (Ascii.eqb comma c); cbn; rewrite IH; reflexivity.
Qed.
Lemma commas_app t u : commas (t ++ u) = commas t + commas u.
Proof. unfold commas. rewrite filter_app, app_length. reflexivity. Qed.
Lemma commas_mix (cs cs' m : list text) : interleaved cs cs' m -> commas (concat m) = commas (concat cs) + commas (concat cs').
Proof.
  induction 1 as [|x a b c H IH|x a b c H IH]; [reflexivity| |]; cbn [concat];
    pose proof (commas_app x (concat c)); [pose proof (commas_app x (concat a))|pose proof (commas_app x (concat b))]; lia.
Qed.
Lemma two_commas u t : two_copies u t -> commas t = 2 * commas u.
Proof. intros (cs & cs' & m & E & E' & I & ->). apply commas_mix in I. rewrite I, E, E'. lia. Qed.
Lemma details_ten t v : rf_details t = Some v -> commas t = 10.
Proof.
  unfold rf_details. intros H. pose proof (split_length t []) as L.
  destruct (split (Ascii.eqb comma) t []) as [|a [|b [|c [|d [|e [|f [|g [|h [|i [|j [|k [|]]]]]]]]]]]]; try discriminate. cbn in L. lia.
Qed.
Lemma doubled_unreadable d t x : rf_details d <> None -> two_copies d t -> rf_load t x = None.
Proof.
  intros Hd H2. destruct (rf_details d) as [v|] eqn:E; [|congruence]. apply details_ten in E. apply two_commas in H2.
  unfold rf_load. destruct (rf_details t) as [v'|] eqn:E'; [|reflexivity]. apply details_ten in E'. lia.
Qed.

(** *** running one process for a while *)
Lemma run_one p : forall w r q h, nth_error (ranks w) r = Some (mkRank (p ++ q) h) -> ~ In Await p ->
  exists w' h', history w (map (pair r) p) w' /\ nth_error (ranks w') r = Some (mkRank q h') /\
    length (ranks w') = length (ranks w) /\ forall r', r' <> r -> nth_error (ranks w') r' = nth_error (ranks w) r'.
Proof.
  induction p as [|o p IH]; intros w r q h N A.
  - exists w, h. split; [constructor|]. auto.
  - assert (Ao : o <> Await) by (intros ->; apply A; left; reflexivity).
    set (w1 := mkWorld (fst (do_op o (dir w) h)) (set_rank r (mkRank (p ++ q) (snd (do_op o (dir w) h))) (ranks w))).
    assert (S1 : acts w (r, o) w1) by (constructor; [exact N|intros; contradiction]).
    destruct (IH w1 r q (snd (do_op o (dir w) h))) as (w' & h' & H & N' & L & O).
    + cbn [ranks w1]. eapply set_rank_get; eauto.
    + intros K. apply A. right. exact K.
    + exists w', h'. split; [cbn; econstructor; eauto|]. split; [exact N'|]. split.
      * rewrite L. cbn [ranks w1]. apply set_rank_length.
      * intros r' Hr. rewrite O by exact Hr. cbn [ranks w1]. apply set_rank_other. auto.
Qed.
Lemma run_await w q h k : nth_error (ranks w) 0 = Some (mkRank (Await :: q) h) -> nth_error (ranks w) 1 = Some k -> todo k = [] ->
  exists w', history w [(0, Await)] w' /\ nth_error (ranks w') 0 = Some (mkRank q h) /\
    length (ranks w') = length (ranks w) /\ forall r', r' <> 0 -> nth_error (ranks w') r' = nth_error (ranks w) r'.
Proof.
  intros N N1 T. eexists. split; [econstructor; [constructor; [exact N|intros _; exists k; auto]|constructor]|].
  cbn [ranks do_op fst snd]. split; [eapply set_rank_get; eauto|]. split; [apply set_rank_length|]. intros r' Hr. apply set_rank_other. auto.
Qed.
Lemma prints_quiet b p : prints b p -> ~ In Await p /\ forall f, ~ In (Unlink f) p.
Proof.
  intros (ws & [Hw _] & ->). rewrite Forall_forall in Hw. split; [|intros f]; intros H; apply in_app_or in H;
    (destruct H as [H|H]; [cbn in H; intuition discriminate|]); apply in_app_or in H;
    (destruct H as [H|H]; [|cbn in H; intuition discriminate]); destruct (Hw _ H) as (? & ? & ? & _); discriminate.
Qed.
Lemma later_quiet bs p : later_part bs p -> ~ In Await p /\ forall f, ~ In (Unlink f) p.
Proof.
  induction 1 as [|b bs p q Hp Hl [I1 I2]]; [split; intros; auto|]. destruct (prints_quiet _ _ Hp) as [P1 P2].
  split; [|intros f]; intros H; apply in_app_or in H; destruct H as [H|H]; firstorder.
Qed.
Lemma first_cut hybrid d b p : first_part hybrid d b p -> exists q, p = removes hybrid ++ q /\ ~ In Await q /\ forall f, ~ In (Unlink f) q.
Proof.
  intros (pb & wd & Hp & [Hw _] & ->). exists (pb ++ [Open Details] ++ wd ++ [Close Details]). split; [reflexivity|].
  destruct (prints_quiet _ _ Hp) as [P1 P2]. rewrite Forall_forall in Hw.
  split; [|intros f]; intros H; apply in_app_or in H; (destruct H as [H|H]; [firstorder|]); apply (in_app_or [Open Details]) in H;
    (destruct H as [[H|[]]|H]; [discriminate|]); apply in_app_or in H; (destruct H as [H|[H|[]]]; [|discriminate]);
    destruct (Hw _ H) as (? & ? & ? & _); discriminate.
Qed.
Lemma removes_no_await hybrid : ~ In Await (removes hybrid).
Proof. destruct hybrid; cbn; intuition discriminate. Qed.
Lemma first_no_await hybrid d b p : first_part hybrid d b p -> ~ In Await p.
Proof.
  intros H. destruct (first_cut _ _ _ _ H) as (q & -> & A & _). intros K. apply in_app_or in K. destruct K as [K|K]; [exact (removes_no_await _ K)|exact (A K)].
Qed.

(** *** the rest of a two-process run, once both have done the first part *)
Definition tail_of (steps : bool) (later : list (file -> text)) (q : list op) : Prop :=
  if steps then exists p2, later_part later p2 /\ q = Await :: p2 else q = [].
Lemma finish_pair steps later w q h h1 : length (ranks w) = 2 -> nth_error (ranks w) 0 = Some (mkRank q h) ->
  nth_error (ranks w) 1 = Some (mkRank [] h1) -> tail_of steps later q ->
  exists t w', history w t w' /\ completed w' /\ forall r f, ~ In (r, Unlink f) t.
Proof.
  intros L N0 N1 T. destruct steps; cbn in T.
  - destruct T as (p2 & Hl & ->). destruct (run_await w p2 h _ N0 N1 eq_refl) as (w1 & H1 & M0 & L1 & O1).
    destruct (later_quiet _ _ Hl) as [A1 A2].
    destruct (run_one p2 w1 0 [] h) as (w2 & h2 & H2 & M2 & L2 & O2); [rewrite app_nil_r; exact M0|exact A1|].
    exists ([(0, Await)] ++ map (pair 0) p2), w2. split; [eapply history_app; eauto|]. split.
    + apply Forall_forall. intros k Hk. apply In_nth_error in Hk. destruct Hk as (r & Hk).
      destruct r as [|[|r]].
      * rewrite M2 in Hk. injection Hk as <-. reflexivity.
      * rewrite O2, O1, N1 in Hk by lia. injection Hk as <-. reflexivity.
      * assert (r + 2 < length (ranks w2)) by (replace (r + 2) with (S (S r)) by lia; apply nth_error_Some; congruence). lia.
    + intros r f [K|K]; [discriminate|]. apply in_map_iff in K. destruct K as (o & E & K). injection E as _ ->. exact (A2 f K).
  - subst q. exists [], w. split; [constructor|]. split; [|intros r f []].
    apply Forall_forall. intros k Hk. apply In_nth_error in Hk. destruct Hk as (r & Hk). destruct r as [|[|r]].
    + rewrite N0 in Hk. injection Hk as <-. reflexivity.
    + rewrite N1 in Hk. injection Hk as <-. reflexivity.
    + assert (r + 2 < length (ranks w)) by (replace (r + 2) with (S (S r)) by lia; apply nth_error_Some; congruence). lia.
Qed.
Lemma launch_two hybrid steps d b later w : launched hybrid 2 steps d b later w ->
  exists p0 q0 p1, first_part hybrid d b p0 /\ first_part hybrid d b p1 /\ tail_of steps later q0 /\ length (ranks w) = 2 /\
    nth_error (ranks w) 0 = Some (mkRank (p0 ++ q0) (fun _ => None)) /\ nth_error (ranks w) 1 = Some (mkRank p1 (fun _ => None)).
Proof.
  intros (L & _ & Hr).
  destruct (nth_error (ranks w) 0) as [[t0 h0]|] eqn:N0; [|apply nth_error_None in N0; lia].
  destruct (nth_error (ranks w) 1) as [[t1 h1]|] eqn:N1; [|apply nth_error_None in N1; lia].
  destruct (Hr _ _ N0) as [(p0 & F0 & G0) E0]. destruct (Hr _ _ N1) as [(p1 & F1 & G1) E1]. cbn in G0, E0, G1, E1. subst h0 h1 t1.
  destruct steps.
  - destruct G0 as (p2 & Hl & ->). exists p0, (Await :: p2), p1. repeat (split; [auto|]); [exists p2|]; auto.
  - subst t0. exists p0, [], p1. rewrite app_nil_r. repeat (split; [auto|]); try reflexivity; auto.
Qed.

(** both remove everything before either opens a file *)
Lemma run_doubled hybrid steps d b later w : launched hybrid 2 steps d b later w -> (steps = false -> later = []) ->
  exists t w', history w t w' /\ completed w' /\
    forall f, exists X, contents w' f = Some (X ++ later_text later f) /\ two_copies (first_text d b f) X.
Proof.
  intros HL Hs. destruct (launch_two _ _ _ _ _ _ HL) as (p0 & q0 & p1 & F0 & F1 & T & L & N0 & N1).
  destruct (first_cut _ _ _ _ F0) as (r0 & -> & A0 & U0). destruct (first_cut _ _ _ _ F1) as (r1 & -> & A1 & U1).
  rewrite <- app_assoc in N0.
  destruct (run_one (removes hybrid) w 0 _ _ N0 (removes_no_await _)) as (w1 & h1 & H1 & M1 & L1 & O1).
  destruct (run_one (removes hybrid) w1 1 r1 (fun _ => None)) as (w2 & h2 & H2 & M2 & L2 & O2); [rewrite O1 by lia; exact N1|exact (removes_no_await _)|].
  destruct (run_one r0 w2 0 q0 h1) as (w3 & h3 & H3 & M3 & L3 & O3); [rewrite O2 by lia; exact M1|exact A0|].
  destruct (run_one r1 w3 1 [] h2) as (w4 & h4 & H4 & M4 & L4 & O4); [rewrite app_nil_r, O3 by lia; exact M2|exact A1|].
  destruct (finish_pair steps later w4 q0 h3 h4) as (t & w' & H & C & U); [lia|rewrite O4 by lia; exact M3|exact M4|exact T|].
  set (tr := map (pair 0) (removes hybrid) ++ map (pair 1) (removes hybrid) ++ map (pair 0) r0 ++ map (pair 1) r1 ++ t).
  assert (HH : history w tr w') by (unfold tr; repeat (eapply history_app; [eassumption|]); assumption).
  exists tr, w'. split; [exact HH|]. split; [exact C|]. intros f.
  destruct (pair_files hybrid steps d b later w tr w' f HL Hs HH C) as (X & E & [[OV _]|[_ D]]); [|eauto].
  exfalso. destruct OV as (s1 & s2 & s3 & a & b' & _ & E').
  set (rest := map (pair 0) r0 ++ map (pair 1) r1 ++ t) in *.
  assert (NR : forall r g, ~ In (r, Unlink g) rest).
  { intros r g K. unfold rest in K. apply in_app_or in K. destruct K as [K|K].
    - apply in_map_iff in K. destruct K as (o & [= _ ->] & K). exact (U0 _ K).
    - apply in_app_or in K. destruct K as [K|K]; [|exact (U _ _ K)]. apply in_map_iff in K. destruct K as (o & [= _ ->] & K). exact (U1 _ K). }
  assert (EH : tr = (map (pair 0) (removes hybrid) ++ map (pair 1) (removes hybrid)) ++ rest) by (unfold tr; rewrite <- app_assoc; reflexivity).
  assert (SUF : forall (hd tl s1 s2 : list (nat * op)) e, hd ++ tl = s1 ++ e :: s2 -> (forall x, In x hd -> exists g, snd x = Unlink g) ->
     (exists g, snd e = Open g) -> exists s, tl = s ++ e :: s2).
  { induction hd as [|x hd IH]; intros tl z1 z2 e Ez Hx He; [cbn in Ez; eauto|]. destruct z1 as [|y z1].
    - cbn in Ez. injection Ez as -> _. destruct (Hx e (or_introl eq_refl)) as (g & Eg). destruct He as (g' & Eg'). congruence.
    - cbn in Ez. injection Ez as _ Ez. eapply IH; eauto. intros x' Hx'. apply Hx. right. exact Hx'. }
  rewrite EH in E'. destruct (SUF _ _ _ _ _ E') as (s & Es).
  - intros x Hx. apply in_app_or in Hx. destruct Hx as [Hx|Hx]; apply in_map_iff in Hx; destruct Hx as (o & <- & Hx);
      unfold removes in Hx; apply in_map_iff in Hx; destruct Hx as (g & <- & _); exists g; reflexivity.
  - exists f. reflexivity.
  - apply (NR b' f). rewrite Es. apply in_or_app. right. right. apply in_or_app. right. left. reflexivity.
Qed.

(** rank 1 does all its file operations first *)
Lemma unlink_in_first hybrid d b p f : first_part hybrid d b p -> exists p1 p2, p = p1 ++ Unlink f :: p2 /\ In (Open f) p2.
Proof.
  intros H. destruct (first_on _ f _ _ _ H) as (cs & E & _). unfold session in E.
  destruct (filter_split _ _ _ [] _ E) as (l1 & l2 & -> & _ & E2). exists l1, l2. split; [reflexivity|].
  assert (K : In (Open f) (filter (on f) l2)) by (rewrite E2; left; reflexivity). apply filter_In in K. tauto.
Qed.
Lemma run_single hybrid steps d b later w : launched hybrid 2 steps d b later w -> (steps = false -> later = []) ->
  exists t w', history w t w' /\ completed w' /\ forall f, contents w' f = Some (first_text d b f ++ later_text later f).
Proof.
  intros HL Hs. destruct (launch_two _ _ _ _ _ _ HL) as (p0 & q0 & p1 & F0 & F1 & T & L & N0 & N1).
  destruct (run_one p1 w 1 [] (fun _ => None)) as (w1 & h1 & H1 & M1 & L1 & O1); [rewrite app_nil_r; exact N1|exact (first_no_await _ _ _ _ F1)|].
  destruct (run_one p0 w1 0 q0 (fun _ => None)) as (w2 & h2 & H2 & M2 & L2 & O2); [rewrite O1 by lia; exact N0|exact (first_no_await _ _ _ _ F0)|].
  destruct (finish_pair steps later w2 q0 h2 h1) as (t & w' & H & C & U); [lia|exact M2|rewrite O2 by lia; exact M1|exact T|].
  set (tr := map (pair 1) p1 ++ map (pair 0) p0 ++ t).
  assert (HH : history w tr w') by (unfold tr; repeat (eapply history_app; [eassumption|]); assumption).
  exists tr, w'. split; [exact HH|]. split; [exact C|]. intros f.
  destruct (pair_files hybrid steps d b later w tr w' f HL Hs HH C) as (X & E & [[_ ->]|[NO _]]); [exact E|].
  exfalso. apply NO. destruct (unlink_in_first _ _ _ _ f F1) as (a1 & a2 & E1 & I1). destruct (unlink_in_first _ _ _ _ f F0) as (c1 & c2 & E0 & _).
  apply in_split in I1. destruct I1 as (a3 & a4 & ->).
  exists (map (pair 1) (a1 ++ Unlink f :: a3)), (map (pair 1) a4 ++ map (pair 0) c1), (map (pair 0) c2 ++ t), 1, 0. split; [lia|].
  unfold tr. rewrite E1, E0. rewrite !map_app. cbn [map]. rewrite <- !app_assoc. cbn [app]. rewrite map_app. cbn [map]. rewrite <- !app_assoc. reflexivity.
Qed.

(** *** more than two processes *)
Lemma run_all rs : forall w, NoDup rs -> (forall r k, In r rs -> nth_error (ranks w) r = Some k -> ~ In Await (todo k)) ->
  Forall (fun r => r < length (ranks w)) rs ->
  exists t w', history w t w' /\ length (ranks w') = length (ranks w) /\
    (forall r, In r rs -> exists k, nth_error (ranks w') r = Some k /\ todo k = []) /\
    (forall r, ~ In r rs -> nth_error (ranks w') r = nth_error (ranks w) r).
Proof.
  induction rs as [|r rs IH]; intros w Nd A B.
  - exists [], w. split; [constructor|]. split; [reflexivity|]. split; [intros r []|auto].
  - inversion Nd as [|? ? Hn Nd']; subst. inversion B as [|? ? Br B']; subst.
    destruct (nth_error (ranks w) r) as [[p h]|] eqn:N; [|apply nth_error_None in N; lia].
    destruct (run_one p w r [] h) as (w1 & h1 & H1 & M1 & L1 & O1); [rewrite app_nil_r; exact N|exact (A r _ (or_introl eq_refl) N)|].
    destruct (IH w1 Nd') as (t & w' & H & L & T & O).
    + intros r' k Hr Hk. assert (r' <> r) by congruence. rewrite O1 in Hk by assumption. apply (A r' k); auto. right. exact Hr.
    + rewrite L1. exact B'.
    + exists (map (pair r) p ++ t), w'. split; [eapply history_app; eauto|]. split; [lia|]. split.
      * intros r' [->|Hr]; [|apply T; exact Hr]. exists (mkRank [] h1). rewrite O by exact Hn. auto.
      * intros r' Hr. rewrite O by (intros K; apply Hr; right; exact K). apply O1. intros ->. apply Hr. left. reflexivity.
Qed.
Lemma last_alone hybrid procs steps d b later w t w' r p f : launched hybrid procs steps d b later w -> first_part hybrid d b p ->
  history w (t ++ map (pair r) p) w' -> contents w' f = Some (first_text d b f).
Proof.
  intros HL Hp H. destruct (start_sees _ _ _ _ _ _ _ f HL) as [S0 F0]. pose proof (history_ev f _ _ _ H _ S0) as [D _].
  destruct (first_on _ f _ _ _ Hp) as (cs & E & C).
  assert (EA : about f (t ++ map (pair r) p) = about f t ++ (r, Unlink f) :: map (pair r) (session f cs)).
  { unfold about. rewrite filter_app. f_equal. change ((r, Unlink f) :: map (pair r) (session f cs)) with (map (pair r) (Unlink f :: session f cs)).
    rewrite <- E. clear. induction p as [|o p IH]; [reflexivity|]. cbn [map filter snd]. destruct (on f o); cbn [map]; rewrite IH; reflexivity. }
  assert (PR : forall r' q, proj r' (map (pair r) q) = if Nat.eqb r r' then q else []).
  { intros r' q. unfold proj. induction q as [|o q IH]; [destruct (Nat.eqb r r'); reflexivity|]. cbn [map filter fst].
    destruct (Nat.eqb r r'); cbn; rewrite IH; reflexivity. }
  destruct (last_removal f (dir w f, fun _ => None) (about f t) r (map (pair r) (session f cs)) F0) as (k & Ek & Nk).
  - apply Forall_forall. intros x Hx Ex. apply in_map_iff in Hx. destruct Hx as (o & <- & Ho). cbn in Ex. subst o. exact (session_no_unlink _ _ Ho).
  - exists r. apply in_map_iff. exists (Open f). split; [reflexivity|left; reflexivity].
  - rewrite <- EA in Ek, Nk. rewrite ev_about in Ek, Nk. unfold contents. rewrite D, Ek, Nk. f_equal.
    rewrite (of_rank_only r), keep_rank, PR, Nat.eqb_refl, keepl_one; [exact C|].
    intros r' Hr. rewrite keep_rank, PR. apply not_eq_sym, Nat.eqb_neq in Hr. rewrite Hr. reflexivity.
Qed.
(** a further process starts its file operations when all others have finished *)
Lemma run_lost hybrid procs steps d b later w : launched hybrid procs steps d b later w -> 3 <= procs ->
  exists t w', history w t w' /\ completed w' /\ forall f, contents w' f = Some (first_text d b f).
Proof.
  intros HL Hp. pose proof HL as (L & _ & Hr).
  destruct (nth_error (ranks w) 0) as [[t0 h0]|] eqn:N0; [|apply nth_error_None in N0; lia].
  destruct (nth_error (ranks w) 2) as [[t2 h2]|] eqn:N2; [|apply nth_error_None in N2; lia].
  destruct (Hr _ _ N0) as [(p0 & F0 & G0) _]. destruct (Hr _ _ N2) as [(p2 & F2 & G2) _]. cbn in G0, G2. subst t2.
  assert (T0 : exists q0, t0 = p0 ++ q0 /\ tail_of steps later q0).
  { destruct steps; [destruct G0 as (pl & Hl & ->); exists (Await :: pl); split; [reflexivity|exists pl; auto]|].
    subst t0. exists []. rewrite app_nil_r. split; reflexivity. }
  destruct T0 as (q0 & -> & T0).
  destruct (run_one p0 w 0 q0 h0 N0 (first_no_await _ _ _ _ F0)) as (w1 & h1 & H1 & M1 & L1 & O1).
  destruct (run_all (1 :: seq 3 (procs - 3)) w1) as (ta & w2 & H2 & L2 & A2 & O2).
  - constructor; [intros K; apply in_seq in K; lia|apply seq_NoDup].
  - intros r k Hin Hk. assert (Hr0 : r <> 0) by (destruct Hin as [<-|K]; [lia|apply in_seq in K; lia]).
    rewrite O1 in Hk by exact Hr0. destruct (Hr _ _ Hk) as [(p & F & G) _]. destruct r; [lia|]. cbn in G. rewrite G. exact (first_no_await _ _ _ _ F).
  - rewrite L1, L. constructor; [lia|]. apply Forall_forall. intros r K. apply in_seq in K. lia.
  - assert (FIN : exists tb w3 h3, history w2 tb w3 /\ nth_error (ranks w3) 0 = Some (mkRank [] h3) /\ length (ranks w3) = length (ranks w2) /\
       forall r', r' <> 0 -> nth_error (ranks w3) r' = nth_error (ranks w2) r').
    { assert (M2 : nth_error (ranks w2) 0 = Some (mkRank q0 h1)) by (rewrite O2; [exact M1|intros [K|K]; [lia|apply in_seq in K; lia]]).
      destruct steps; cbn in T0.
      - destruct T0 as (pl & Hl & ->). destruct (A2 1 (or_introl eq_refl)) as (k1 & Nk & Tk).
        destruct (run_await w2 pl h1 k1 M2 Nk Tk) as (w3 & H3 & M3 & L3 & O3).
        destruct (run_one pl w3 0 [] h1) as (w4 & h4 & H4 & M4 & L4 & O4); [rewrite app_nil_r; exact M3|exact (proj1 (later_quiet _ _ Hl))|].
        exists ([(0, Await)] ++ map (pair 0) pl), w4, h4. split; [eapply history_app; eauto|]. split; [exact M4|]. split; [lia|].
        intros r' Hr'. rewrite O4, O3 by exact Hr'. reflexivity.
      - subst q0. exists [], w2, h1. split; [constructor|]. auto. }
    destruct FIN as (tb & w3 & h3 & H3 & M3 & L3 & O3).
    assert (N2' : nth_error (ranks w3) 2 = Some (mkRank (p2 ++ []) h2)).
    { rewrite app_nil_r, O3 by lia. rewrite O2 by (intros [K|K]; [lia|apply in_seq in K; lia]). rewrite O1 by lia. exact N2. }
    destruct (run_one p2 w3 2 [] h2 N2' (first_no_await _ _ _ _ F2)) as (w4 & h4 & H4 & M4 & L4 & O4).
    exists ((map (pair 0) p0 ++ ta ++ tb) ++ map (pair 2) p2), w4.
    assert (HH : history w ((map (pair 0) p0 ++ ta ++ tb) ++ map (pair 2) p2) w4).
    { eapply history_app; [|exact H4]. repeat (eapply history_app; [eassumption|]). exact H3. }
    split; [exact HH|]. split.
    + apply Forall_forall. intros k Hk. apply In_nth_error in Hk. destruct Hk as (r & Hk).
      assert (Hlt : r < procs) by (rewrite <- L, <- L1, <- L2, <- L3, <- L4; apply nth_error_Some; congruence).
      destruct (Nat.eq_dec r 2) as [->|]; [rewrite M4 in Hk; injection Hk as <-; reflexivity|]. rewrite O4 in Hk by assumption.
      destruct (Nat.eq_dec r 0) as [->|]; [rewrite M3 in Hk; injection Hk as <-; reflexivity|]. rewrite O3 in Hk by assumption.
      destruct (A2 r) as (k' & Nk' & Tk').
      { destruct (Nat.eq_dec r 1) as [->|]; [left; reflexivity|right; apply in_seq; lia]. }
      rewrite Nk' in Hk. injection Hk as <-. exact Tk'.
    + intros f. eapply last_alone; eauto.
Qed.

(** whatever the number of processes, the last one to remove a file leaves its block in it *)
Lemma interleaved_filter (p : nat * text -> bool) : forall l, interleaved (map snd (filter p l)) (map snd (filter (fun e => negb (p e)) l)) (map snd l).
Proof. induction l as [|e l IH]; [constructor|]. cbn [filter]. destruct (p e); cbn; constructor; exact IH. Qed.
Lemma interleaved_prefix {A} : forall m (cs x rest : list A), interleaved (cs ++ x) rest m -> exists rest', interleaved cs rest' m.
Proof.
  induction m as [|y m IH]; intros cs x rest H.
  - inversion H as [E| |]. destruct cs; [|discriminate]. exists []. constructor.
  - inversion H as [|z a b c H' E1 E2 E3|z a b c H' E1 E2 E3]; subst.
    + destruct cs as [|c cs]; cbn in E1.
      * destruct (IH [] a rest H') as (r & Hr). exists (y :: r). constructor. exact Hr.
      * injection E1 as -> ->. destruct (IH cs x rest H') as (r & Hr). exists r. constructor. exact Hr.
    + destruct (IH cs x b H') as (r & Hr). exists (y :: r). constructor. exact Hr.
Qed.
Lemma some_block hybrid procs steps d b later w t w' f : launched hybrid procs steps d b later w -> 1 <= procs ->
  history w t w' -> completed w' ->
  exists cs others m, concat cs = first_text d b f /\ interleaved cs others m /\ contents w' f = Some (concat m).
Proof.
  intros HL Hp H C. destruct (start_sees _ _ _ _ _ _ _ f HL) as [S0 F0]. pose proof (history_ev f _ _ _ H _ S0) as [D _].
  destruct HL as (L & _ & Hr).
  assert (PA : forall a k, nth_error (ranks w) a = Some k -> exists cs css, proj a (about f t) = Unlink f :: session f cs ++ flat_map (session f) css /\
     concat cs = first_text d b f).
  { intros a k Nk. destruct (Hr a k Nk) as [(p & Fp & G) _]. pose proof (history_all _ _ _ _ _ H C Nk) as T.
    destruct (first_on _ f _ _ _ Fp) as (cs & E & Q). rewrite proj_about, T.
    destruct (Nat.eqb a 0 && steps).
    - destruct G as (p2 & Hl & ->). destruct (later_on f _ _ Hl) as (css & E2 & _). exists cs, css. rewrite filter_app, E.
      cbn [filter on]. rewrite E2. auto.
    - rewrite G, E. exists cs, []. cbn. rewrite app_nil_r. auto. }
  destruct (nth_error (ranks w) 0) as [k0|] eqn:N0; [|apply nth_error_None in N0; lia].
  destruct (last_unlink f (about f t)) as (t1 & a & t2 & E & Q).
  { destruct (PA 0 k0 N0) as (cs & css & P & _). exists 0. apply proj_in. rewrite P. left. reflexivity. }
  assert (Ha : a < length (ranks w)).
  { pose proof (about_below f _ _ (proj1 (history_ranks _ _ _ H))) as R. rewrite E in R. apply Forall_app in R. destruct R as [_ R]. apply Forall_inv in R. exact R. }
  destruct (nth_error (ranks w) a) as [k|] eqn:Nk; [|apply nth_error_None in Nk; lia].
  destruct (PA a k Nk) as (cs & css & P & Qc).
  assert (P2 : proj a t2 = session f cs ++ flat_map (session f) css).
  { rewrite E, proj_app, proj_cons_same in P. destruct (proj a t1) as [|x l] eqn:E1; cbn in P; injection P as P; [exact P|].
    exfalso. assert (K : In (Unlink f) (session f cs ++ flat_map (session f) css)) by (change (Open f :: (map (Write f) cs ++ [Close f]) ++ flat_map (session f) css) with (session f cs ++ flat_map (session f) css) in *; rewrite <- H0; apply in_or_app; right; left; reflexivity).
    apply in_app_or in K. destruct K as [K|K]; [exact (session_no_unlink _ _ K)|exact (sessions_quiet _ _ _ K eq_refl)]. }
  destruct (last_removal f (dir w f, fun _ => None) t1 a t2 F0 Q) as (j & Ej & Nj).
  { exists a. apply proj_in. rewrite P2. left. reflexivity. }
  rewrite <- E in Ej, Nj. rewrite ev_about in Ej, Nj. set (K := keep f (fun _ => false) t2) in *.
  pose proof (interleaved_filter (fun e => Nat.eqb (fst e) a) K) as HI.
  change (map snd (filter (fun e => Nat.eqb (fst e) a) K)) with (of_rank a K) in HI.
  assert (EK : of_rank a K = cs ++ concat css) by (unfold K; rewrite keep_rank, P2, keepl_session, keepl_sessions; reflexivity).
  rewrite EK in HI. destruct (interleaved_prefix _ _ _ _ HI) as (others & HO).
  exists cs, others, (map snd K). split; [exact Qc|]. split; [exact HO|]. unfold contents. rewrite D, Ej, Nj. reflexivity.
Qed.

(** *** such runs exist *)
Definition whole_print (b : file -> text) : list op :=
  map Open six ++ map (fun g => Write (Out g) (b g)) [FPhi; FPsix; FPsiy; FPsixy; FVelx; FVely] ++ map Close six.
Definition whole_first (hybrid : bool) (d : text) (b : file -> text) : list op :=
  removes hybrid ++ whole_print b ++ [Open Details] ++ [Write Details d] ++ [Close Details].
Lemma whole_prints b : prints b (whole_print b).
Proof.
  exists (map (fun g => Write (Out g) (b g)) [FPhi; FPsix; FPsiy; FPsixy; FVelx; FVely]). split; [|reflexivity]. split.
  - repeat constructor; eexists _, _; (split; [reflexivity|apply in_six]).
  - intros f _. destruct f as [|[]]; cbn; rewrite ?app_nil_r; reflexivity.
Qed.
Lemma whole_firsts hybrid d b : first_part hybrid d b (whole_first hybrid d b).
Proof.
  exists (whole_print b), [Write Details d]. split; [apply whole_prints|]. split; [|reflexivity]. split.
  - repeat constructor. exists Details, d. cbn. auto.
  - intros f [<-|[]]. cbn. apply app_nil_r.
Qed.
Lemma launch_exists hybrid procs steps d b later dir0 : (forall f k, entry (dir0 f) = Some k -> k < length (stored (dir0 f))) ->
  exists w, launched hybrid procs steps d b later w /\ dir w = dir0.
Proof.
  intros Hd. set (lt := flat_map whole_print later).
  assert (HL : later_part later lt).
  { unfold lt. clear. induction later as [|x l IH]; [constructor|]. cbn [flat_map]. constructor; [apply whole_prints|exact IH]. }
  set (mk r := mkRank (whole_first hybrid d b ++ (if Nat.eqb r 0 && steps then Await :: lt else [])) (fun _ => None)).
  exists (mkWorld dir0 (map mk (seq 0 procs))). split; [|reflexivity]. split; [cbn; rewrite map_length; apply seq_length|]. split; [exact Hd|].
  intros r k Hk. cbn [ranks] in Hk. rewrite nth_error_map in Hk. destruct (nth_error (seq 0 procs) r) as [r'|] eqn:E; [|discriminate].
  assert (r' = r).
  { pose proof (nth_error_nth _ _ 0 E) as E'. rewrite seq_nth in E' by (rewrite <- (seq_length procs 0); apply nth_error_Some; congruence). lia. }
  subst r'. injection Hk as <-. split; [|reflexivity]. exists (whole_first hybrid d b). split; [apply whole_firsts|]. cbn [todo mk].
  destruct (Nat.eqb r 0 && steps); [exists lt; auto|apply app_nil_r].
Qed.
