From Coq Require Import ZArith List Lia Bool Ascii.
From Verif Require Import Base ModelRefPrint ModelRefMpiFiles SpecRefMpiFiles ProofsRefMpiFiles.
Import ListNotations.
Open Scope nat_scope.

(** *** the programs, one name at a time *)
Definition session (f : name) (cs : list text) : list op := Open f :: map (Write f) cs ++ [Close f].
Lemma puts_on f ns ws t : puts ns t ws -> In f ns -> exists cs, filter (on f) ws = map (Write f) cs /\ concat cs = t f.
Proof.
  intros [A B] Hf. rewrite <- (B f Hf). clear B. induction A as [|o ws (g & c & -> & Hg) Hw (cs & E & C)]; [exists []; auto|].
  cbn [filter on flat_map piece]. destruct (name_eqb g f) eqn:K.
  - apply name_eqb_eq in K. subst g. exists (c :: cs). cbn. rewrite E, C. auto.
  - exists cs. auto.
Qed.
Lemma puts_off f ns ws t : puts ns t ws -> ~ In f ns -> filter (on f) ws = [].
Proof.
  intros [A _] Hf. induction A as [|o ws (g & c & -> & Hg) Hw IH]; [reflexivity|].
  cbn [filter on]. destruct (name_eqb g f) eqn:K; [|exact IH]. apply name_eqb_eq in K. subst g. contradiction.
Qed.
Lemma in_six g : In (Out g) six.  Proof. destruct g; cbn; tauto. Qed.
Lemma not_six : ~ In Details six.  Proof. cbn. intuition discriminate. Qed.
Lemma prints_on f b p : prints b p ->
  match f with
  | Out g => exists cs, filter (on f) p = session f cs /\ concat cs = b g
  | Details => filter (on f) p = []
  end.
Proof.
  intros (ws & Hw & ->). destruct f as [|g].
  - rewrite !filter_app, (puts_off _ _ _ _ Hw not_six). reflexivity.
  - destruct (puts_on (Out g) _ _ _ Hw (in_six g)) as (cs & E & C). exists cs. split; [|exact C].
    rewrite !filter_app, E. destruct g; reflexivity.
Qed.
Lemma first_on hybrid f d b p : first_part hybrid d b p -> exists cs, filter (on f) p = Unlink f :: session f cs /\ concat cs = first_text d b f.
Proof.
  intros (pb & wd & Hp & Hd & ->). pose proof (prints_on f b pb Hp) as H. rewrite !filter_app. destruct f as [|g].
  - destruct (puts_on Details _ _ _ Hd (or_introl eq_refl)) as (cs & E & C). exists cs. split; [|exact C].
    rewrite H, E. destruct hybrid; reflexivity.
  - destruct H as (cs & E & C). exists cs. split; [|exact C]. rewrite E.
    rewrite (puts_off (Out g) _ _ _ Hd) by (cbn; intuition discriminate). unfold session. destruct hybrid, g; cbn; rewrite app_nil_r; reflexivity.
Qed.
Lemma later_on f bs q : later_part bs q ->
  exists css, filter (on f) q = flat_map (session f) css /\ concat (map (@concat _) css) = later_text bs f.
Proof.
  induction 1 as [|b bs p q Hp Hl (css & E & C)]; [exists []; destruct f; auto|].
  pose proof (prints_on f b p Hp) as H. rewrite filter_app, E. destruct f as [|g].
  - exists css. rewrite H. auto.
  - destruct H as (cs & E' & C'). exists (cs :: css). rewrite E'. cbn. rewrite C', C. auto.
Qed.

(** *** what one process keeps *)
Lemma keepl_writes f b : forall cs p, keepl f b (map (Write f) cs ++ p) = (if b then cs else []) ++ keepl f b p.
Proof.
  induction cs as [|c cs IH]; intros p; cbn; [destruct b; reflexivity|]. rewrite name_eqb_refl, IH. destruct b; reflexivity.
Qed.
Lemma keepl_session f b cs p : keepl f b (session f cs ++ p) = cs ++ keepl f false p.
Proof. unfold session. cbn. rewrite name_eqb_refl, <- app_assoc, keepl_writes. cbn. rewrite name_eqb_refl. reflexivity. Qed.
Lemma keepl_one f b cs : keepl f b (session f cs) = cs.
Proof. rewrite <- (app_nil_r (session f cs)), keepl_session. apply app_nil_r. Qed.
Lemma keepl_sessions f : forall css b, keepl f b (flat_map (session f) css) = concat css.
Proof. induction css as [|cs css IH]; intros b; [reflexivity|]. cbn [flat_map concat]. rewrite keepl_session, IH. reflexivity. Qed.
(** without a new open nothing is kept *)
Lemma keepl_none f : forall p, ~ In (Open f) p -> keepl f false p = [].
Proof.
  induction p as [|o p IH]; intros H; [reflexivity|].
  assert (H' : ~ In (Open f) p) by (intros K; apply H; right; exact K). specialize (IH H').
  destruct o as [g|g|g c|g|]; cbn; auto.
  - destruct (name_eqb g f) eqn:E; [|exact IH]. apply name_eqb_eq in E. subst g. exfalso. apply H. left. reflexivity.
  - rewrite andb_false_r. exact IH.
  - destruct (name_eqb g f); exact IH.
Qed.

Lemma interleaved_ranks : forall l : list (nat * text), Forall (fun e => fst e < 2) l -> interleaved (of_rank 0 l) (of_rank 1 l) (map snd l).
Proof.
  induction 1 as [|[r c] l H Hl IH]; [constructor|]. cbn in H. unfold of_rank in *. cbn [filter fst].
  destruct r as [|[|r]]; [| |lia]; cbn; constructor; exact IH.
Qed.
Lemma keep_below f n : forall t b, Forall (fun e => fst e < n) t -> Forall (fun e => fst e < n) (keep f b t).
Proof.
  intros t b H. revert b. induction H as [|[r o] t H Ht IH]; intros b; [constructor|]. destruct o as [g|g|g c|g|]; cbn; auto.
  destruct (name_eqb g f && b r); cbn; auto.
Qed.
Lemma of_rank_only r l : (forall r', r' <> r -> of_rank r' l = []) -> map snd l = of_rank r l.
Proof.
  induction l as [|[r' c] l IH]; intros H; [reflexivity|]. unfold of_rank in *. cbn [filter fst map snd] in *.
  destruct (Nat.eqb r' r) eqn:E.
  - cbn. f_equal. apply IH. intros r'' Hn. specialize (H r'' Hn). apply Nat.eqb_eq in E. subst r'.
    destruct (Nat.eqb r r'') eqn:E'; [apply Nat.eqb_eq in E'; congruence|exact H].
  - exfalso. apply Nat.eqb_neq in E. specialize (H r' E). rewrite Nat.eqb_refl in H. discriminate.
Qed.

(** *** the last event of a kind *)
Lemma last_unlink f : forall t : list (nat * op), (exists r, In (r, Unlink f) t) ->
  exists t1 a t2, t = t1 ++ (a, Unlink f) :: t2 /\ Forall (quiet f) t2.
Proof.
  induction t as [|[r o] t IH]; intros (r' & H); [destruct H|].
  assert (D : (exists r, In (r, Unlink f) t) \/ Forall (quiet f) t).
  { clear. induction t as [|[r o] t IH]; [right; constructor|]. destruct IH as [(r' & H)|H]; [left; exists r'; right; exact H|].
    assert (Do : o = Unlink f \/ o <> Unlink f).
    { destruct o as [g|g|g c|g|]; try (right; discriminate). destruct (name_eqb g f) eqn:E; [left; apply name_eqb_eq in E; congruence|].
      right. intros [= ->]. rewrite name_eqb_refl in E. discriminate. }
    destruct Do as [->|Do]; [left; exists r; left; reflexivity|right; constructor; assumption]. }
  destruct D as [D|D].
  - destruct (IH D) as (t1 & a & t2 & -> & Q). exists ((r, o) :: t1), a, t2. auto.
  - destruct H as [[= -> ->]|H]; [exists [], r', t; auto|]. exfalso. rewrite Forall_forall in D. apply (D _ H). reflexivity.
Qed.

Lemma filter_split {A} (p : A -> bool) x : forall l a b, filter p l = a ++ x :: b ->
  exists l1 l2, l = l1 ++ x :: l2 /\ filter p l1 = a /\ filter p l2 = b.
Proof.
  induction l as [|y l IH]; intros a b H; [destruct a; discriminate|]. cbn in H. destruct (p y) eqn:E.
  - destruct a as [|z a]; injection H as -> H; [exists [], l; auto|].
    destruct (IH _ _ H) as (l1 & l2 & -> & <- & <-). exists (z :: l1), l2. cbn. rewrite E. auto.
  - destruct (IH _ _ H) as (l1 & l2 & -> & <- & <-). exists (y :: l1), l2. cbn. rewrite E. auto.
Qed.
Lemma overtaken_about f t : overtaken f (about f t) <-> overtaken f t.
Proof.
  split; intros (t1 & t2 & t3 & a & b & Hn & E).
  - unfold about in E. destruct (filter_split _ _ _ _ _ E) as (l1 & l2 & -> & _ & E2).
    destruct (filter_split _ _ _ _ _ E2) as (l3 & l4 & -> & _ & _). exists l1, l3, l4, a, b. auto.
  - subst t. exists (about f t1), (about f t2), (about f t3), a, b. split; [exact Hn|].
    unfold about. rewrite filter_app. cbn [filter on snd]. rewrite name_eqb_refl, filter_app. cbn [filter on snd]. rewrite name_eqb_refl. reflexivity.
Qed.

Lemma proj_none t : (forall r, proj r t = []) -> t = [].
Proof.
  destruct t as [|[r o] t]; intros H; [reflexivity|]. specialize (H r). rewrite proj_cons_same in H. discriminate.
Qed.
Lemma proj_above t n r : Forall (fun e : nat * op => fst e < n) t -> n <= r -> proj r t = [].
Proof.
  intros H Hr. unfold proj. induction H as [|[r' o] t H Ht IH]; [reflexivity|]. cbn in H. cbn [filter fst].
  destruct (Nat.eqb r' r) eqn:E; [apply Nat.eqb_eq in E; lia|exact IH].
Qed.
Lemma session_no_unlink f cs : ~ In (Unlink f) (session f cs).
Proof.
  unfold session. intros [H|H]; [discriminate|]. apply in_app_or in H. destruct H as [H|[H|[]]]; [|discriminate].
  apply in_map_iff in H. destruct H as (? & ? & _). discriminate.
Qed.
Lemma no_open f cs : ~ In (Open f) (map (Write f) cs ++ [Close f]).
Proof.
  intros H. apply in_app_or in H. destruct H as [H|[H|[]]]; [|discriminate].
  apply in_map_iff in H. destruct H as (? & ? & _). discriminate.
Qed.
Lemma sessions_quiet f : forall css o, In o (flat_map (session f) css) -> o <> Unlink f.
Proof. intros css o H ->. apply in_flat_map in H. destruct H as (cs & _ & H). exact (session_no_unlink _ _ H). Qed.

Section Two.
Context (f : name) (u v : list (nat * op)) (cs0 cs1 : list text) (css : list (list text)) (txt : text).
Hypothesis R : Forall (fun e => fst e < 2) (u ++ v).
Hypothesis P0 : proj 0 u = Unlink f :: session f cs0.
Hypothesis P1 : proj 1 u = Unlink f :: session f cs1.
Hypothesis V0 : proj 0 v = flat_map (session f) css.
Hypothesis V1 : proj 1 v = [].
Hypothesis C0 : concat cs0 = txt.
Hypothesis C1 : concat cs1 = txt.

Lemma v_quiet : Forall (quiet f) v.
Proof.
  apply Forall_forall. intros [r o] H E. cbn in E. subst o. apply Forall_app in R. destruct R as [_ Rv].
  pose proof (proj1 (Forall_forall _ _) Rv _ H) as Hr. cbn in Hr. apply proj_in in H.
  destruct r as [|[|r]]; [|rewrite V1 in H; destruct H|lia]. rewrite V0 in H. exact (sessions_quiet _ _ _ H eq_refl).
Qed.

Lemma two_cases a b csa csb t1 t2 s : (a = 0 /\ b = 1 \/ a = 1 /\ b = 0) ->
  proj a u = Unlink f :: session f csa -> proj b u = Unlink f :: session f csb -> concat csa = txt -> concat csb = txt ->
  u = t1 ++ (a, Unlink f) :: t2 -> Forall (quiet f) t2 -> fits s ->
  let s' := fold_left (ev f) (u ++ v) s in
  exists X k, entry (fst s') = Some k /\ nth_error (stored (fst s')) k = Some (X ++ concat (concat css)) /\
    (overtaken f (u ++ v) /\ X = txt \/ ~ overtaken f (u ++ v) /\ two_copies txt X).
Proof.
  intros Hab Pa Pb Ca Cb Eu Hq Hf s'.
  assert (Hne : b <> a) by lia.
  assert (Ru : Forall (fun e => fst e < 2) u) by (apply Forall_app in R; tauto).
  assert (R2 : Forall (fun e => fst e < 2) t2) by (rewrite Eu in Ru; apply Forall_app in Ru; destruct Ru as [_ K]; inversion K; assumption).
  assert (R1 : Forall (fun e => fst e < 2) t1) by (rewrite Eu in Ru; apply Forall_app in Ru; tauto).
  assert (Ha : proj a t1 = [] /\ proj a t2 = session f csa).
  { rewrite Eu, proj_app, proj_cons_same in Pa. destruct (proj a t1) as [|x l] eqn:E; cbn in Pa; injection Pa as Pa; [auto|].
    exfalso. apply (session_no_unlink f csa). rewrite <- H. apply in_or_app. right. left. reflexivity. }
  destruct Ha as [Ha1 Ha2].
  assert (Hb : exists l, proj b t1 = Unlink f :: l /\ l ++ proj b t2 = session f csb).
  { rewrite Eu, proj_app, proj_cons_other in Pb by auto. destruct (proj b t1) as [|x l] eqn:E; cbn in Pb.
    - exfalso. rewrite Forall_forall in Hq. apply (Hq (b, Unlink f)); [|reflexivity]. apply proj_in. rewrite Pb. left. reflexivity.
    - injection Pb as -> Pb. eauto. }
  destruct Hb as (l & Hb1 & Hb2).
  assert (Ho : exists r, In (r, Open f) (t2 ++ v)).
  { exists a. apply in_or_app. left. apply proj_in. rewrite Ha2. left. reflexivity. }
  assert (Eall : u ++ v = t1 ++ (a, Unlink f) :: (t2 ++ v)) by (rewrite Eu, <- app_assoc; reflexivity).
  destruct (last_removal f s t1 a (t2 ++ v) Hf) as (k & Ek & Nk); [apply Forall_app; split; [exact Hq|apply v_quiet]|exact Ho|].
  rewrite <- Eall in Ek, Nk. fold s' in Ek, Nk.
  rewrite keep_app, map_app, concat_app in Nk.
  set (K := keep f (fun _ => false) t2) in *. set (b' := after f _ t2) in *.
  assert (EV : concat (map snd (keep f b' v)) = concat (concat css)).
  { rewrite (of_rank_only 0).
    - rewrite keep_rank, V0, keepl_sessions. reflexivity.
    - intros r' Hr. rewrite keep_rank. destruct r' as [|[|r']]; [lia|rewrite V1; reflexivity|].
      rewrite (proj_above v 2) by (try lia; apply Forall_app in R; tauto). reflexivity. }
  rewrite EV in Nk.
  exists (concat (map snd K)), k. split; [exact Ek|]. split; [exact Nk|].
  assert (Ka : of_rank a K = csa) by (unfold K; rewrite keep_rank, Ha2; apply keepl_one).
  destruct l as [|o l].
  - right. cbn in Hb2. split.
    + assert (E1 : t1 = [(b, Unlink f)]).
      { destruct t1 as [|[r o] t1]; [discriminate|]. pose proof (Forall_inv R1) as Hr. cbn in Hr.
        assert (Hrb : r = b).
        { destruct (Nat.eq_dec r a) as [->|]; [rewrite proj_cons_same in Ha1; discriminate|lia]. }
        subst r. rewrite proj_cons_same in Hb1. injection Hb1 as -> Hb1. f_equal. apply proj_none. intros r.
        rewrite proj_cons_other in Ha1 by auto. apply Forall_inv_tail in R1.
        destruct (Nat.le_gt_cases 2 r) as [G|G]; [apply (proj_above _ 2); auto|].
        destruct (Nat.eq_dec r a) as [->|]; [exact Ha1|]. replace r with b by lia. exact Hb1. }
      rewrite Eall, E1. intros (s1 & s2 & s3 & c & d & Hcd & E). cbn in E.
      destruct s1 as [|x s1]; [discriminate|]. injection E as _ E.
      destruct s1 as [|y s1]; [discriminate|]. injection E as _ E.
      assert (Q : Forall (quiet f) (t2 ++ v)) by (apply Forall_app; split; [exact Hq|apply v_quiet]).
      rewrite E in Q. apply Forall_app in Q. destruct Q as [_ Q]. apply Forall_inv_tail in Q. apply Forall_app in Q. destruct Q as [_ Q].
      apply Forall_inv in Q. apply Q. reflexivity.
    + assert (Kb : of_rank b K = csb) by (unfold K; rewrite keep_rank, Hb2; apply keepl_one).
      pose proof (interleaved_ranks K (keep_below f 2 t2 _ R2)) as HI.
      destruct Hab as [[-> ->]|[-> ->]]; rewrite Ka, Kb in HI; eexists _, _, _; eauto.
  - left. cbn in Hb2. unfold session in Hb2. injection Hb2 as -> Hb2. split.
    + destruct (proj_split b (Open f) t1 [Unlink f] l Hb1) as (w1 & w2 & E1 & _ & _).
      exists w1, w2, (t2 ++ v), b, a. split; [exact Hne|]. rewrite Eall, E1, <- app_assoc. reflexivity.
    + rewrite <- Ca, <- Ka. f_equal. apply of_rank_only. intros r Hr. unfold K. rewrite keep_rank.
      destruct (Nat.le_gt_cases 2 r) as [G|G]; [rewrite (proj_above t2 2 r R2 G); reflexivity|].
      replace r with b by lia. apply keepl_none. intros Hin. apply (no_open f csb). rewrite <- Hb2. apply in_or_app. right. exact Hin.
Qed.

Lemma two_files s : fits s ->
  let s' := fold_left (ev f) (u ++ v) s in
  exists X k, entry (fst s') = Some k /\ nth_error (stored (fst s')) k = Some (X ++ concat (concat css)) /\
    (overtaken f (u ++ v) /\ X = txt \/ ~ overtaken f (u ++ v) /\ two_copies txt X).
Proof.
  intros Hf. destruct (last_unlink f u) as (t1 & a & t2 & Eu & Hq).
  { exists 0. apply proj_in. rewrite P0. left. reflexivity. }
  assert (Ha : a < 2).
  { apply Forall_app in R. destruct R as [R' _]. rewrite Eu in R'. apply Forall_app in R'. destruct R' as [_ R']. apply Forall_inv in R'. exact R'. }
  destruct a as [|[|a]]; [| |lia].
  - apply (two_cases 0 1 cs0 cs1 t1 t2 s); auto.
  - apply (two_cases 1 0 cs1 cs0 t1 t2 s); auto.
Qed.
End Two.

Lemma concat_concat {A} : forall css : list (list (list A)), concat (concat css) = concat (map (@concat A) css).
Proof. induction css as [|cs css IH]; [reflexivity|]. cbn. rewrite concat_app, IH. reflexivity. Qed.
Lemma about_below f n t : Forall (fun e : nat * op => fst e < n) t -> Forall (fun e => fst e < n) (about f t).
Proof. intros H. unfold about. induction H as [|e t H Ht IH]; [constructor|]. cbn. destruct (on f (snd e)); auto. Qed.
Lemma start_sees hybrid procs steps d b later w f : launched hybrid procs steps d b later w ->
  sees f w (dir w f, fun _ => None) /\ fits (dir w f, fun _ => None).
Proof.
  intros (_ & E & Hr). split; split; cbn [fst snd].
  - reflexivity.
  - intros r k Hk. destruct (Hr r k Hk) as [_ ->]. reflexivity.
  - apply E.
  - discriminate.
Qed.
Lemma history_cons_inv w e t w' : history w (e :: t) w' -> exists w1, acts w e w1 /\ history w1 t w'.
Proof. intros H. inversion H; subst. eauto. Qed.
Theorem pair_files hybrid steps d b later w t w' f : launched hybrid 2 steps d b later w -> (steps = false -> later = []) ->
  history w t w' -> completed w' ->
  exists X, contents w' f = Some (X ++ later_text later f) /\
    (overtaken f t /\ X = first_text d b f \/ ~ overtaken f t /\ two_copies (first_text d b f) X).
Proof.
  intros L Hs H C. destruct (start_sees _ _ _ _ _ _ _ f L) as [S0 F0].
  pose proof (history_ev f _ _ _ H _ S0) as [D _].
  destruct L as (L & _ & Hr).
  destruct (nth_error (ranks w) 0) as [k0|] eqn:N0; [|apply nth_error_None in N0; lia].
  destruct (nth_error (ranks w) 1) as [k1|] eqn:N1; [|apply nth_error_None in N1; lia].
  destruct (Hr 0 k0 N0) as [(p0 & F0' & G0) _]. destruct (Hr 1 k1 N1) as [(p1 & F1' & G1) _]. cbn in G0, G1.
  pose proof (history_all _ _ _ _ _ H C N0) as T0. pose proof (history_all _ _ _ _ _ H C N1) as T1.
  pose proof (proj1 (history_ranks _ _ _ H)) as RR. rewrite L in RR.
  destruct (first_on _ f _ _ _ F0') as (cs0 & E0 & Q0). destruct (first_on _ f _ _ _ F1') as (cs1 & E1 & Q1).
  assert (KEY : exists u v css, about f t = u ++ v /\ Forall (fun e => fst e < 2) (u ++ v) /\
     proj 0 u = Unlink f :: session f cs0 /\ proj 1 u = Unlink f :: session f cs1 /\
     proj 0 v = flat_map (session f) css /\ proj 1 v = [] /\ concat (concat css) = later_text later f).
  { destruct steps.
    - destruct G0 as (p2 & Lp & G0). rewrite G0 in T0.
      destruct (proj_split 0 Await t _ _ T0) as (u & v & -> & U0 & V0).
      destruct (history_split _ _ _ _ H) as (w1 & H1 & H2). destruct (history_cons_inv _ _ _ _ H2) as (w2 & A & H3).
      assert (T : told w1) by (inversion A; auto). destruct T as (k1' & N1' & Z).
      destruct (history_todo _ _ _ H1 _ _ N1) as (k1'' & N1'' & T1''). rewrite N1' in N1''. injection N1'' as <-.
      rewrite Z, app_nil_r in T1''.
      assert (V1 : proj 1 v = []).
      { rewrite T1'' in T1. rewrite proj_app, proj_cons_other in T1 by lia.
        apply (f_equal (@length op)) in T1. rewrite app_length in T1. destruct (proj 1 v); [reflexivity|cbn in T1; lia]. }
      destruct (later_on f _ _ Lp) as (css & E2 & Q2).
      exists (about f u), (about f v), css.
      assert (EA : about f (u ++ (0, Await) :: v) = about f u ++ about f v) by (unfold about; rewrite filter_app; reflexivity).
      split; [exact EA|]. rewrite <- EA. split; [apply about_below; exact RR|].
      rewrite !proj_about, U0, V0, V1. rewrite <- T1'', G1.
      repeat (split; [auto|]). etransitivity; [apply concat_concat|exact Q2].
    - exists (about f t), [], []. rewrite app_nil_r. split; [reflexivity|]. split; [apply about_below; exact RR|].
      rewrite !proj_about, T0, T1, G0, G1. rewrite (Hs eq_refl). destruct f; auto 10. }
  destruct KEY as (u & v & css & EA & Ruv & U0 & U1 & V0 & V1 & QL).
  destruct (two_files f u v cs0 cs1 css (first_text d b f) Ruv U0 U1 V0 V1 Q0 Q1 _ F0) as (X & k & Ek & Nk & HX).
  rewrite <- EA in Ek, Nk, HX. rewrite ev_about in Ek, Nk. rewrite overtaken_about in HX.
  exists X. split; [|exact HX]. unfold contents. rewrite D, Ek, Nk, QL. reflexivity.
Qed.
