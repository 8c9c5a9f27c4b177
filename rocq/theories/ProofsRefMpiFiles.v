From Coq Require Import ZArith List Lia Bool Ascii.
From Verif Require Import Base ModelRefPrint ModelRefMpiFiles SpecRefMpiFiles.
Import ListNotations.
Open Scope nat_scope.

Lemma file_eqb_eq f g : file_eqb f g = true <-> f = g.
Proof. destruct f, g; cbn; split; congruence. Qed.
Lemma name_eqb_eq f g : name_eqb f g = true <-> f = g.
Proof.
  destruct f as [|f], g as [|g]; cbn; try (split; congruence). rewrite file_eqb_eq. split; congruence.
Qed.
Lemma name_eqb_refl f : name_eqb f f = true.
Proof. apply name_eqb_eq. reflexivity. Qed.
Lemma on_name_same {A} f (v : A) m : on_name f v m f = v.
Proof. unfold on_name. rewrite name_eqb_refl. reflexivity. Qed.
Lemma on_name_other {A} f g (v : A) m : name_eqb f g = false -> on_name f v m g = m g.
Proof. unfold on_name. intros ->. reflexivity. Qed.

(** *** what each process does *)
Definition proj (r : nat) (t : list (nat * op)) : list op := map snd (filter (fun e => Nat.eqb (fst e) r) t).
Lemma proj_app r t t' : proj r (t ++ t') = proj r t ++ proj r t'.
Proof. unfold proj. rewrite filter_app, map_app. reflexivity. Qed.
Lemma proj_cons_same r o t : proj r ((r, o) :: t) = o :: proj r t.
Proof. unfold proj. cbn. rewrite Nat.eqb_refl. reflexivity. Qed.
Lemma proj_cons_other r r' o t : r' <> r -> proj r ((r', o) :: t) = proj r t.
Proof. intros H. unfold proj. cbn. apply Nat.eqb_neq in H. rewrite H. reflexivity. Qed.
Lemma proj_split r o : forall t p1 p2, proj r t = p1 ++ o :: p2 ->
  exists u v, t = u ++ (r, o) :: v /\ proj r u = p1 /\ proj r v = p2.
Proof.
  induction t as [|[r' o'] t IH]; intros p1 p2 H; [destruct p1; discriminate|].
  destruct (Nat.eq_dec r' r) as [->|Hn].
  - rewrite proj_cons_same in H. destruct p1 as [|x p1]; injection H as -> H.
    + exists [], t. auto.
    + destruct (IH _ _ H) as (u & v & -> & <- & <-). exists ((r, x) :: u), v. rewrite proj_cons_same. auto.
  - rewrite proj_cons_other in H by auto. destruct (IH _ _ H) as (u & v & -> & <- & <-).
    exists ((r', o') :: u), v. rewrite proj_cons_other by auto. auto.
Qed.
Lemma proj_in r o t : In o (proj r t) <-> In (r, o) t.
Proof.
  unfold proj. rewrite in_map_iff. split.
  - intros ([r' o'] & <- & H). apply filter_In in H. destruct H as [H E]. apply Nat.eqb_eq in E. cbn in E. subst. exact H.
  - intros H. exists (r, o). split; [reflexivity|]. apply filter_In. split; [exact H|]. apply Nat.eqb_refl.
Qed.

Lemma set_rank_get r k : forall l x, nth_error l r = Some x -> nth_error (set_rank r k l) r = Some k.
Proof. induction r as [|r IH]; intros [|y l] x H; cbn in *; try discriminate; [reflexivity|eauto]. Qed.
Lemma set_rank_other r r' k : r <> r' -> forall l, nth_error (set_rank r k l) r' = nth_error l r'.
Proof.
  revert r'. induction r as [|r IH]; intros [|r'] H [|y l]; cbn; try reflexivity; try congruence. apply IH. congruence.
Qed.
Lemma set_rank_length r k : forall l, length (set_rank r k l) = length l.
Proof. induction r as [|r IH]; intros [|y l]; cbn; auto. Qed.

Lemma history_app w t w1 : history w t w1 -> forall t' w2, history w1 t' w2 -> history w (t ++ t') w2.
Proof. induction 1; cbn; auto. intros. econstructor; eauto. Qed.
Lemma history_split t : forall w t' w', history w (t ++ t') w' -> exists w1, history w t w1 /\ history w1 t' w'.
Proof.
  induction t as [|e t IH]; intros w t' w' H; [exists w; split; [constructor|exact H]|].
  inversion H; subst. destruct (IH _ _ _ H5) as (w1 & A & B). exists w1. split; [econstructor; eauto|exact B].
Qed.
Lemma history_todo w t w' : history w t w' -> forall r k, nth_error (ranks w) r = Some k ->
  exists k', nth_error (ranks w') r = Some k' /\ todo k = proj r t ++ todo k'.
Proof.
  induction 1 as [w|w e w' t w'' A H IH]; intros r k Hk; [exists k; auto|].
  inversion A as [w0 r0 o p h Hr Ho]; subst.
  destruct (Nat.eq_dec r0 r) as [->|Hn].
  - rewrite Hr in Hk. injection Hk as <-. edestruct (IH r) as (k' & E & T).
    { cbn [ranks]. eapply set_rank_get; eauto. }
    exists k'. split; [exact E|]. cbn [todo] in *. rewrite proj_cons_same, T. reflexivity.
  - edestruct (IH r) as (k' & E & T).
    { cbn [ranks]. rewrite set_rank_other by exact Hn. exact Hk. }
    exists k'. split; [exact E|]. rewrite proj_cons_other by auto. exact T.
Qed.
Lemma history_ranks w t w' : history w t w' -> Forall (fun e => fst e < length (ranks w)) t /\ length (ranks w') = length (ranks w).
Proof.
  induction 1 as [w|w e w' t w'' A H IH]; [split; [constructor|reflexivity]|].
  inversion A as [w0 r0 o p h Hr Ho]; subst. cbn [ranks] in IH. rewrite set_rank_length in IH. destruct IH as [IH L].
  split; [|exact L]. constructor; [|exact IH]. cbn [fst]. apply nth_error_Some. rewrite Hr. discriminate.
Qed.
Lemma history_all w t w' r k : history w t w' -> completed w' -> nth_error (ranks w) r = Some k -> proj r t = todo k.
Proof.
  intros H C Hk. destruct (history_todo _ _ _ H _ _ Hk) as (k' & E & T).
  apply nth_error_In in E. apply (proj1 (Forall_forall _ _) C) in E. rewrite E, app_nil_r in T. auto.
Qed.

(** *** one name *)
Definition nstate : Type := (inodes * (nat -> option nat))%type.
Definition setn (H : nat -> option nat) (r : nat) (v : option nat) : nat -> option nat := fun r' => if Nat.eqb r r' then v else H r'.
Definition ev (f : name) (s : nstate) (e : nat * op) : nstate :=
  let I := fst s in let H := snd s in let r := fst e in
  match snd e with
  | Unlink g => if name_eqb g f then (mkInodes None (stored I), H) else s
  | Open g => if name_eqb g f then
      match entry I with
      | Some k => (I, setn H r (Some k))
      | None => (mkInodes (Some (length (stored I))) (stored I ++ [[]]), setn H r (Some (length (stored I))))
      end else s
  | Write g t => if name_eqb g f then match H r with Some k => (mkInodes (entry I) (append_at k t (stored I)), H) | None => s end else s
  | Close g => if name_eqb g f then (I, setn H r None) else s
  | Await => s
  end.
Definition sees (f : name) (w : world) (s : nstate) : Prop :=
  dir w f = fst s /\ forall r k, nth_error (ranks w) r = Some k -> handles k f = snd s r.

Lemma acts_ev f w e w' s : acts w e w' -> sees f w s -> sees f w' (ev f s e).
Proof.
  intros A [D Hs]. inversion A as [w0 r o p h Hr Ho]; subst. destruct s as [I H]. cbn [fst snd] in *.
  pose proof (Hs _ _ Hr) as Hh. cbn [handles] in Hh.
  assert (K : forall d' (h' : handle) s', d' f = fst s' -> h' f = snd s' r -> (forall r', r <> r' -> snd s' r' = H r') ->
     sees f (mkWorld d' (set_rank r (mkRank p h') (ranks w))) s').
  { intros d' h' s' Ed Eh Eo. split; [exact Ed|]. cbn [ranks]. intros r' k Hk.
    destruct (Nat.eq_dec r r') as [<-|Hn].
    - rewrite (set_rank_get _ _ _ _ Hr) in Hk. injection Hk as <-. exact Eh.
    - rewrite set_rank_other in Hk by exact Hn. rewrite Eo by exact Hn. eauto. }
  assert (N : forall v, setn H r v r = v) by (intros v; unfold setn; rewrite Nat.eqb_refl; reflexivity).
  assert (N' : forall v r', r <> r' -> setn H r v r' = H r') by (intros v r' Hn; unfold setn; apply Nat.eqb_neq in Hn; rewrite Hn; reflexivity).
  unfold ev. cbn [fst snd].
  destruct o as [g|g|g t|g|]; cbn [do_op fst snd].
  - destruct (name_eqb g f) eqn:E.
    + apply name_eqb_eq in E. subst g. apply K; cbn [fst snd]; [rewrite on_name_same, D; reflexivity|exact Hh|auto].
    + apply K; cbn [fst snd]; [rewrite on_name_other by exact E; exact D|exact Hh|auto].
  - destruct (name_eqb g f) eqn:E.
    + apply name_eqb_eq in E. subst g. rewrite D. destruct (entry I) as [k|]; cbn [fst snd];
        apply K; cbn [fst snd]; rewrite ?on_name_same, ?N; auto. all: exact D.
    + destruct (entry (dir w g)); cbn [fst snd]; apply K; cbn [fst snd]; rewrite ?on_name_other by exact E; auto.
  - destruct (name_eqb g f) eqn:E.
    + apply name_eqb_eq in E. subst g. rewrite Hh. destruct (H r) as [k|] eqn:EH; cbn [fst snd]; apply K; cbn [fst snd]; rewrite ?on_name_same, ?D; congruence || auto.
    + destruct (h g); cbn [fst snd]; apply K; cbn [fst snd]; rewrite ?on_name_other by exact E; auto.
  - destruct (name_eqb g f) eqn:E.
    + apply name_eqb_eq in E. subst g. apply K; cbn [fst snd]; rewrite ?on_name_same, ?N; auto.
    + apply K; cbn [fst snd]; rewrite ?on_name_other by exact E; auto.
  - apply K; auto.
Qed.
Lemma history_ev f w t w' : history w t w' -> forall s, sees f w s -> sees f w' (fold_left (ev f) t s).
Proof. induction 1 as [w|w e w' t w'' A H IH]; intros s Hs; [exact Hs|]. cbn. apply IH. eapply acts_ev; eauto. Qed.

(** only the operations on f matter *)
Definition on (f : name) (o : op) : bool :=
  match o with Unlink g | Open g | Write g _ | Close g => name_eqb g f | Await => false end.
Definition about (f : name) (t : list (nat * op)) : list (nat * op) := filter (fun e => on f (snd e)) t.
Lemma ev_about f : forall t s, fold_left (ev f) (about f t) s = fold_left (ev f) t s.
Proof.
  induction t as [|[r o] t IH]; intros s; [reflexivity|]. unfold about in *. cbn [filter snd]. destruct (on f o) eqn:E.
  - cbn [fold_left]. apply IH.
  - cbn [fold_left]. rewrite IH. f_equal. unfold ev. cbn [fst snd]. destruct o; cbn in E; rewrite ?E; reflexivity.
Qed.
Lemma proj_about f r t : proj r (about f t) = filter (on f) (proj r t).
Proof.
  unfold proj, about. induction t as [|[r' o] t IH]; [reflexivity|]. cbn [filter snd fst].
  destruct (on f o) eqn:E; destruct (Nat.eqb r' r) eqn:E'; cbn [filter map snd fst]; rewrite ?E, ?E'; cbn [map snd]; rewrite IH; reflexivity.
Qed.

(** *** which writes end up in the file created after the last removal *)
Definition setb (H : nat -> bool) (r : nat) (v : bool) : nat -> bool := fun r' => if Nat.eqb r r' then v else H r'.
Fixpoint keep (f : name) (b : nat -> bool) (t : list (nat * op)) : list (nat * text) :=
  match t with
  | [] => []
  | (r, o) :: t' =>
      match o with
      | Open g => keep f (if name_eqb g f then setb b r true else b) t'
      | Close g => keep f (if name_eqb g f then setb b r false else b) t'
      | Write g c => (if name_eqb g f && b r then [(r, c)] else []) ++ keep f b t'
      | _ => keep f b t'
      end
  end.
Fixpoint after (f : name) (b : nat -> bool) (t : list (nat * op)) : nat -> bool :=
  match t with
  | [] => b
  | (r, o) :: t' =>
      match o with
      | Open g => after f (if name_eqb g f then setb b r true else b) t'
      | Close g => after f (if name_eqb g f then setb b r false else b) t'
      | _ => after f b t'
      end
  end.
Lemma keep_app f : forall t b t', keep f b (t ++ t') = keep f b t ++ keep f (after f b t) t'.
Proof. induction t as [|[r []] t IH]; intros b t'; cbn; rewrite ?IH, ?app_assoc; reflexivity. Qed.

(** the same, seen by one process *)
Fixpoint keepl (f : name) (b : bool) (p : list op) : list text :=
  match p with
  | [] => []
  | o :: p' =>
      match o with
      | Open g => keepl f (if name_eqb g f then true else b) p'
      | Close g => keepl f (if name_eqb g f then false else b) p'
      | Write g c => (if name_eqb g f && b then [c] else []) ++ keepl f b p'
      | _ => keepl f b p'
      end
  end.
Definition of_rank (r : nat) (l : list (nat * text)) : list text := map snd (filter (fun e => Nat.eqb (fst e) r) l).
Lemma of_rank_app r l l' : of_rank r (l ++ l') = of_rank r l ++ of_rank r l'.
Proof. unfold of_rank. rewrite filter_app, map_app. reflexivity. Qed.
Lemma keep_rank f r : forall t b, of_rank r (keep f b t) = keepl f (b r) (proj r t).
Proof.
  induction t as [|[r' o] t IH]; intros b; [reflexivity|].
  assert (S : forall v, setb b r' v r = if Nat.eqb r' r then v else b r) by (intros v; reflexivity).
  unfold proj in *. cbn [filter fst].
  destruct (Nat.eqb r' r) eqn:E; cbn [map snd].
  - destruct o as [g|g|g c|g|]; cbn [keep keepl]; rewrite ?of_rank_app, ?IH; auto.
    + destruct (name_eqb g f); rewrite ?S; reflexivity.
    + apply Nat.eqb_eq in E. subst r'. destruct (name_eqb g f && b r); [|reflexivity]. unfold of_rank. cbn. rewrite Nat.eqb_refl. reflexivity.
    + destruct (name_eqb g f); rewrite ?S; reflexivity.
  - destruct o as [g|g|g c|g|]; cbn [keep]; rewrite ?of_rank_app, ?IH; auto.
    + destruct (name_eqb g f); rewrite ?S; reflexivity.
    + destruct (name_eqb g f && b r'); [|reflexivity]. unfold of_rank. cbn. rewrite E. reflexivity.
    + destruct (name_eqb g f); rewrite ?S; reflexivity.
Qed.

Lemma append_length k t : forall l, length (append_at k t l) = length l.
Proof. induction k as [|k IH]; intros [|u l]; cbn; auto. Qed.
Lemma append_same k t : forall l u, nth_error l k = Some u -> nth_error (append_at k t l) k = Some (u ++ t).
Proof. induction k as [|k IH]; intros [|v l] u H; cbn in *; try discriminate; [injection H as ->; reflexivity|eauto]. Qed.
Lemma append_other k k' t : k <> k' -> forall l, nth_error (append_at k t l) k' = nth_error l k'.
Proof.
  revert k'. induction k as [|k IH]; intros [|k'] H [|v l]; cbn; try reflexivity; try congruence. apply IH. congruence.
Qed.

Section Kept.
Context (f : name) (n0 : nat).
Definition inv (kept : list (nat * text)) (b : nat -> bool) (s : nstate) : Prop :=
  (forall r, b r = true <-> snd s r = Some n0) /\
  (entry (fst s) = None /\ length (stored (fst s)) = n0 /\ kept = [] /\ (forall r, b r = false) \/
   entry (fst s) = Some n0 /\ length (stored (fst s)) = S n0 /\ nth_error (stored (fst s)) n0 = Some (concat (map snd kept))).
Definition quiet (e : nat * op) : Prop := snd e <> Unlink f.

Lemma inv_step kept b s e : inv kept b s -> quiet e ->
  inv (kept ++ keep f b [e]) (after f b [e]) (ev f s e) /\
  (entry (fst s) <> None \/ snd e = Open f -> entry (fst (ev f s e)) <> None).
Proof.
  intros [Hb HI] Hq. destruct e as [r o]. destruct s as [I H]. cbn [fst snd] in *. unfold quiet in Hq. cbn [snd] in Hq.
  assert (NC : forall l l' : list (nat * text), concat (map snd (l ++ l')) = concat (map snd l) ++ concat (map snd l')) by (intros; rewrite map_app, concat_app; reflexivity).
  unfold ev. cbn [fst snd keep after].
  destruct o as [g|g|g c|g|]; try rewrite !app_nil_r; try (split; [split; [exact Hb|exact HI]|intros [K|K]; [exact K|discriminate]]).
  - destruct (name_eqb g f) eqn:E; [apply name_eqb_eq in E; congruence|]. split; [split; [exact Hb|exact HI]|intros [K|K]; [exact K|discriminate]].
  - destruct (name_eqb g f) eqn:E; [|split; [split; [exact Hb|exact HI]|]; intros [K|K]; [exact K|injection K as ->; rewrite name_eqb_refl in E; discriminate]].
    destruct HI as [(E0 & L & Hk & Hn)|(E0 & L & N)]; rewrite E0; cbn [entry fst snd stored].
    + split; [|intros _; discriminate]. split.
      * intros r'. unfold setb, setn. cbn [snd]. destruct (Nat.eqb r r'); [rewrite L; tauto|apply Hb].
      * right. cbn [fst entry stored]. rewrite app_length, L. cbn. split; [reflexivity|]. split; [lia|].
        rewrite nth_error_app2 by lia. rewrite L, Nat.sub_diag, Hk. reflexivity.
    + split; [|intros _; cbn; congruence]. split.
      * intros r'. unfold setb, setn. cbn [snd]. destruct (Nat.eqb r r'); [tauto|apply Hb].
      * right. cbn [fst]. auto.
  - destruct (name_eqb g f) eqn:E; cbn [andb].
    2:{ cbn. rewrite app_nil_r. split; [split; [exact Hb|exact HI]|intros [K|K]; [exact K|discriminate]]. }
    destruct (H r) as [k|] eqn:EH.
    + destruct (b r) eqn:EB; cbn [app].
      * apply Hb in EB. rewrite EH in EB. injection EB as ->.
        destruct HI as [(E0 & L & Hk & Hn)|(E0 & L & N)].
        { specialize (Hn r). apply Hb in EH. congruence. }
        split; [|intros _; cbn; congruence]. split; [exact Hb|]. right. cbn [fst entry stored].
        rewrite append_length, NC, (append_same _ _ _ _ N). cbn. rewrite app_nil_r. auto.
      * rewrite app_nil_r. assert (Hk : k <> n0) by (intros ->; apply Hb in EH; congruence).
        split; [|intros [K|K]; [exact K|discriminate]]. split; [exact Hb|]. cbn [fst entry stored]. rewrite append_length, append_other by exact Hk. exact HI.
    + destruct (b r) eqn:EB; [apply Hb in EB; congruence|]. cbn. rewrite app_nil_r.
      split; [split; [exact Hb|exact HI]|intros [K|K]; [exact K|discriminate]].
  - destruct (name_eqb g f) eqn:E; [|split; [split; [exact Hb|exact HI]|]; intros [K|K]; [exact K|discriminate]].
    split; [|intros [K|K]; [exact K|discriminate]]. split.
    + intros r'. unfold setb, setn. cbn [snd]. destruct (Nat.eqb r r'); [split; discriminate|apply Hb].
    + cbn [fst]. destruct HI as [(E0 & L & Hk & Hn)|HI]; [left|right; exact HI]. repeat split; auto.
      intros r'. unfold setb. destruct (Nat.eqb r r'); auto.
Qed.
Lemma inv_run : forall t kept b s, inv kept b s -> Forall quiet t ->
  inv (kept ++ keep f b t) (after f b t) (fold_left (ev f) t s) /\
  (entry (fst s) <> None \/ (exists r, In (r, Open f) t) -> entry (fst (fold_left (ev f) t s)) <> None).
Proof.
  induction t as [|e t IH]; intros kept b s HI Hq.
  - cbn. rewrite app_nil_r. split; [exact HI|]. intros [K|(r & [])]. exact K.
  - inversion Hq; subst. destruct (inv_step _ _ _ _ HI H1) as [H3 H4]. destruct (IH _ _ _ H3 H2) as [H5 H6].
    assert (EK : keep f b (e :: t) = keep f b [e] ++ keep f (after f b [e]) t) by (apply (keep_app f [e])).
    assert (EA : after f b (e :: t) = after f (after f b [e]) t) by (destruct e as [r []]; reflexivity).
    rewrite EK, EA, app_assoc. split; [exact H5|]. intros [K|(r & [K|K])]; apply H6; [left; auto|left; apply H4; right; subst e; reflexivity|right; eauto].
Qed.
End Kept.

(** old handles never point to the file created next *)
Definition fits (s : nstate) : Prop := (forall k, entry (fst s) = Some k -> k < length (stored (fst s))) /\ forall r k, snd s r = Some k -> k < length (stored (fst s)).
Lemma fits_step f s e : fits s -> fits (ev f s e).
Proof.
  intros [A B]. destruct s as [I H], e as [r o]. cbn [fst snd] in *. unfold ev. cbn [fst snd].
  assert (G : forall v r' k, (forall j, v = Some j -> j < length (stored I)) -> setn H r v r' = Some k -> k < length (stored I)).
  { intros v r' k Hv. unfold setn. destruct (Nat.eqb r r'); eauto. }
  destruct o as [g|g|g c|g|]; try (split; assumption); destruct (name_eqb g f); try (split; assumption).
  - split; cbn; [discriminate|exact B].
  - destruct (entry I) as [k|] eqn:E.
    + split; cbn [fst snd]; [rewrite E; exact A|]. intros r' k'. apply G. intros j [= <-]. auto.
    + split; cbn [fst snd entry stored]; rewrite app_length; cbn.
      * intros k [= <-]. lia.
      * intros r' k'. unfold setn. destruct (Nat.eqb r r'); [intros [= <-]; lia|]. intros Hk. apply B in Hk. lia.
  - destruct (H r); [|split; assumption]. split; cbn [fst snd entry stored]; rewrite append_length; assumption.
  - split; cbn [fst snd]; [exact A|]. intros r' k'. apply G. discriminate.
Qed.
Lemma fits_run f : forall t s, fits s -> fits (fold_left (ev f) t s).
Proof. induction t as [|e t IH]; intros s H; [exact H|]. cbn. apply IH, fits_step, H. Qed.

(** the contents after the last removal of f *)
Lemma last_removal f s t1 a t2 : fits s -> Forall (quiet f) t2 -> (exists r, In (r, Open f) t2) ->
  let s' := fold_left (ev f) (t1 ++ (a, Unlink f) :: t2) s in
  exists k, entry (fst s') = Some k /\ nth_error (stored (fst s')) k = Some (concat (map snd (keep f (fun _ => false) t2))).
Proof.
  intros Hf Hq Ho s'. unfold s'. rewrite fold_left_app. cbn [fold_left].
  pose proof (fits_run f t1 s Hf) as [_ F]. set (s1 := fold_left (ev f) t1 s) in *.
  assert (E1 : ev f s1 (a, Unlink f) = (mkInodes None (stored (fst s1)), snd s1)) by (unfold ev; cbn [fst snd]; rewrite name_eqb_refl; reflexivity).
  rewrite E1. destruct (inv_run f (length (stored (fst s1))) t2 [] (fun _ => false) (mkInodes None (stored (fst s1)), snd s1)) as [[_ HI] He]; [|exact Hq|].
  - split; cbn [fst snd entry stored].
    + intros r. split; [discriminate|]. intros K. apply F in K. lia.
    + left. auto.
  - specialize (He (or_intror Ho)). cbn [app] in HI. destruct HI as [(K & _)|(K & _ & N)]; [congruence|]. eauto.
Qed.
