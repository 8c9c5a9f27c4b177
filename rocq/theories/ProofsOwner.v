(** Proofs about InputFields objects. *)
From Coq Require Import ZArith List String Lia Permutation.
From Verif Require Import Base Num ModelVec ModelAnalytic ModelParser SpecParser ModelOwner SpecOwner.
Import ListNotations.
Open Scope list_scope.
Open Scope Z_scope.

Lemma sec_eqb_eq a b : sec_eqb a b = true <-> a = b.
Proof. destruct a, b; cbn; split; congruence. Qed.
Lemma fld_eqb_eq a b : fld_eqb a b = true <-> a = b.
Proof. unfold fld_eqb. destruct (fld_eq_dec a b); split; congruence. Qed.
Lemma sec_eqb_refl a : sec_eqb a a = true. Proof. now apply sec_eqb_eq. Qed.
Lemma fld_eqb_refl a : fld_eqb a a = true. Proof. now apply fld_eqb_eq. Qed.
Lemma in_secs s : In s secs. Proof. destruct s; cbn; tauto. Qed.

Lemma find_key {A} (l : list (Z * A)) p : find (fun e => fst e =? p) l <> None <-> In p (map fst l).
Proof.
  induction l as [|[q a] l IH]; cbn; [split; [congruence|tauto]|].
  destruct (Z.eqb_spec q p) as [->|E]; [split; [tauto|congruence]|]. rewrite IH. split; [tauto|]. intros [|]; tauto.
Qed.
Lemma find_fst {A} (l : list (Z * A)) p a : find (fun e => fst e =? p) l = Some a -> fst a = p.
Proof. intros H. apply find_some in H. destruct H as [_ H]. now apply Z.eqb_eq in H. Qed.

Section Heap.
Context {T : Type}.
Implicit Types (h : heap (T := T)) (p q : Z) (c : cell T).
Definition keys h := map fst (h_cells h).
Lemma load_ok h p : (exists c, load h p = Ok c) <-> In p (keys h).
Proof.
  unfold load, keys. rewrite <- find_key. destruct (find _ _) as [[q c]|]; split; try congruence; eauto. intros [c E]. discriminate.
Qed.
Lemma load_bad h p : ~ In p (keys h) -> load h p = UB Dangling.
Proof.
  unfold load, keys. rewrite <- find_key. destruct (find _ _) as [[q c]|]; [|reflexivity]. intros H. exfalso. apply H. discriminate.
Qed.
Lemma store_ok h p c : In p (keys h) -> exists h', store h p c = Ok h' /\ h_next h' = h_next h /\ keys h' = keys h /\ load h' p = Ok c /\ forall q, q <> p -> load h' q = load h q.
Proof.
  unfold store, keys, load. intros I. pose proof I as I'. rewrite <- find_key in I. destruct (find _ _) as [a|] eqn:E; [|congruence]. clear I.
  eexists. split; [reflexivity|]. cbn. repeat split.
  - rewrite map_map. apply map_ext. intros [q d]. cbn. destruct (Z.eqb_spec q p); cbn; congruence.
  - clear E a. induction (h_cells h) as [|[q d] l IH]; [destruct I'|]. cbn. destruct (Z.eqb_spec q p) as [->|N]; cbn.
    + now rewrite Z.eqb_refl.
    + destruct (Z.eqb_spec q p); [congruence|]. apply IH. destruct I' as [E|I']; [cbn in E; congruence|exact I'].
  - intros q N. clear E a I'. induction (h_cells h) as [|[r d] l IH]; [reflexivity|]. cbn. destruct (Z.eqb_spec r p) as [->|M]; cbn.
    + destruct (Z.eqb_spec p q); [congruence|]. exact IH.
    + destruct (Z.eqb_spec r q); [reflexivity|]. exact IH.
Qed.
Lemma store_bad h p c : ~ In p (keys h) -> store h p c = UB Dangling.
Proof.
  unfold store, keys. rewrite <- find_key. destruct (find _ _); [|reflexivity]. intros H. exfalso. apply H. discriminate.
Qed.
Lemma delete_bad h p : ~ In p (keys h) -> delete h p = UB Dangling.
Proof.
  unfold delete, keys. rewrite <- find_key. destruct (find _ _); [|reflexivity]. intros H. exfalso. apply H. discriminate.
Qed.
Lemma filter_keys (l : list (Z * cell T)) p : map fst (filter (fun e => negb (fst e =? p)) l) = filter (fun q => negb (q =? p)) (map fst l).
Proof. induction l as [|[q d] l IH]; [reflexivity|]. cbn. destruct (q =? p); cbn; congruence. Qed.
Lemma delete_ok h p : In p (keys h) -> exists h', delete h p = Ok h' /\ h_next h' = h_next h /\ keys h' = filter (fun q => negb (q =? p)) (keys h) /\
  forall q, q <> p -> load h' q = load h q.
Proof.
  unfold delete, keys, load. intros I. rewrite <- find_key in I. destruct (find _ _) as [a|] eqn:E; [|congruence]. clear I E.
  eexists. split; [reflexivity|]. cbn. repeat split; [apply filter_keys|].
  intros q N. induction (h_cells h) as [|[r d] l IH]; [reflexivity|]. cbn. destruct (Z.eqb_spec r p) as [->|M]; cbn.
  - destruct (Z.eqb_spec p q); [congruence|]. exact IH.
  - destruct (Z.eqb_spec r q); [reflexivity|]. exact IH.
Qed.
Lemma filter_id (l : list Z) p : ~ In p l -> filter (fun q => negb (q =? p)) l = l.
Proof. induction l as [|q l IH]; [reflexivity|]. cbn. intros H. destruct (Z.eqb_spec q p); [exfalso; apply H; now left|]. cbn. f_equal. apply IH. tauto. Qed.
Lemma filter_perm (l m : list Z) p : Permutation l m -> Permutation (filter (fun q => negb (q =? p)) l) (filter (fun q => negb (q =? p)) m).
Proof.
  induction 1; cbn; [constructor| | |eapply perm_trans; eauto].
  - destruct (negb _); [constructor|]; assumption.
  - destruct (x =? p), (y =? p); cbn; try apply Permutation_refl. apply perm_swap.
Qed.
(** the records of an object are deleted one after the other *)
Lemma destroy_ok (l : list sec) (o : handle) h rest : Permutation (keys h) (map o l ++ rest) -> NoDup (map o l ++ rest) ->
  exists h', destroy l o h = Ok h' /\ h_next h' = h_next h /\ Permutation (keys h') rest /\ forall q, In q rest -> load h' q = load h q.
Proof.
  revert h; induction l as [|s l IH]; intros h P N; cbn.
  - exists h. repeat split; auto.
  - cbn in P, N. inversion N as [|? ? N1 N2]; subst.
    destruct (delete_ok h (o s)) as (h1 & E & Hn & K & L); [eapply Permutation_in; [apply Permutation_sym, P|now left]|].
    rewrite E. cbn.
    destruct (IH h1) as (h2 & E2 & Hn2 & P2 & L2); [|exact N2|].
    + rewrite K. apply (filter_perm _ _ (o s)) in P. cbn in P. rewrite Z.eqb_refl in P. cbn in P. rewrite (filter_id (map o l ++ rest)) in P by exact N1. exact P.
    + exists h2. repeat split; [exact E2|congruence|exact P2|]. intros q I. rewrite L2 by exact I. apply L. intros ->. apply N1. apply in_or_app. now right.
Qed.
End Heap.

Section Owner.
Context {T : Type} {NT : Num T} (dbl : string -> option T) (int : string -> option Z) (nul : option string) (bt : bool).
Implicit Types (h : heap (T := T)) (o : handle) (fs : values T).
Notation assign := (assign (T := T)).
Notation parse_secs := (parse_secs dbl int nul bt).
Notation entries := (entries dbl int nul bt).
Notation lines := (lines dbl int nul bt).

Definition holds_at h o fs := forall s f, omap (fun c => c f) (load h (o s)) = Ok (fs s f).
Lemma load_omap h p g : omap (fun c : cell T => c g) (load h p) = match load h p with Ok c => Ok (c g) | UB e => UB e | Exit n => Exit n | Throw => Throw end.
Proof. reflexivity. Qed.
Lemma holds_in h o fs s : holds_at h o fs -> In (o s) (keys h).
Proof.
  intros H. apply load_ok. specialize (H s name). rewrite load_omap in H. destruct (load h (o s)); try discriminate. eauto.
Qed.
Lemma apart o s s' : NoDup (map o secs) -> s <> s' -> o s <> o s'.
Proof.
  unfold secs. cbn. intros N H E. rewrite !NoDup_cons_iff in N. cbn in N. destruct s, s'; try congruence; rewrite E in N; tauto.
Qed.
Lemma fill_app es es' fs : fill (es ++ es') fs = match fill es fs with (fs', Ok _) => fill es' fs' | r => r end.
Proof.
  revert fs; induction es as [|[[s f] [x|e|n|]] es IH]; intros fs; cbn; auto.
Qed.
(** one section *)
Lemma assign_fill ls y s o h fs : NoDup (map o secs) -> holds_at h o fs ->
  let r := assign ls y (o s) h in let r' := fill (map (fun l => (s, fst l, snd l y)) ls) fs in
  snd r = snd r' /\ holds_at (fst r) o (fst r') /\ keys (fst r) = keys h /\ h_next (fst r) = h_next h /\
  forall q, q <> o s -> load (fst r) q = load h q.
Proof.
  intros N. revert h fs; induction ls as [|[f g] ls IH]; intros h fs H; cbn.
  - repeat split; auto.
  - destruct (g y) as [x|e|n|]; cbn; try (repeat split; auto; fail).
    pose proof (holds_in h o fs s H) as I. apply load_ok in I as [c Ec]. rewrite Ec. cbn.
    destruct (store_ok h (o s) (put c f x)) as (h1 & E1 & Hn & K & L & L'); [apply load_ok; eauto|]. rewrite E1.
    destruct (IH h1 (set_value fs s f x)) as (A & B & C & D & F).
    + intros s' f'. unfold set_value. destruct (sec_eqb s s') eqn:Es; cbn [andb].
      * apply sec_eqb_eq in Es. subst s'. rewrite L. cbn. unfold put. pose proof (H s f') as Hf. rewrite Ec in Hf. cbn in Hf.
        destruct (fld_eqb f f'); [reflexivity|]. congruence.
      * rewrite L'; [apply H|]. apply apart; [exact N|]. intros ->. rewrite sec_eqb_refl in Es. discriminate.
    + repeat split; auto; try congruence. intros q Q. rewrite F by exact Q. apply L'. exact Q.
Qed.
Lemma yfind_entry (kvs : list (string * yaml)) k : yfind kvs k = entry kvs k.
Proof. induction kvs as [|[k' v] kvs IH]; [reflexivity|]. cbn. unfold entry. cbn. destruct (String.eqb k' k); [reflexivity|exact IH]. Qed.
Definition map_entries (kvs : list (string * yaml)) (l : list sec) : list (sec * fld * outcome (value T)) :=
  flat_map (fun s => match entry kvs (sec_key s) with None => [] | Some y => map (fun l => (s, fst l, snd l (Some y))) (lines s) end) l.
Lemma parse_map kvs l o h fs : NoDup (map o secs) -> holds_at h o fs ->
  let r := parse_secs l (YMap kvs) o h in let r' := fill (map_entries kvs l) fs in
  snd r = snd r' /\ holds_at (fst r) o (fst r') /\ keys (fst r) = keys h /\ h_next (fst r) = h_next h /\
  forall q, ~ In q (map o secs) -> load (fst r) q = load h q.
Proof.
  intros N. revert h fs; induction l as [|s l IH]; intros h fs H; cbn.
  - repeat split; auto.
  - rewrite yfind_entry. destruct (entry kvs (sec_key s)) as [y|].
    + rewrite fill_app. pose proof (assign_fill (lines s) (Some y) s o h fs N H) as (A & B & C & D & F).
      assert (Q : forall q, ~ In q (map o secs) -> q <> o s) by (intros q I ->; apply I, in_map, in_secs).
      destruct (assign (lines s) (Some y) (o s) h) as [h1 r1], (fill _ fs) as [fs1 r1'] eqn:Ef. cbn [fst snd] in *. subst r1'.
      destruct r1; cbn; try (repeat split; auto; fail).
      destruct (IH h1 fs1 B) as (A' & B' & C' & D' & F').
      repeat split; auto; try congruence. intros q I. rewrite F' by exact I. apply F, Q, I.
    + apply IH. exact H.
Qed.
Lemma parse_fill doc o h fs : NoDup (map o secs) -> holds_at h o fs ->
  let r := parse_secs secs doc o h in let r' := fill (entries doc) fs in
  snd r = snd r' /\ holds_at (fst r) o (fst r') /\ keys (fst r) = keys h /\ h_next (fst r) = h_next h /\
  forall q, ~ In q (map o secs) -> load (fst r) q = load h q.
Proof.
  intros N H. destruct doc; cbn [SpecOwner.entries]; try (cbn; repeat split; auto; fail). apply parse_map; assumption.
Qed.

(** the state of a program and the values of its variables *)
Definition ptrs (l : list (Z * handle)) : list Z := flat_map (fun a => map (snd a) secs) l.
Record good (w : world (T := T)) (e : list (Z * values T)) : Prop := {
  g_vars : Forall2 (fun a b => fst a = fst b /\ holds_at (w_heap w) (snd a) (snd b)) (w_vars w) e;
  g_uniq : NoDup (map fst e);
  g_ptrs : NoDup (ptrs (w_vars w));
  g_keys : Permutation (keys (w_heap w)) (ptrs (w_vars w));
  g_next : forall p, In p (keys (w_heap w)) -> p < h_next (w_heap w) }.
Lemma good0 : good world0 [].
Proof. constructor; cbn; try constructor; tauto. Qed.

Lemma var_related w e v : good w e ->
  match find_var e v with
  | Ok fs => exists o a b, var w v = Ok o /\ w_vars w = a ++ (v, o) :: b /\ holds_at (w_heap w) o fs /\
      exists a' b', e = a' ++ (v, fs) :: b' /\ Forall2 (fun a b => fst a = fst b /\ holds_at (w_heap w) (snd a) (snd b)) a a' /\
        Forall2 (fun a b => fst a = fst b /\ holds_at (w_heap w) (snd a) (snd b)) b b'
  | _ => var w v = UB Dangling /\ find_var e v = UB Dangling /\ ~ In v (map fst e)
  end.
Proof.
  intros G. pose proof (g_vars _ _ G) as V. unfold find_var, var. clear G.
  induction V as [|[v1 o1] [v1' fs1] l l' [E H] V IH]; cbn; [auto|]. cbn in E. subst v1'.
  destruct (Z.eqb_spec v1 v) as [->|D].
  - exists o1, [], l. split; [reflexivity|]. split; [reflexivity|]. split; [exact H|]. exists [], l'. split; [reflexivity|]. split; [constructor|exact V].
  - destruct (find (fun a => fst a =? v) l') as [[v2 fs2]|] eqn:F.
    + destruct IH as (o & a & b & A & B & C & a' & b' & D1 & D2 & D3).
      exists o, ((v1, o1) :: a), b. split; [exact A|]. split; [now rewrite B|]. split; [exact C|]. exists ((v1, fs1) :: a'), b'.
      split; [now rewrite D1|]. split; [constructor; [split; [reflexivity|exact H]|exact D2]|exact D3].
    + destruct IH as (A & _ & B). repeat split; auto. intros [I|I]; [congruence|tauto].
Qed.
Lemma ptrs_app a b : ptrs (a ++ b) = ptrs a ++ ptrs b.
Proof. apply flat_map_app. Qed.
Lemma ptrs_cons a b : ptrs (a :: b) = map (snd a) secs ++ ptrs b. Proof. reflexivity. Qed.
Lemma filter_skip {A} (v : Z) (l : list (Z * A)) : ~ In v (map fst l) -> filter (fun e => negb (fst e =? v)) l = l.
Proof. induction l as [|[q d] l IH]; [reflexivity|]. cbn. intros H. destruct (Z.eqb_spec q v); [exfalso; apply H; now left|]. cbn. f_equal. apply IH. tauto. Qed.
Lemma map_skip {A} (v : Z) (x : A) (l : list (Z * A)) : ~ In v (map fst l) -> map (fun e => if fst e =? v then (v, x) else e) l = l.
Proof. induction l as [|[q d] l IH]; [reflexivity|]. cbn. intros H. destruct (Z.eqb_spec q v); [exfalso; apply H; now left|]. f_equal. apply IH. tauto. Qed.
Lemma same_names w e : good w e -> map fst (w_vars w) = map fst e.
Proof. intros G. pose proof (g_vars _ _ G) as V. clear G. induction V as [|? ? ? ? [E _] _ IH]; cbn; congruence. Qed.
Lemma in_ptrs o v l p : In (v, o) l -> In p (map o secs) -> In p (ptrs l).
Proof. intros I P. apply in_flat_map. exists (v, o). auto. Qed.
Lemma nodup_l {A} (a b : list A) : NoDup (a ++ b) -> NoDup a.
Proof. induction a as [|x a IH]; cbn; [constructor|]. inversion 1; subst. constructor; [intros I; apply H2, in_or_app; now left|auto]. Qed.
Lemma nodup_r {A} (a b : list A) : NoDup (a ++ b) -> NoDup b.
Proof. induction a as [|x a IH]; cbn; [auto|]. inversion 1; subst. auto. Qed.
Lemma nodup_mid {A} (a b c : list A) : NoDup (a ++ b ++ c) -> NoDup b /\ (forall x, In x b -> ~ In x a /\ ~ In x c) /\ NoDup (a ++ c).
Proof.
  intros N. pose proof (Permutation_app_comm a (b ++ c)) as P. rewrite <- app_assoc in P.
  pose proof (Permutation_NoDup P N) as N1. pose proof N1 as N2. apply nodup_l in N1. split; [exact N1|].
  assert (D : forall x, In x b -> ~ In x (c ++ a)).
  { clear -N2. induction b as [|y b IH]; [intros x []|]. cbn in N2. inversion N2; subst. intros x [->|I]; [intros J; apply H1; apply in_or_app; tauto|]. apply IH; assumption. }
  split.
  - intros x I. specialize (D x I). split; intros J; apply D; apply in_or_app; tauto.
  - apply nodup_r in N2. eapply Permutation_NoDup; [apply Permutation_app_comm|exact N2].
Qed.
Lemma other_same h h' a b (R : forall v o p, In (v, o) a -> In p (map o secs) -> load h' p = load h p) :
  Forall2 (fun (x : Z * handle) (y : Z * values T) => fst x = fst y /\ holds_at h (snd x) (snd y)) a b ->
  Forall2 (fun (x : Z * handle) (y : Z * values T) => fst x = fst y /\ holds_at h' (snd x) (snd y)) a b.
Proof.
  induction 1 as [|[v o] y a b [E H] F IH]; constructor.
  - split; [exact E|]. cbn [snd] in *. intros s f. rewrite (R v o (o s)); [apply H|now left|apply in_map, in_secs].
  - apply IH. intros v' o' p I. apply (R v' o' p). now right.
Qed.

Lemma make_good w e v : good w e -> ~ In v (map fst e) ->
  let r := construct secs (w_heap w) (fun _ => 0) in good (set_var (mkWorld (fst r) (w_vars w)) v (snd r)) ((v, new_cell) :: e).
Proof.
  intros G NI. cbn. set (n := h_next (w_heap w)) in *. pose proof (same_names _ _ G) as SN.
  assert (FR : forall p, In p (ptrs (w_vars w)) -> p < n).
  { intros p I. apply (g_next _ _ G). eapply Permutation_in; [apply Permutation_sym, (g_keys _ _ G)|exact I]. }
  unfold set_var. cbn. rewrite filter_skip by (rewrite SN; exact NI). constructor; cbn [w_vars w_heap].
  - constructor.
    + split; [reflexivity|]. cbn. intros s f. unfold load. cbn.
      destruct s; cbn; repeat (match goal with |- context [?a =? ?b] => destruct (Z.eqb_spec a b); try lia end); cbn; reflexivity.
    + apply (other_same (w_heap w)); [|apply (g_vars _ _ G)]. intros v' o p I P. pose proof (FR p (in_ptrs o v' _ p I P)) as L. unfold load. cbn.
      repeat (match goal with |- context [?a =? ?b] => destruct (Z.eqb_spec a b); try lia end); reflexivity.
  - cbn. constructor; [exact NI|apply (g_uniq _ _ G)].
  - cbn. repeat constructor; cbn; try lia; try (intros I; repeat (destruct I as [I|I]; [lia|]); apply FR in I; lia). apply (g_ptrs _ _ G).
  - unfold keys. cbn. set (p1 := n + 1 + 1 + 1 + 1). set (p2 := n + 1 + 1 + 1). set (p3 := n + 1 + 1). set (p4 := n + 1).
    apply (perm_trans (l' := p1 :: p2 :: p3 :: p4 :: n :: ptrs (w_vars w))).
    { repeat apply perm_skip. apply (g_keys _ _ G). }
    change (Permutation ([p1; p2; p3; p4; n] ++ ptrs (w_vars w)) ([n; p4; p3; p2; p1] ++ ptrs (w_vars w))).
    apply Permutation_app_tail. change [n; p4; p3; p2; p1] with (rev [p1; p2; p3; p4; n]). apply Permutation_rev.
  - unfold keys. cbn. intros p I. repeat (destruct I as [<-|I]; [lia|]). specialize (g_next _ _ G p I). fold n. lia.
Qed.

Lemma parse_good w e v o fs doc a b a' b' : good w e -> w_vars w = a ++ (v, o) :: b -> e = a' ++ (v, fs) :: b' -> holds_at (w_heap w) o fs ->
  Forall2 (fun a b => fst a = fst b /\ holds_at (w_heap w) (snd a) (snd b)) a a' ->
  Forall2 (fun a b => fst a = fst b /\ holds_at (w_heap w) (snd a) (snd b)) b b' ->
  let r := parse_secs secs doc o (w_heap w) in let r' := fill (entries doc) fs in
  snd r = snd r' /\ good (mkWorld (fst r) (w_vars w)) (map (fun x => if fst x =? v then (v, fst r') else x) e).
Proof.
  intros G Ew Ee H Fa Fb r r'. pose proof (g_ptrs _ _ G) as N. rewrite Ew, ptrs_app, ptrs_cons in N. cbn [snd] in N.
  apply nodup_mid in N. destruct N as (N1 & N2 & N3).
  destruct (parse_fill doc o (w_heap w) fs N1 H) as (A & B & C & D & F). fold r r' in A, B, C, D, F.
  split; [exact A|].
  pose proof (g_uniq _ _ G) as U. rewrite Ee, map_app in U. cbn in U. apply NoDup_remove_2 in U.
  assert (Em : map (fun x => if fst x =? v then (v, fst r') else x) e = a' ++ (v, fst r') :: b').
  { rewrite Ee, map_app. cbn. rewrite Z.eqb_refl. f_equal; [|f_equal]; apply map_skip; intros I; apply U; apply in_or_app; tauto. }
  rewrite Em. constructor; cbn [w_vars w_heap].
  - rewrite Ew. apply Forall2_app; [|constructor].
    + apply (other_same (w_heap w)); [|exact Fa]. intros v' o' p I P. apply F. intros J. apply (proj1 (N2 p J)). apply (in_ptrs o' v' a p I P).
    + split; [reflexivity|exact B].
    + apply (other_same (w_heap w)); [|exact Fb]. intros v' o' p I P. apply F. intros J. apply (proj2 (N2 p J)). apply (in_ptrs o' v' b p I P).
  - pose proof (g_uniq _ _ G) as U'. rewrite Ee in U'. rewrite map_app in *. exact U'.
  - apply (g_ptrs _ _ G).
  - rewrite C. apply (g_keys _ _ G).
  - rewrite C, D. apply (g_next _ _ G).
Qed.

Lemma destroy_good w e v o fs a b a' b' : good w e -> w_vars w = a ++ (v, o) :: b -> e = a' ++ (v, fs) :: b' ->
  Forall2 (fun a b => fst a = fst b /\ holds_at (w_heap w) (snd a) (snd b)) a a' ->
  Forall2 (fun a b => fst a = fst b /\ holds_at (w_heap w) (snd a) (snd b)) b b' ->
  exists h, destroy secs o (w_heap w) = Ok h /\ good (mkWorld h (filter (fun x => negb (fst x =? v)) (w_vars w))) (without e v) /\
    forall s, ~ In (o s) (keys h).
Proof.
  intros G Ew Ee Fa Fb. pose proof (g_ptrs _ _ G) as N. rewrite Ew, ptrs_app, ptrs_cons in N. cbn [snd] in N.
  pose proof N as N0. apply nodup_mid in N. destruct N as (N1 & N2 & N3).
  assert (PP : Permutation (keys (w_heap w)) (map o secs ++ ptrs a ++ ptrs b)).
  { eapply perm_trans; [apply (g_keys _ _ G)|]. rewrite Ew, ptrs_app, ptrs_cons. cbn [snd]. rewrite app_assoc.
    eapply perm_trans; [apply Permutation_app_tail, Permutation_app_comm|]. rewrite <- app_assoc. apply Permutation_refl. }
  assert (NN : NoDup (map o secs ++ ptrs a ++ ptrs b)).
  { eapply Permutation_NoDup; [|apply N0]. rewrite app_assoc. eapply perm_trans; [apply Permutation_app_tail, Permutation_app_comm|]. rewrite <- app_assoc. apply Permutation_refl. }
  destruct (destroy_ok secs o (w_heap w) _ PP NN) as (h & E & Hn & P & L).
  pose proof (g_uniq _ _ G) as U. rewrite Ee, map_app in U. cbn in U. pose proof (NoDup_remove_1 _ _ _ U) as U1. apply NoDup_remove_2 in U.
  assert (Na : map fst a = map fst a' /\ map fst b = map fst b').
  { split; [clear -Fa; induction Fa as [|? ? ? ? [E _] _ IH]; cbn; congruence|clear -Fb; induction Fb as [|? ? ? ? [E _] _ IH]; cbn; congruence]. }
  destruct Na as [Na1 Na2].
  assert (Ev : filter (fun x => negb (fst x =? v)) (w_vars w) = a ++ b).
  { rewrite Ew, filter_app. cbn. rewrite Z.eqb_refl. cbn. f_equal; apply filter_skip; intros I; apply U; apply in_or_app; rewrite <- Na1, <- Na2; tauto. }
  assert (Ev' : without e v = a' ++ b').
  { unfold without. rewrite Ee, filter_app. cbn. rewrite Z.eqb_refl. cbn. f_equal; apply filter_skip; intros I; apply U; apply in_or_app; tauto. }
  exists h. split; [exact E|]. rewrite Ev, Ev'. split.
  - constructor; cbn [w_vars w_heap].
    + apply Forall2_app; (apply (other_same (w_heap w)); [|assumption]); intros v' o' p I J; apply L; apply in_or_app; [left|right]; eapply in_ptrs; eauto.
    + rewrite map_app. exact U1.
    + rewrite ptrs_app. exact N3.
    + rewrite ptrs_app. exact P.
    + intros p I. rewrite Hn. apply (g_next _ _ G). eapply Permutation_in; [apply Permutation_sym, PP|]. apply in_or_app. right. eapply Permutation_in; [apply P|exact I].
  - intros s I. apply (Permutation_in _ P) in I. destruct (N2 (o s)) as [A B]; [apply in_map, in_secs|]. apply in_app_or in I. tauto.
Qed.

(** one statement *)
Lemma exec_good w e a : good w e -> match a with Copy _ _ | Assign _ _ => False | _ => True end ->
  match value_exec dbl int nul bt e a with
  | Ok (e', s) => exists w', exec dbl int nul bt w a = Ok (w', s) /\ good w' e'
  | UB u => exec dbl int nul bt w a = UB u | Exit n => exec dbl int nul bt w a = Exit n | Throw => exec dbl int nul bt w a = Throw
  end.
Proof.
  intros G C. destruct a as [v|v v'|v v'|v doc|v s f|v]; try destruct C; cbn [value_exec exec];
    pose proof (var_related w e v G) as V; destruct (find_var e v) as [fs|u|n|]; cbn [bind];
    try (destruct V as (V1 & V2 & V3); try discriminate V2; injection V2 as ->); try (rewrite V1; cbn; reflexivity).
  - destruct V as (o & ? & ? & Vo & _). rewrite Vo. reflexivity.
  - rewrite V1. pose proof (make_good w e v G V3) as M. cbv zeta in M. destruct (construct secs (w_heap w) (fun _ => 0)) as [h o]. eexists. split; [reflexivity|exact M].
  - destruct V as (o & a & b & Vo & Ew & H & a' & b' & Ee & Fa & Fb). rewrite Vo. cbn [bind].
    destruct (parse_good w e v o fs doc a b a' b' G Ew Ee H Fa Fb) as [A B].
    destruct (parse_secs secs doc o (w_heap w)) as [h r], (fill (entries doc) fs) as [fs' r']. cbn [fst snd] in *. subst r'.
    destruct r; try reflexivity; (eexists; split; [reflexivity|exact B]).
  - destruct V as (o & a & b & Vo & Ew & H & _). rewrite Vo. cbn [bind]. specialize (H s f). rewrite load_omap in H.
    destruct (load (w_heap w) (o s)) as [c|u|n|]; try discriminate. cbn. injection H as ->. destruct (fs s f); [|reflexivity]. exists w. auto.
  - destruct V as (o & a & b & Vo & Ew & H & a' & b' & Ee & Fa & Fb). rewrite Vo. cbn [bind].
    destruct (destroy_good w e v o fs a b a' b' G Ew Ee Fa Fb) as (h & E & G' & _). rewrite E. cbn [bind]. eexists. split; [reflexivity|exact G'].
Qed.
Lemma program_good l : copy_free l -> forall w e, good w e ->
  match value_program dbl int nul bt e l with
  | Ok (e', s) => exists w', program dbl int nul bt w l = Ok (w', s) /\ good w' e'
  | UB u => program dbl int nul bt w l = UB u | Exit n => program dbl int nul bt w l = Exit n | Throw => program dbl int nul bt w l = Throw
  end.
Proof.
  induction 1 as [|a l Ha Hl IH]; intros w e G; cbn; [eauto|].
  pose proof (exec_good w e a G Ha) as X. destruct (value_exec dbl int nul bt e a) as [[e1 s1]|u|n|]; cbn; try (rewrite X; reflexivity).
  destruct X as (w1 & X & G1). rewrite X. cbn. specialize (IH w1 e1 G1).
  destruct (value_program dbl int nul bt e1 l) as [[e2 s2]|u|n|]; cbn; try (rewrite IH; reflexivity).
  destruct IH as (w2 & X2 & G2). rewrite X2. cbn. eauto.
Qed.
Lemma ptrs_length l : length (ptrs l) = (5 * length l)%nat.
Proof. induction l as [|a l IH]; [reflexivity|]. rewrite ptrs_cons, app_length, IH, map_length. cbn. lia. Qed.

(** *** the statements *)
Lemma values_kept l : copy_free l ->
  sights (program dbl int nul bt world0 l) = sights (value_program dbl int nul bt [] l) /\
  forall w s, program dbl int nul bt world0 l = Ok (w, s) -> length (h_cells (w_heap w)) = (5 * length (w_vars w))%nat.
Proof.
  intros C. pose proof (program_good l C _ _ good0) as P. split.
  - destruct (value_program dbl int nul bt [] l) as [[e s]|u|n|]; [destruct P as (w & E & _)| | |]; unfold sights; rewrite ?E, ?P; reflexivity.
  - intros w s E. destruct (value_program dbl int nul bt [] l) as [[e s']|u|n|]; try congruence. destruct P as (w' & E' & G).
    rewrite E in E'. injection E' as -> ->. rewrite <- ptrs_length, <- (Permutation_length (g_keys _ _ G)). unfold keys. now rewrite map_length.
Qed.
Lemma program_app l l' w : program dbl int nul bt w (l ++ l') = (r <- program dbl int nul bt w l ;; r' <- program dbl int nul bt (fst r) l' ;; Ok (fst r', (snd r ++ snd r')%list)).
Proof.
  revert w; induction l as [|a l IH]; intros w; cbn.
  - destruct (program dbl int nul bt w l') as [[]| | |]; reflexivity.
  - destruct (exec dbl int nul bt w a) as [[w1 s1]| | |]; cbn; try reflexivity. rewrite IH.
    destruct (program dbl int nul bt w1 l) as [[w2 s2]| | |]; cbn; try reflexivity.
    destruct (program dbl int nul bt w2 l') as [[w3 s3]| | |]; cbn; try reflexivity. now rewrite app_assoc.
Qed.
Lemma value_app l l' w : value_program dbl int nul bt w (l ++ l') = (r <- value_program dbl int nul bt w l ;; r' <- value_program dbl int nul bt (fst r) l' ;; Ok (fst r', (snd r ++ snd r')%list)).
Proof.
  revert w; induction l as [|a l IH]; intros w; cbn.
  - destruct (value_program dbl int nul bt w l') as [[]| | |]; reflexivity.
  - destruct (value_exec dbl int nul bt w a) as [[w1 s1]| | |]; cbn; try reflexivity. rewrite IH.
    destruct (value_program dbl int nul bt w1 l) as [[w2 s2]| | |]; cbn; try reflexivity.
    destruct (value_program dbl int nul bt w2 l') as [[w3 s3]| | |]; cbn; try reflexivity. now rewrite app_assoc.
Qed.
End Owner.
