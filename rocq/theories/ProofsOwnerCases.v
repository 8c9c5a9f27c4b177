(** Copies of InputFields objects, and what a parse leaves behind. *)
From Coq Require Import ZArith List String Lia Permutation.
From Verif Require Import Base Num ModelVec ModelAnalytic ModelParser SpecParser ModelOwner SpecOwner ProofsOwner.
Import ListNotations.
Open Scope list_scope.
Open Scope Z_scope.

Section Copies.
Context {T : Type} {NT : Num T} (dbl : string -> option T) (int : string -> option Z) (nul : option string) (bt : bool).
Notation program := (program dbl int nul bt).
Notation value_program := (value_program dbl int nul bt).
Notation exec := (exec dbl int nul bt).

Lemma gone (o : handle) (h : heap (T := T)) : (forall s, ~ In (o s) (keys h)) -> destroy secs o h = UB Dangling.
Proof. intros H. unfold secs. cbn [destroy]. rewrite delete_bad by apply H. reflexivity. Qed.
Lemma found w e v : good (T := T) w e -> In v (map fst (w_vars w)) ->
  exists o fs h, var w v = Ok o /\ find_var e v = Ok fs /\ destroy secs o (w_heap w) = Ok h /\ (forall s, ~ In (o s) (keys h)) /\
    (forall v1 o1, var w v1 = Ok o1 -> v1 <> v -> (forall s, In (o1 s) (keys h))).
Proof.
  intros G I. rewrite (same_names _ _ G) in I. pose proof (var_related w e v G) as V.
  destruct (find_var e v) as [fs|u|n|]; try (destruct V as (_ & _ & V); tauto).
  destruct V as (o & a & b & Vo & Ew & H & a' & b' & Ee & Fa & Fb).
  destruct (destroy_good w e v o fs a b a' b' G Ew Ee Fa Fb) as (h & E & G' & N). exists o, fs, h. repeat split; auto.
  intros v1 o1 V1 D s. pose proof (var_related _ _ v1 G') as V2.
  assert (X : var (mkWorld h (filter (fun x => negb (fst x =? v)) (w_vars w))) v1 = Ok o1).
  { revert V1. unfold var. cbn. clear -D. induction (w_vars w) as [|[v2 o2] l IH]; [discriminate|]. cbn.
    destruct (Z.eqb_spec v2 v1) as [->|M].
    - destruct (Z.eqb_spec v1 v); [congruence|]. cbn. rewrite Z.eqb_refl. auto.
    - destruct (Z.eqb_spec v2 v); cbn; [exact IH|]. destruct (Z.eqb_spec v2 v1); [congruence|exact IH]. }
  destruct (find_var _ v1) as [fs1|u|n|]; [|destruct V2 as [V2 _]; congruence..].
  destruct V2 as (o1' & ? & ? & V2 & _ & H2 & _). rewrite X in V2. injection V2 as <-. cbn in H2. exact (holds_in _ _ _ s H2).
Qed.
Lemma var_none w v : ~ In v (map fst (w_vars w)) -> var (T := T) w v = UB Dangling.
Proof. intros N. unfold var. rewrite <- find_key in N. destruct (find _ _); [exfalso; apply N; discriminate|reflexivity]. Qed.
Lemma var_set w v o : var (T := T) (set_var w v o) v = Ok o.
Proof. unfold var, set_var. cbn. now rewrite Z.eqb_refl. Qed.
Lemma find_filter {A} (l : list (Z * A)) v v' : v <> v' -> find (fun e => fst e =? v') (filter (fun e => negb (fst e =? v)) l) = find (fun e => fst e =? v') l.
Proof.
  intros D. induction l as [|[q a] l IH]; [reflexivity|]. cbn. destruct (Z.eqb_spec q v); cbn.
  - destruct (Z.eqb_spec q v'); [congruence|exact IH].
  - destruct (q =? v'); [reflexivity|exact IH].
Qed.
Lemma var_other w v o v' : v <> v' -> var (T := T) (set_var w v o) v' = var w v'.
Proof. intros D. unfold var, set_var. cbn. destruct (Z.eqb_spec v v'); [congruence|]. now rewrite find_filter. Qed.
Lemma var_without h (w : world (T := T)) v v' : v <> v' -> var (T := T) (mkWorld h (filter (fun e => negb (fst e =? v)) (w_vars w))) v' = var w v'.
Proof. intros D. unfold var. cbn. now rewrite find_filter. Qed.

(** two variables with the same pointers *)
Lemma twins (w : world (T := T)) v v' o h : v <> v' -> var w v = Ok o -> var w v' = Ok o -> destroy secs o (w_heap w) = Ok h -> (forall s, ~ In (o s) (keys h)) ->
  program w [Destroy v; Destroy v'] = UB Dangling /\ forall s f, program w [Destroy v; Read v' s f] = UB Dangling.
Proof.
  intros D V V' E N. assert (S1 : exec w (Destroy v) = Ok (mkWorld h (filter (fun e => negb (fst e =? v)) (w_vars w)), [])).
  { unfold ModelOwner.exec. rewrite V. cbn [bind]. rewrite E. reflexivity. }
  assert (V2 := var_without h w v v' D). rewrite V' in V2. split; [|intros s f]; cbn [ModelOwner.program]; rewrite S1; cbn [bind fst snd ModelOwner.program];
    unfold ModelOwner.exec at 1; rewrite V2; cbn [bind w_heap].
  - rewrite gone by exact N. reflexivity.
  - rewrite load_bad by apply N. reflexivity.
Qed.
Lemma good_of l w s : copy_free l -> program world0 l = Ok (w, s) -> exists e, good w e /\ value_program [] l = Ok (e, s).
Proof.
  intros C E. pose proof (program_good dbl int nul bt l C _ _ good0) as P.
  destruct (value_program [] l) as [[e s']|u|n|]; try congruence. destruct P as (w' & E' & G). rewrite E in E'. injection E' as -> ->. eauto.
Qed.
Lemma then_ l l' w s : program world0 l = Ok (w, s) -> forall u, program w l' = UB u -> program world0 (l ++ l') = UB u.
Proof. intros E u E'. rewrite program_app, E. cbn. rewrite E'. reflexivity. Qed.
Lemma find_var_other (e : list (Z * values T)) v fs v' : v <> v' -> find_var ((v, fs) :: e) v' = find_var e v'.
Proof. intros D. unfold find_var. cbn. destruct (Z.eqb_spec v v'); [congruence|reflexivity]. Qed.
Lemma find_var_without (e : list (Z * values T)) v v' : v <> v' -> find_var (without e v) v' = find_var e v'.
Proof. intros D. unfold find_var, without. now rewrite find_filter. Qed.

Lemma copies l w s v v' : copy_free l -> program world0 l = Ok (w, s) -> In v' (map fst (w_vars w)) -> ~ In v (map fst (w_vars w)) ->
  (program world0 (l ++ [Copy v v'; Destroy v; Destroy v']) = UB Dangling /\
   program world0 (l ++ [Copy v v'; Destroy v'; Destroy v]) = UB Dangling /\
   forall sc f, program world0 (l ++ [Copy v v'; Destroy v'; Read v sc f]) = UB Dangling) /\
  sights (value_program [] (l ++ [Copy v v'; Destroy v; Destroy v'])) = Ok s /\
  sights (value_program [] (l ++ [Copy v v'; Destroy v'; Destroy v])) = Ok s.
Proof.
  intros C E I NI. destruct (good_of l w s C E) as (e & G & Ev). destruct (found w e v' G I) as (o & fs & h & Vo & Ve & Dh & N & _).
  assert (D : v <> v') by (intros ->; tauto). assert (D' : v' <> v) by congruence.
  assert (S1 : exec w (Copy v v') = Ok (set_var w v o, [])) by (unfold ModelOwner.exec; rewrite (var_none w v NI), Vo; reflexivity).
  assert (Vv := var_set w v o). assert (Vv' := var_other w v o v' D). rewrite Vo in Vv'.
  destruct (twins (set_var w v o) v v' o h D Vv Vv' Dh N) as [A1 _]. destruct (twins (set_var w v o) v' v o h D' Vv' Vv Dh N) as [B1 B2].
  assert (ST : forall k, program (set_var w v o) k = UB Dangling -> program world0 (l ++ Copy v v' :: k) = UB Dangling).
  { intros k K. apply (then_ l _ w s E). cbn [ModelOwner.program]. rewrite S1. cbn [bind fst snd]. rewrite K. reflexivity. }
  split; [split; [apply ST, A1|split; [apply ST, B1|intros; apply ST, B2]]|].
  assert (NV : find_var e v = UB Dangling).
  { unfold find_var. rewrite (same_names _ _ G) in NI. rewrite <- find_key in NI. destruct (find _ _); [exfalso; apply NI; discriminate|reflexivity]. }
  assert (FV : find_var ((v, fs) :: e) v = Ok fs) by (unfold find_var; cbn; now rewrite Z.eqb_refl).
  split; rewrite value_app, Ev; cbn [bind fst snd SpecOwner.value_program SpecOwner.value_exec]; rewrite NV, Ve; cbn [bind fst snd SpecOwner.value_program SpecOwner.value_exec].
  - rewrite FV. cbn [bind fst snd]. rewrite find_var_without, find_var_other, Ve by exact D. cbn. now rewrite app_nil_r.
  - rewrite find_var_other, Ve by exact D. cbn [bind fst snd]. rewrite find_var_without, FV by exact D'. cbn. now rewrite app_nil_r.
Qed.
Lemma assignments l w s v v' : copy_free l -> program world0 l = Ok (w, s) -> In v (map fst (w_vars w)) -> In v' (map fst (w_vars w)) -> v <> v' ->
  (program world0 (l ++ [Assign v v'; Destroy v; Destroy v']) = UB Dangling /\
   program world0 (l ++ [Assign v v'; Destroy v'; Destroy v]) = UB Dangling /\
   forall sc f, program world0 (l ++ [Assign v v'; Destroy v'; Read v sc f]) = UB Dangling) /\
  sights (value_program [] (l ++ [Assign v v'; Destroy v; Destroy v'])) = Ok s.
Proof.
  intros C E Iv I D. destruct (good_of l w s C E) as (e & G & Ev). destruct (found w e v' G I) as (o & fs & h & Vo & Ve & Dh & N & _).
  destruct (found w e v G Iv) as (o1 & fs1 & _ & Vo1 & Ve1 & _). assert (D' : v' <> v) by congruence.
  assert (S1 : exec w (Assign v v') = Ok (set_var w v o, [])) by (unfold ModelOwner.exec; rewrite Vo1, Vo; reflexivity).
  assert (Vv := var_set w v o). assert (Vv' := var_other w v o v' D). rewrite Vo in Vv'.
  destruct (twins (set_var w v o) v v' o h D Vv Vv' Dh N) as [A1 _]. destruct (twins (set_var w v o) v' v o h D' Vv' Vv Dh N) as [B1 B2].
  assert (ST : forall k, program (set_var w v o) k = UB Dangling -> program world0 (l ++ Assign v v' :: k) = UB Dangling).
  { intros k K. apply (then_ l _ w s E). cbn [ModelOwner.program]. rewrite S1. cbn [bind fst snd]. rewrite K. reflexivity. }
  split; [split; [apply ST, A1|split; [apply ST, B1|intros; apply ST, B2]]|].
  rewrite value_app, Ev; cbn [bind fst snd SpecOwner.value_program SpecOwner.value_exec]; rewrite Ve1, Ve; cbn [bind fst snd SpecOwner.value_program SpecOwner.value_exec].
  set (e1 := map _ e). assert (F1 : find_var e1 v = Ok fs).
  { unfold e1. clear -Ve1 . unfold find_var in *. induction e as [|[q a] e IH]; [discriminate|]. cbn in *. destruct (Z.eqb_spec q v) as [->|M]; cbn.
    - now rewrite Z.eqb_refl.
    - destruct (Z.eqb_spec q v); [congruence|]. apply IH, Ve1. }
  assert (F2 : find_var e1 v' = Ok fs).
  { unfold e1. clear -Ve D. unfold find_var in *. induction e as [|[q a] e IH]; [discriminate|]. cbn in *. destruct (Z.eqb_spec q v) as [->|M]; cbn.
    - destruct (Z.eqb_spec v v'); [congruence|]. apply IH, Ve.
    - destruct (Z.eqb_spec q v'); [exact Ve|]. apply IH, Ve. }
  rewrite F1. cbn [bind fst snd]. rewrite find_var_without, F2 by exact D. cbn. now rewrite app_nil_r.
Qed.
(** a parse into the copy is a parse into the original *)
Lemma aliases l w s v v' doc sc f : copy_free l -> program world0 l = Ok (w, s) -> In v' (map fst (w_vars w)) -> ~ In v (map fst (w_vars w)) ->
  sights (program world0 (l ++ [Copy v v'; Parse v doc; Read v' sc f])) = sights (program world0 (l ++ [Parse v' doc; Read v' sc f])).
Proof.
  intros C E I NI. destruct (good_of l w s C E) as (e & G & Ev). destruct (found w e v' G I) as (o & fs & h & Vo & Ve & Dh & N & _).
  assert (D : v <> v') by (intros ->; tauto).
  assert (S1 : exec w (Copy v v') = Ok (set_var w v o, [])) by (unfold ModelOwner.exec; rewrite (var_none w v NI), Vo; reflexivity).
  assert (Vv := var_set w v o). assert (Vv' := var_other w v o v' D). rewrite Vo in Vv'.
    rewrite !program_app, E. cbn [bind fst snd ModelOwner.program]. rewrite S1. cbn [bind fst snd ModelOwner.program].
    unfold ModelOwner.exec at 1. rewrite Vv. unfold ModelOwner.exec at 2. rewrite Vo. cbn [bind]. change (w_heap (set_var w v o)) with (w_heap w).
    destruct (parse_secs dbl int nul bt secs doc o (w_heap w)) as [h1 [u|u|n|]]; cbn [bind fst snd ModelOwner.program]; try reflexivity;
      unfold ModelOwner.exec; unfold var in *; cbn [w_vars w_heap] in *; rewrite Vo, Vv'; cbn [bind]; destruct (load h1 (o sc)) as [c|u1|n1|]; cbn [bind]; try reflexivity;
      destruct (c f); cbn; reflexivity.
Qed.
End Copies.

Section Parse.
Context {T : Type} {NT : Num T} (dbl : string -> option T) (int : string -> option Z) (nul : option string) (bt : bool).
Notation parse_secs := (parse_secs dbl int nul bt).
Notation entries := (entries dbl int nul bt).

Lemma fill_prefix (es : list (sec * fld * outcome (value T))) fs :
  exists done rest, es = map (fun e => (fst e, Ok (snd e))) done ++ rest /\ fst (fill es fs) = filled done fs /\
    (snd (fill es fs) = Ok tt /\ rest = [] \/ exists e more, rest = e :: more /\ omap (fun _ => tt) (snd e) = snd (fill es fs) /\ snd (fill es fs) <> Ok tt).
Proof.
  revert fs; induction es as [|[[s f] [x|u|n|]] es IH]; intros fs; cbn [fill].
  - exists [], []. repeat split. left. split; reflexivity.
  - destruct (IH (set_value fs s f x)) as (d & r & A & B & C). exists ((s, f, x) :: d), r. cbn. rewrite <- A. split; [reflexivity|]. split; [exact B|exact C].
  - exists [], ((s, f, UB u) :: es). split; [reflexivity|]. split; [reflexivity|]. right. eexists _, _. split; [reflexivity|]. split; [reflexivity|discriminate].
  - exists [], ((s, f, Exit n) :: es). split; [reflexivity|]. split; [reflexivity|]. right. eexists _, _. split; [reflexivity|]. split; [reflexivity|discriminate].
  - exists [], ((s, f, Throw) :: es). split; [reflexivity|]. split; [reflexivity|]. right. eexists _, _. split; [reflexivity|]. split; [reflexivity|discriminate].
Qed.
Lemma parse_stores doc o h fs : owns (T := T) h o fs ->
  let r := parse_secs secs doc o h in
  exists done rest, entries doc = map (fun e => (fst e, Ok (snd e))) done ++ rest /\ owns (fst r) o (filled done fs) /\
    (snd r = Ok tt /\ rest = [] \/ exists e more, rest = e :: more /\ omap (fun _ => tt) (snd e) = snd r /\ snd r <> Ok tt) /\
    forall o' fs', owns h o' fs' -> (forall s s', o s <> o' s') -> owns (fst r) o' fs'.
Proof.
  intros [H N] r. destruct (parse_fill dbl int nul bt doc o h fs N H) as (A & B & _ & _ & F). fold r in A, B, F.
  destruct (fill_prefix (entries doc) fs) as (d & rest & E1 & E2 & E3). rewrite <- A in E3. rewrite E2 in B.
  exists d, rest. split; [exact E1|]. split; [split; assumption|]. split; [exact E3|].
  intros o' fs' [H' N'] D. split; [|exact N']. intros s f. rewrite F; [apply H'|]. intros I. apply in_map_iff in I. destruct I as (s' & I & _). exact (D s' s I).
Qed.

Lemma set_self (fs : values T) s f x : set_value fs s f x s f = Some x.
Proof. unfold set_value. now rewrite sec_eqb_refl, fld_eqb_refl. Qed.
Lemma fill_outcome (es : list (sec * fld * outcome (value T))) fs fs' : snd (fill es fs) = snd (fill es fs').
Proof. revert fs fs'; induction es as [|[[s f] [x|u|n|]] es IH]; intros; cbn; auto. Qed.
Lemma set_eq (fs fs' : values T) s f x s' f' : fs s' f' = fs' s' f' \/ (s, f) = (s', f') -> set_value fs s f x s' f' = set_value fs' s f x s' f'.
Proof. unfold set_value. intros [E|E]; [now rewrite E|]. injection E as -> ->. now rewrite sec_eqb_refl, fld_eqb_refl. Qed.
Lemma fill_same (es : list (sec * fld * outcome (value T))) s f : forall fs fs', snd (fill es fs) = Ok tt -> fs s f = fs' s f \/ In (s, f) (map fst es) ->
  fst (fill es fs) s f = fst (fill es fs') s f.
Proof.
  induction es as [|[[s1 f1] [x|u|n|]] es IH]; intros fs fs' O H; cbn in *; try discriminate.
  - destruct H as [H|[]]. exact H.
  - apply IH; [exact O|]. destruct H as [H|[H|H]]; [left; apply set_eq; now left|left; apply set_eq; now right|now right].
Qed.
Lemma lines_members s f : In f (members s) -> In f (map fst (lines dbl int nul bt s)).
Proof. destruct s; cbn; tauto. Qed.
Lemma complete kvs s f : (forall s, entry kvs (sec_key s) <> None) -> In f (members s) -> In (s, f) (map fst (entries (YMap kvs))).
Proof.
  intros A I. destruct (entry kvs (sec_key s)) as [y|] eqn:E; [|exfalso; exact (A s E)]. apply lines_members in I. apply in_map_iff in I. destruct I as (l & <- & I).
  apply in_map_iff. exists (s, fst l, snd l (Some y)). split; [reflexivity|]. cbn [SpecOwner.entries]. apply in_flat_map. exists s. split; [apply in_secs|].
  rewrite E. apply in_map_iff. exists l. split; [reflexivity|exact I].
Qed.
Lemma parse_anew kvs o h fs o2 h2 fs2 : (forall s, entry kvs (sec_key s) <> None) -> owns (T := T) h o fs -> owns h2 o2 fs2 ->
  let r := parse_secs secs (YMap kvs) o h in let r2 := parse_secs secs (YMap kvs) o2 h2 in
  snd r = snd r2 /\ (snd r = Ok tt -> forall s f, In f (members s) -> omap (fun c => c f) (load (fst r) (o s)) = omap (fun c => c f) (load (fst r2) (o2 s))).
Proof.
  intros A [H N] [H2 N2] r r2. destruct (parse_fill dbl int nul bt (YMap kvs) o h fs N H) as (B & C & _). destruct (parse_fill dbl int nul bt (YMap kvs) o2 h2 fs2 N2 H2) as (B2 & C2 & _).
  fold r in B, C. fold r2 in B2, C2. split; [rewrite B, B2; apply fill_outcome|].
  intros O s f I. rewrite C, C2. f_equal. apply fill_same; [rewrite <- B; exact O|]. right. apply complete; assumption.
Qed.
Lemma half_done o h fs dir : owns (T := T) h o fs -> fs SGeneral output_directory <> Some (VStr dir) ->
  let doc := YMap [("general"%string, YMap [("output_directory"%string, YScalar dir)]); ("time"%string, YMap [])] in
  snd (parse_secs secs doc o h) = Throw /\ exists fs', owns (fst (parse_secs secs doc o h)) o fs' /\ fs' SGeneral output_directory = Some (VStr dir).
Proof.
  intros [H N] D doc. destruct (parse_fill dbl int nul bt doc o h fs N H) as (A & B & _). split; [rewrite A; reflexivity|].
  exists (fst (fill (entries doc) fs)). split; [split; assumption|reflexivity].
Qed.

(** the result of a parse that succeeds *)
Lemma fill_sec s y fs : let r := fill (map (fun l => (s, fst l, snd l y)) (lines dbl int nul bt s)) fs in forall s' f, s' <> s -> fst r s' f = fs s' f.
Proof.
  cbv zeta. generalize (lines dbl int nul bt s). intros ls. revert fs; induction ls as [|[f g] ls IH]; intros fs s' f' D; cbn; [reflexivity|].
  destruct (g y); cbn; try reflexivity. rewrite IH by exact D. unfold set_value. destruct (sec_eqb s s') eqn:E; [apply sec_eqb_eq in E; congruence|reflexivity].
Qed.
Ltac each := repeat (match goal with |- context [match ?o with Ok _ => _ | _ => _ end] => destruct o; cbn end; try (split; [reflexivity|discriminate])).
Lemma sec_general y fs : let r := fill (map (fun l => (SGeneral, fst l, snd l y)) (lines dbl int nul bt SGeneral)) fs in
  snd r = omap (fun _ => tt) (parse_general nul y) /\ forall d, parse_general nul y = Ok d -> fst r SGeneral output_directory = Some (VStr d).
Proof.
  cbn. unfold parse_general, text, key, omap. destruct (ysub y "output_directory") as [n| | |]; cbn; try (split; [reflexivity|discriminate]).
  destruct (yas_string nul n); cbn; split; try reflexivity; try discriminate. intros d [= ->]. reflexivity.
Qed.
Lemma bind_assoc {A B C} (o : outcome A) (f : A -> outcome B) (g : B -> outcome C) : bind (bind o f) g = bind o (fun a => bind (f a) g).
Proof. destruct o; reflexivity. Qed.
Lemma fill_bind s f (o : outcome (value T)) es fs : fill ((s, f, o) :: es) fs =
  match o with Ok x => fill es (set_value fs s f x) | UB u => (fs, UB u) | Exit n => (fs, Exit n) | Throw => (fs, Throw) end.
Proof. destruct o; reflexivity. Qed.
Ltac run1 := match goal with |- context [bind ?o _] => lazymatch o with bind _ _ => fail | _ => destruct o; cbn [bind omap] end end; try (split; [reflexivity|discriminate]).
Lemma sec_grid y fs : let r := fill (map (fun l => (SGrid, fst l, snd l y)) (lines dbl int nul bt SGrid)) fs in
  snd r = omap (fun _ => tt) (parse_grid dbl int y) /\ forall g, parse_grid dbl int y = Ok g ->
    fst r SGrid x_min = Some (VNum (vx (gi_min g))) /\ fst r SGrid x_max = Some (VNum (vx (gi_max g))) /\
    fst r SGrid y_min = Some (VNum (vy (gi_min g))) /\ fst r SGrid y_max = Some (VNum (vy (gi_max g))) /\
    fst r SGrid z_min = Some (VNum (vz (gi_min g))) /\ fst r SGrid z_max = Some (VNum (vz (gi_max g))) /\
    fst r SGrid nx = Some (VInt (vx (gi_n g))) /\ fst r SGrid ny = Some (VInt (vy (gi_n g))) /\ fst r SGrid nz = Some (VInt (vz (gi_n g))).
Proof.
  cbn [lines map fst snd]. unfold parse_grid. cbv zeta. rewrite !fill_bind. unfold number, key2, omap.
  destruct (ysub y "box") as [b| | |]; cbn [bind]; try (split; [reflexivity|discriminate]).
  repeat (match goal with |- context [bind (ysub b ?k) _] => destruct (ysub b k) as [?n| | |]; cbn [bind]; try (split; [reflexivity|discriminate]) end;
          match goal with |- context [bind (yas dbl ?n) _] => destruct (yas dbl n) as [?x| | |]; cbn [bind]; try (split; [reflexivity|discriminate]) end; rewrite ?fill_bind).
  destruct (ysub y "cells") as [c| | |]; cbn [bind]; try (split; [reflexivity|discriminate]).
  destruct (yas_vector int c) as [l| | |]; cbn [bind]; try (split; [reflexivity|discriminate]).
  repeat (match goal with |- context [bind (vread l ?k) _] => destruct (vread l k) as [?z| | |]; cbn [bind]; try (split; [reflexivity|discriminate]) end; rewrite ?fill_bind).
  split; [reflexivity|]. intros g [= <-]. cbn. repeat split.
Qed.
Lemma sec_time y fs : let r := fill (map (fun l => (STime, fst l, snd l y)) (lines dbl int nul bt STime)) fs in
  snd r = omap (fun _ => tt) (parse_time dbl nul y) /\ forall t, parse_time dbl nul y = Ok t ->
    fst r STime start = Some (VNum (ti_start t)) /\ fst r STime end_ = Some (VNum (ti_end t)) /\
    fst r STime dt = Some (VNum (ti_dt t)) /\ fst r STime constant_dt = Some (VStr (ti_constant_dt t)).
Proof.
  cbn [lines map fst snd]. unfold parse_time. rewrite !fill_bind. unfold number, text, key, omap. rewrite !bind_assoc.
  repeat (match goal with |- context [bind (ysub y ?k) _] => destruct (ysub y k) as [?n| | |]; cbn [bind]; try (split; [reflexivity|discriminate]) end;
          match goal with |- context [bind (yas dbl ?n) _] => destruct (yas dbl n) as [?x| | |] | |- context [bind (yas_string nul ?n) _] => destruct (yas_string nul n) as [?x| | |] end;
          cbn [bind]; try (split; [reflexivity|discriminate]); rewrite ?fill_bind, ?bind_assoc).
  split; [reflexivity|]. intros g [= <-]. cbn. repeat split.
Qed.
Lemma sec_velocity y fs : let r := fill (map (fun l => (SVelocity, fst l, snd l y)) (lines dbl int nul bt SVelocity)) fs in
  snd r = omap (fun _ => tt) (parse_velocity dbl nul y) /\ forall v, parse_velocity dbl nul y = Ok v ->
    fst r SVelocity name = Some (VStr (vi_name v)) /\ fst r SVelocity vector = Some (VList (vi_vector v)) /\
    fst r SVelocity center = Some (VList (vi_center v)) /\ fst r SVelocity gradient_scheme = Some (VStr (vi_scheme v)).
Proof.
  cbn [lines map fst snd]. unfold parse_velocity. rewrite !fill_bind. unfold list_, text, key, key2, omap. rewrite !bind_assoc.
  repeat (match goal with |- context [bind (ysub ?y ?k) _] => destruct (ysub y k) as [?n| | |]
          | |- context [bind (yas_vector dbl ?n) _] => destruct (yas_vector dbl n) as [?x| | |] | |- context [bind (yas_string nul ?n) _] => destruct (yas_string nul n) as [?x| | |] end;
          cbn [bind]; try (split; [reflexivity|discriminate]); rewrite ?fill_bind, ?bind_assoc).
  split; [reflexivity|]. intros g [= <-]. cbn. repeat split.
Qed.
Lemma sec_levelset y fs : let r := fill (map (fun l => (SLevelset, fst l, snd l y)) (lines dbl int nul bt SLevelset)) fs in
  snd r = omap (fun _ => tt) (parse_levelset dbl nul bt y) /\ forall v, parse_levelset dbl nul bt y = Ok v ->
    fst r SLevelset name = Some (VStr (li_name v)) /\ fst r SLevelset center = Some (VVec (li_center v)) /\
    fst r SLevelset radius = Some (VNum (li_radius v)) /\ fst r SLevelset gradient_scheme = Some (VStr (li_scheme v)).
Proof.
  cbn [lines map fst snd]. unfold parse_levelset. rewrite !fill_bind. unfold number, text, key, key2, omap. rewrite !bind_assoc.
  repeat (match goal with |- context [bind (ysub ?y ?k) _] => destruct (ysub y k) as [?n| | |] | |- context [bind (yas dbl ?n) _] => destruct (yas dbl n) as [?x| | |]
          | |- context [bind (yas_vector dbl ?n) _] => destruct (yas_vector dbl n) as [?x| | |] | |- context [bind (yas_string nul ?n) _] => destruct (yas_string nul n) as [?x| | |]
          | |- context [bind (vec3_of_vector bt ?n) _] => destruct (vec3_of_vector bt n) as [?x| | |] end;
          cbn [bind]; try (split; [reflexivity|discriminate]); rewrite ?fill_bind, ?bind_assoc).
  split; [reflexivity|]. intros g [= <-]. cbn. repeat split.
Qed.

Definition part (kvs : list (string * yaml)) (s : sec) := match entry kvs (sec_key s) with None => [] | Some y => map (fun l => (s, fst l, snd l (Some y))) (lines dbl int nul bt s) end.
Lemma section_fill {A} (Q : values T -> A -> Prop) (p : option yaml -> outcome A) s kvs fs :
  (forall y fs, let r := fill (map (fun l => (s, fst l, snd l y)) (lines dbl int nul bt s)) fs in snd r = omap (fun _ => tt) (p y) /\ forall a, p y = Ok a -> Q (fst r) a) ->
  let r := fill (part kvs s) fs in let q := section (Some (YMap kvs)) (sec_key s) p in
  snd r = omap (fun _ => tt) q /\ (forall oa, q = Ok oa -> match oa with Some a => Q (fst r) a | None => fst r = fs end) /\ forall s' f, s' <> s -> fst r s' f = fs s' f.
Proof.
  intros H r q. unfold r, q, part, section. cbn [ysub bind]. rewrite yfind_entry. destruct (entry kvs (sec_key s)) as [y|].
  - destruct (H (Some y) fs) as [A1 A2]. split; [rewrite A1; destruct (p (Some y)); reflexivity|]. split; [|intros s' f; apply fill_sec].
    intros oa E. destruct (p (Some y)) as [a| | |]; try discriminate. injection E as <-. apply A2. reflexivity.
  - cbn. repeat split; auto. intros oa [= <-]. reflexivity.
Qed.
Lemma parse_result doc fs x : holds (T := T) fs x ->
  let r := fill (entries doc) fs in let q := parse dbl int nul bt doc x in
  snd r = omap (fun _ => tt) q /\ forall x', q = Ok x' -> holds (fst r) x'.
Proof.
  intros H. destruct doc as [| | |kvs].
  - cbn. split; [reflexivity|]. intros x' [= <-]. destruct x; exact H.
  - cbn. split; [reflexivity|]. discriminate.
  - cbn. split; [reflexivity|]. intros x' [= <-]. destruct x; exact H.
  - assert (E : entries (YMap kvs) = part kvs SGeneral ++ part kvs SGrid ++ part kvs STime ++ part kvs SVelocity ++ part kvs SLevelset).
    { unfold SpecOwner.entries, secs. cbn [flat_map]. unfold part. now rewrite app_nil_r. }
    rewrite E. clear E. cbv zeta. unfold parse. rewrite !fill_app.
    destruct (section_fill (fun (F : values T) g => F SGeneral output_directory = Some (VStr g)) _ SGeneral kvs fs sec_general) as (A1 & A2 & A3). destruct (fill (part kvs SGeneral) fs) as [f1 r1]. cbn [fst snd sec_key] in A1, A2, A3.
    destruct (section _ "general" _) as [ge| | |]; cbn [omap] in A1; subst r1; try (split; [reflexivity|discriminate]). cbn [bind]. specialize (A2 _ eq_refl).
    rewrite !fill_app.
    destruct (section_fill (fun (F : values T) g => F SGrid x_min = Some (VNum (vx (gi_min g))) /\ F SGrid x_max = Some (VNum (vx (gi_max g))) /\ F SGrid y_min = Some (VNum (vy (gi_min g))) /\ F SGrid y_max = Some (VNum (vy (gi_max g))) /\ F SGrid z_min = Some (VNum (vz (gi_min g))) /\ F SGrid z_max = Some (VNum (vz (gi_max g))) /\ F SGrid nx = Some (VInt (vx (gi_n g))) /\ F SGrid ny = Some (VInt (vy (gi_n g))) /\ F SGrid nz = Some (VInt (vz (gi_n g)))) _ SGrid kvs f1 sec_grid) as (B1 & B2 & B3). destruct (fill (part kvs SGrid) f1) as [f2 r2]. cbn [fst snd sec_key] in B1, B2, B3.
    destruct (section _ "grid" _) as [gr| | |]; cbn [omap] in B1; subst r2; try (split; [reflexivity|discriminate]). cbn [bind]. specialize (B2 _ eq_refl).
    rewrite !fill_app.
    destruct (section_fill (fun (F : values T) g => F STime start = Some (VNum (ti_start g)) /\ F STime end_ = Some (VNum (ti_end g)) /\ F STime dt = Some (VNum (ti_dt g)) /\ F STime constant_dt = Some (VStr (ti_constant_dt g))) _ STime kvs f2 sec_time) as (C1 & C2 & C3). destruct (fill (part kvs STime) f2) as [f3 r3]. cbn [fst snd sec_key] in C1, C2, C3.
    destruct (section _ "time" _) as [ti| | |]; cbn [omap] in C1; subst r3; try (split; [reflexivity|discriminate]). cbn [bind]. specialize (C2 _ eq_refl).
    rewrite !fill_app.
    destruct (section_fill (fun (F : values T) g => F SVelocity name = Some (VStr (vi_name g)) /\ F SVelocity vector = Some (VList (vi_vector g)) /\ F SVelocity center = Some (VList (vi_center g)) /\ F SVelocity gradient_scheme = Some (VStr (vi_scheme g))) _ SVelocity kvs f3 sec_velocity) as (D1 & D2 & D3). destruct (fill (part kvs SVelocity) f3) as [f4 r4]. cbn [fst snd sec_key] in D1, D2, D3.
    destruct (section _ "velocity" _) as [ve| | |]; cbn [omap] in D1; subst r4; try (split; [reflexivity|discriminate]). cbn [bind]. specialize (D2 _ eq_refl).
    destruct (section_fill (fun (F : values T) g => F SLevelset name = Some (VStr (li_name g)) /\ F SLevelset center = Some (VVec (li_center g)) /\ F SLevelset radius = Some (VNum (li_radius g)) /\ F SLevelset gradient_scheme = Some (VStr (li_scheme g))) _ SLevelset kvs f4 sec_levelset) as (E1 & E2 & E3). destruct (fill (part kvs SLevelset) f4) as [f5 r5]. cbn [fst snd sec_key] in E1, E2, E3.
    destruct (section _ "levelset" _) as [ls| | |]; cbn [omap] in E1; subst r5; try (split; [reflexivity|discriminate]). cbn [bind]. specialize (E2 _ eq_refl).
    split; [reflexivity|]. intros x' [= <-]. cbn [fst]. destruct H as (H1 & H2 & H3 & H4 & H5).
    unfold holds. cbn [if_general if_grid if_time if_vel if_ls]. split; [|split; [|split; [|split]]].
    + rewrite E3, D3, C3, B3 by discriminate. destruct ge; cbn [keep]; [exact A2|subst f1; exact H1].
    + intros g E. rewrite !E3, !D3, !C3 by discriminate. destruct gr as [g1|]; [injection E as <-; exact B2|]. subst f2. rewrite !A3 by discriminate. exact (H2 g E).
    + intros g E. rewrite !E3, !D3 by discriminate. destruct ti as [g1|]; [injection E as <-; exact C2|]. subst f3. rewrite !B3, !A3 by discriminate. exact (H3 g E).
    + rewrite !E3 by discriminate. destruct ve as [g1|]; cbn [keep]; [exact D2|]. subst f4. rewrite !C3, !B3, !A3 by discriminate. exact H4.
    + intros g E. destruct ls as [g1|]; [injection E as <-; exact E2|]. subst f5. rewrite !D3, !C3, !B3, !A3 by discriminate. exact (H5 g E).
Qed.
Lemma parse_agrees doc o h fs x : owns (T := T) h o fs -> holds fs x ->
  let r := parse_secs secs doc o h in let q := parse dbl int nul bt doc x in
  snd r = omap (fun _ => tt) q /\ forall x', q = Ok x' -> exists fs', owns (fst r) o fs' /\ holds fs' x'.
Proof.
  intros [H N] X. destruct (parse_fill dbl int nul bt doc o h fs N H) as (A & B & _). destruct (parse_result doc fs x X) as [C D]. cbv zeta in *.
  split; [rewrite A; exact C|]. intros x' E. eexists. split; [split; [exact B|exact N]|exact (D x' E)].
Qed.
(** reading a new object *)
Lemma new_read w v s f : In f (members s) -> (forall o, var w v <> Ok o) ->
  sights (program dbl int nul bt w [Make v; Read v s f]) = match initial (T := T) s f with Some x => Ok [Saw x] | None => UB Uninitialised end.
Proof.
  intros Hf Hv. cbn [program]. unfold exec at 1. destruct (var w v) as [o| | |] eqn:E; [destruct (Hv o eq_refl)|..].
  all: destruct w as [[n cs] vs]; cbn [w_heap w_vars]; cbn [construct secs new_]; unfold new_; cbn [h_next h_cells]; cbn [bind fst snd].
  all: unfold set_var; cbn [w_vars w_heap exec var find fst]; unfold var; cbn [w_vars find fst]; rewrite Z.eqb_refl; cbn [bind].
  all: destruct s; cbn [members In] in Hf; repeat (destruct Hf as [<-|Hf]); try contradiction.
  all: cbn [sec_eqb w_heap]; unfold load; cbn [h_cells find fst]; repeat (rewrite ?Z.eqb_refl; try (rewrite (proj2 (Z.eqb_neq _ _)) by lia)); reflexivity.
Qed.
(** a new object holds the initial records *)
Lemma new_holds : holds (T := T) (fun s => new_cell s) (fields0 (T := T)).
Proof. unfold holds, fields0. cbn. repeat split; try discriminate. Qed.
Lemma new_owns : let r := construct (T := T) secs (mkHeap 1 []) (fun _ => 0) in owns (fst r) (snd r) (fun s => new_cell s).
Proof. cbv zeta. unfold owns. split; [destruct s; reflexivity|]. cbn. repeat constructor; cbn; intuition discriminate. Qed.
End Parse.
