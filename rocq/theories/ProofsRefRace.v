(** update_mixed_derivatives as an OpenMP loop: races on its variables. *)
From Coq Require Import ZArith List Permutation Bool Lia String.
From Verif Require Import Base Num NumB64 ModelVec ModelRefMath ModelRefMem ModelRef SpecRefPar SpecRefRun ProofsBase ProofsRefMem ProofsRefPar ProofsRefRun ProofsRefUpd ProofsRefMix ProofsRefStep.
Open Scope Z_scope.

Section Race.
Context {T : Type} {NT : Num T}.
Implicit Types (m : mem T) (p q : prog T).

Lemma reaches_trans ps m qs n : reaches ps m qs n -> forall rs k, reaches qs n rs k -> reaches ps m rs k.
Proof. induction 1; intros; [assumption|]. eapply reach_step; eauto. Qed.
Lemma reaches_one a p b m p' m' : p <> Ret -> act p m = Ok (p', m') -> reaches (a ++ p :: b) m (a ++ p' :: b) m'.
Proof. intros. eapply reach_step; eauto. apply reach_refl. Qed.
(** one thread goes on alone *)
Lemma reaches_run a p b q : forall m m1, run p m = Ok m1 -> reaches (a ++ andthen p q :: b) m (a ++ q :: b) m1.
Proof.
  induction p as [|l k IH|l v p IH|e]; intros m m1 H; cbn [run andthen] in *.
  - injection H as <-. apply reach_refl.
  - destruct (m l) eqn:E; [|discriminate]. eapply reaches_trans; [|eapply IH; exact H]. apply reaches_one; [discriminate|]. cbn. rewrite E. reflexivity.
  - destruct (m l) eqn:E; [|discriminate]. eapply reaches_trans; [|eapply IH; exact H]. apply reaches_one; [discriminate|]. cbn. rewrite E. reflexivity.
  - discriminate.
Qed.

Definition ready (nx ny : Z) (px py : Z -> Z -> T) m : Prop :=
  holds Psix ny nx px m /\ holds Psiy ny nx py m /\ present Psixy ny nx m /\ (forall a, isvar a = true -> m (var a) <> None).
Lemma ready_body nx ny dx dy px py kl m : 2 <= nx < 4294967296 -> 2 <= ny < 4294967296 -> ready nx ny px py m ->
  In kl (nodes ny 0 nx) -> exists m1, run (mixed_body nx ny dx dy kl) m = Ok m1 /\ ready nx ny px py m1.
Proof.
  intros N1 N2 (Hx & Hy & Hp & Hv) Hin. destruct kl as [k l]. apply in_nodes in Hin as [Hk Hl].
  destruct (mixed_run nx ny dx dy px py k l m N1 N2 ltac:(lia) ltac:(lia) Hx Hy (Hp k l Hk Hl) Hv) as (m1 & R1 & _).
  exists m1. split; [exact R1|].
  pose proof (run_frame _ _ _ _ _ (mixed_touches nx ny dx dy (k, l)) R1) as Fr.
  split; [|split; [|split]].
  - intros i j Hi Hj. rewrite Fr by reflexivity. auto.
  - intros i j Hi Hj. rewrite Fr by reflexivity. auto.
  - intros i j Hi Hj. eapply run_keeps; eauto.
  - intros a Ha. eapply run_keeps; eauto.
Qed.
Definition shared (c : bool) : loc := if c then var D1 else var Dxy1.

(** after two reads the iteration is about to write the shared variable *)
Lemma to_write nx ny dx dy px py (c : bool) kl q a b m : 2 <= nx < 4294967296 -> 2 <= ny < 4294967296 -> ready nx ny px py m ->
  (if c then corner nx ny kl else off_boundary nx ny kl) ->
  exists p', next_access p' = Some (shared c, true) /\ reaches (a ++ andthen (mixed_body nx ny dx dy kl) q :: b) m (a ++ p' :: b) m.
Proof.
  intros N1 N2 (Hx & Hy & Hp & Hv) Hc. destruct kl as [k l]. unfold mixed_body. cbv zeta.
  rewrite (u32_small (ny - 1)), (u32_small (nx - 1)), (u32_small (ny - 2)), (u32_small (nx - 2)) by lia.
  assert (two : forall i j i' j' (f g : T -> T -> prog T), (forall v v', andthen (f v v') q = g v v') -> 0 <= i < ny -> 0 <= j < nx -> 0 <= i' < ny -> 0 <= j' < nx ->
    (forall v v', next_access (g v v') = Some (shared c, true)) ->
    exists p'', next_access p'' = Some (shared c, true) /\ reaches (a ++ andthen (rd (Psiy, i, j) (fun v => rd (Psiy, i', j') (fun v' => f v v'))) q :: b) m (a ++ p'' :: b) m).
  { intros i j i' j' f g Ef Hi Hj Hi' Hj' Hn. exists (g (py i j) (py i' j')). split; [apply Hn|].
    unfold rd at 1. cbn [andthen].
    eapply reach_step; [discriminate|cbn; rewrite (Hy i j Hi Hj); reflexivity|].
    unfold rd. cbn [andthen].
    eapply reach_step; [discriminate|cbn; rewrite (Hy i' j' Hi' Hj'); reflexivity|]. cbv beta iota. rewrite Ef. apply reach_refl. }
  destruct c; cbn [fst snd] in Hc.
  - destruct Hc as [Hk Hl]. cbn [fst snd] in Hk, Hl.
    destruct (Z.eqb_spec k 0); destruct (Z.eqb_spec k (ny - 1)); destruct (Z.eqb_spec l 0); destruct (Z.eqb_spec l (nx - 1));
      cbn [orb andb negb]; try lia; unfold slope at 1; (eapply two; [intros; cbn [andthen]; reflexivity|lia|lia|lia|lia|intros; reflexivity]).
  - destruct Hc as [Hk Hl]. cbn [fst snd] in Hk, Hl.
    replace (k =? 0) with false by lia. replace (k =? ny - 1) with false by lia. replace (l =? 0) with false by lia. replace (l =? nx - 1) with false by lia.
    cbn [orb andb negb]. rewrite !(u32_small (l + 1)), !(u32_small (l - 1)) by lia.
    eapply two; [intros; cbn [andthen]; reflexivity|lia|lia|lia|lia|intros; reflexivity].
Qed.

Lemma reaches_list nx ny dx dy px py u post a b : 2 <= nx < 4294967296 -> 2 <= ny < 4294967296 -> forall pre m, ready nx ny px py m ->
  (forall kl, In kl pre -> In kl (nodes ny 0 nx)) ->
  exists m1, ready nx ny px py m1 /\ reaches (a ++ in_order (map (mixed_body nx ny dx dy) (pre ++ u :: post)) :: b) m
    (a ++ andthen (mixed_body nx ny dx dy u) (in_order (map (mixed_body nx ny dx dy) post)) :: b) m1.
Proof.
  intros N1 N2. induction pre as [|kl pre IH]; intros m H Hin; cbn [app map in_order].
  - exists m. split; [exact H|apply reach_refl].
  - destruct (ready_body nx ny dx dy px py kl m N1 N2 H (Hin kl (or_introl eq_refl))) as (m1 & R1 & H1).
    destruct (IH m1 H1) as (m2 & H2 & R2); [intros; apply Hin; right; assumption|].
    exists m2. split; [exact H2|]. eapply reaches_trans; [apply reaches_run; exact R1|exact R2].
Qed.

Lemma mixed_race nx ny dx dy px py (c : bool) t1 ta t2 tb t3 u v m : 2 <= nx < 4294967296 -> 2 <= ny < 4294967296 ->
  team_of (nodes ny 0 nx) (t1 ++ ta :: t2 ++ tb :: t3) -> In u ta -> In v tb ->
  (if c then corner nx ny u /\ corner nx ny v else off_boundary nx ny u /\ off_boundary nx ny v) ->
  ready nx ny px py m -> data_race (threads (mixed_body nx ny dx dy) (t1 ++ ta :: t2 ++ tb :: t3)) m.
Proof.
  intros N1 N2 HT Hu Hv Hc H. set (B := mixed_body nx ny dx dy).
  assert (Hin : forall kl, In kl ta \/ In kl tb -> In kl (nodes ny 0 nx)).
  { intros kl Hkl. apply (Permutation_in _ HT). rewrite concat_app. cbn [concat]. rewrite concat_app. cbn [concat]. rewrite !in_app_iff. tauto. }
  apply in_split in Hu as (pa & qa & ->). apply in_split in Hv as (pb & qb & ->).
  unfold threads. rewrite map_app. cbn [map]. rewrite (map_app _ t2). cbn [map].
  set (X1 := map (fun t => in_order (map B t)) t1). set (X2 := map (fun t => in_order (map B t)) t2). set (X3 := map (fun t => in_order (map B t)) t3).
  destruct (reaches_list nx ny dx dy px py u qa X1 (X2 ++ in_order (map B (pb ++ v :: qb)) :: X3) N1 N2 pa m H) as (m1 & H1 & R1).
  { intros kl Hkl. apply Hin. left. apply in_or_app. auto. }
  destruct (to_write nx ny dx dy px py c u (in_order (map B qa)) X1 (X2 ++ in_order (map B (pb ++ v :: qb)) :: X3) m1 N1 N2 H1) as (p & Ep & R2).
  { destruct c; tauto. }
  destruct (reaches_list nx ny dx dy px py v qb (X1 ++ p :: X2) X3 N1 N2 pb m1 H1) as (m2 & H2 & R3).
  { intros kl Hkl. apply Hin. right. apply in_or_app. auto. }
  destruct (to_write nx ny dx dy px py c v (in_order (map B qb)) (X1 ++ p :: X2) X3 m2 N1 N2 H2) as (p2 & Ep2 & R4).
  { destruct c; tauto. }
  exists ((X1 ++ p :: X2) ++ p2 :: X3), m2. split.
  - eapply reaches_trans; [exact R1|]. eapply reaches_trans; [exact R2|].
    replace (X1 ++ p :: X2 ++ in_order (map B (pb ++ v :: qb)) :: X3) with ((X1 ++ p :: X2) ++ in_order (map B (pb ++ v :: qb)) :: X3) by (rewrite <- app_assoc; reflexivity).
    eapply reaches_trans; [exact R3|exact R4].
  - exists X1, X2, X3, p, p2, (shared c), true, true. split; [rewrite <- app_assoc; reflexivity|]. auto.
Qed.

(** contiguous chunks, at least two of them with an iteration *)
Lemma first_last_chunk {A} (d : A) (teams : list (list A)) : (2 <= length (filter (fun t => negb (match t with [] => true | _ => false end)) teams))%nat ->
  exists t1 ta t2 tb t3, teams = t1 ++ ta :: t2 ++ tb :: t3 /\ In (hd d (concat teams)) ta /\ In (last (concat teams) d) tb.
Proof.
  intros H.
  assert (F : forall ts : list (list A), (1 <= length (filter (fun t => negb (match t with [] => true | _ => false end)) ts))%nat ->
    (exists t1 ta t3, ts = t1 ++ ta :: t3 /\ concat t1 = [] /\ ta <> [])).
  { induction ts as [|t ts IH]; cbn; [lia|]. destruct t as [|x t]; cbn.
    - intros K. destruct (IH K) as (t1 & ta & t3 & -> & E & N). exists ([] :: t1), ta, t3. auto.
    - intros _. exists [], (x :: t), ts. repeat split; auto. discriminate. }
  assert (L : forall ts : list (list A), (1 <= length (filter (fun t => negb (match t with [] => true | _ => false end)) ts))%nat ->
    (exists t1 ta t3, ts = t1 ++ ta :: t3 /\ concat t3 = [] /\ ta <> [])).
  { induction ts as [|t ts IH]; cbn; [lia|]. intros K.
    destruct (filter (fun t => negb (match t with [] => true | _ => false end)) ts) as [|y ys] eqn:E.
    - destruct t as [|x t]; [cbn in K; lia|]. exists [], (x :: t), ts. split; [reflexivity|]. split; [|discriminate].
      clear -E. induction ts as [|t ts IH]; [reflexivity|]. cbn in *. destruct t; [apply IH; exact E|discriminate].
    - destruct IH as (t1 & ta & t3 & -> & E3 & N); [cbn; lia|]. exists (t :: t1), ta, t3. auto. }
  destruct (F teams) as (t1 & ta & r & -> & E1 & N1); [lia|].
  assert (K : (1 <= length (filter (fun t => negb (match t with [] => true | _ => false end)) r))%nat).
  { rewrite filter_app, app_length in H. cbn [filter] in H.
    assert (Z1 : filter (fun t : list A => negb (match t with [] => true | _ => false end)) t1 = []).
    { clear -E1. induction t1 as [|t t1 IH]; [reflexivity|]. cbn in *. apply app_eq_nil in E1 as [-> E1]. cbn. auto. }
    rewrite Z1 in H. destruct ta; cbn in H; [congruence|lia]. }
  destruct (L r K) as (t2 & tb & t3 & -> & E3 & N3).
  exists t1, ta, t2, tb, t3. split; [reflexivity|]. rewrite concat_app, E1. cbn [app concat].
  split.
  - destruct ta as [|x ta]; [congruence|]. left. reflexivity.
  - rewrite concat_app. cbn [concat]. rewrite E3, app_nil_r, app_assoc. destruct (exists_last N3) as (tb' & y & ->).
    rewrite app_assoc, last_last. apply in_or_app. right. left. reflexivity.
Qed.
Lemma nodes_ends nx ny d : 1 <= nx -> 1 <= ny -> hd d (nodes ny 0 nx) = (0, 0) /\ last (nodes ny 0 nx) d = (ny - 1, nx - 1).
Proof.
  intros N1 N2. split.
  - unfold nodes, range. rewrite !Z.sub_0_r. destruct (Z.to_nat ny) eqn:Ey; [lia|]. destruct (Z.to_nat nx) eqn:Ex; [lia|]. reflexivity.
  - unfold nodes. assert (R : forall n, 1 <= n -> range 0 n = range 0 (n - 1) ++ [n - 1]).
    { intros n Hn. unfold range. rewrite !Z.sub_0_r. replace (Z.to_nat n) with (S (Z.to_nat (n - 1))) by lia. rewrite seq_S, map_app. cbn [map]. f_equal. f_equal. lia. }
    rewrite (R ny N2), flat_map_app. cbn [flat_map]. set (X := flat_map _ _). clearbody X. rewrite (R nx N1), map_app. cbn [map]. rewrite app_nil_r, app_assoc. apply last_last.
Qed.
Lemma static_race nx ny dx dy px py teams m : 2 <= nx < 4294967296 -> 2 <= ny < 4294967296 ->
  concat teams = nodes ny 0 nx -> (2 <= length (filter (fun t => negb (match t with [] => true | _ => false end)) teams))%nat ->
  ready nx ny px py m -> data_race (threads (mixed_body nx ny dx dy) teams) m.
Proof.
  intros N1 N2 E H R. destruct (first_last_chunk (0, 0) teams H) as (t1 & ta & t2 & tb & t3 & -> & Hu & Hv).
  rewrite E in Hu, Hv. destruct (nodes_ends nx ny (0, 0) ltac:(lia) ltac:(lia)) as [E1 E2]. rewrite E1 in Hu. rewrite E2 in Hv.
  apply (mixed_race nx ny dx dy px py true t1 ta t2 tb t3 (0, 0) (ny - 1, nx - 1)); auto.
  - unfold team_of. rewrite E. apply Permutation_refl.
  - unfold corner. cbn. lia.
Qed.
End Race.

Lemma busy_filter {A} (teams : list (list A)) : two_busy teams -> (2 <= length (filter (fun t => negb (match t with [] => true | _ => false end)) teams))%nat.
Proof.
  intros (t1 & ta & t2 & tb & t3 & -> & Ha & Hb). rewrite filter_app, app_length. cbn [filter]. destruct ta; [congruence|]. cbn [negb].
  rewrite filter_app. cbn [filter]. destruct tb; [congruence|]. cbn [negb length]. rewrite app_length. cbn [length]. lia.
Qed.
Section Api.
Context {T : Type} {NT : Num T}.
Lemma ready_vars nx ny px py (m : mem T) : holds Psix ny nx px m -> holds Psiy ny nx py m -> present Psixy ny nx m -> ready nx ny px py (mixed_vars m).
Proof.
  intros H1 H2 H3. split; [|split; [|split]].
  - intros i j Hi Hj. rewrite mixed_vars_other by reflexivity. auto.
  - intros i j Hi Hj. rewrite mixed_vars_other by reflexivity. auto.
  - intros i j Hi Hj. rewrite mixed_vars_other by reflexivity. auto.
  - intros a Ha. apply mixed_vars_var. exact Ha.
Qed.
Lemma race_static nx ny dx dy px py teams (m : mem T) : 2 <= nx < 4294967296 -> 2 <= ny < 4294967296 ->
  holds Psix ny nx px m -> holds Psiy ny nx py m -> present Psixy ny nx m ->
  static_chunks (nodes ny 0 nx) teams -> two_busy teams ->
  data_race (threads (mixed_body nx ny dx dy) teams) (mixed_vars m).
Proof.
  intros. eapply static_race; eauto using busy_filter, ready_vars.
Qed.
Lemma race_any nx ny dx dy px py t1 ta t2 tb t3 u v (m : mem T) : 2 <= nx < 4294967296 -> 2 <= ny < 4294967296 ->
  holds Psix ny nx px m -> holds Psiy ny nx py m -> present Psixy ny nx m ->
  team_of (nodes ny 0 nx) (t1 ++ ta :: t2 ++ tb :: t3) -> In u ta -> In v tb ->
  (corner nx ny u /\ corner nx ny v) \/ (off_boundary nx ny u /\ off_boundary nx ny v) ->
  data_race (threads (mixed_body nx ny dx dy) (t1 ++ ta :: t2 ++ tb :: t3)) (mixed_vars m).
Proof.
  intros N1 N2 H1 H2 H3 HT Hu Hv [H|H].
  - apply (mixed_race nx ny dx dy px py true t1 ta t2 tb t3 u v); auto using ready_vars.
  - apply (mixed_race nx ny dx dy px py false t1 ta t2 tb t3 u v); auto using ready_vars.
Qed.
End Api.

(** a schedule: which thread does the next access *)
Fixpoint replace_nth {A} (n : nat) (a : A) (l : list A) : list A :=
  match l, n with [], _ => [] | _ :: l', O => a :: l' | x :: l', S n' => x :: replace_nth n' a l' end.
Fixpoint follow {T} (picks : list nat) (ps : list (prog T)) (m : mem T) : option (list (prog T) * mem T) :=
  match picks with
  | [] => Some (ps, m)
  | n :: r => match nth_error ps n with
      | None | Some Ret => None
      | Some p => match act p m with Ok (p', m') => follow r (replace_nth n p' ps) m' | _ => None end
      end
  end.
Definition all_done {T} (ps : list (prog T)) : bool := forallb (fun p => match p with Ret => true | _ => false end) ps.
Lemma replace_split {A} (l : list A) n a : nth_error l n = Some a -> exists u v, l = u ++ a :: v /\ forall b, replace_nth n b l = u ++ b :: v.
Proof.
  revert n. induction l as [|x l IH]; intros [|n] E; try discriminate.
  - injection E as ->. exists [], l. auto.
  - destruct (IH n E) as (u & v & -> & H). exists (x :: u), v. split; [reflexivity|]. intros b. cbn. rewrite H. reflexivity.
Qed.
Lemma follow_ok {T} picks (ps : list (prog T)) m qs m' : follow picks ps m = Some (qs, m') -> all_done qs = true -> interleaved ps m (Ok m').
Proof.
  revert ps m. induction picks as [|n r IH]; intros ps m E H; cbn [follow] in E.
  - injection E as -> ->. apply il_done. unfold all_done in H. rewrite forallb_forall in H. apply Forall_forall. intros p Hp. specialize (H p Hp). destruct p; congruence.
  - destruct (nth_error ps n) as [p|] eqn:En; [|discriminate].
    assert (Hp : p <> Ret) by (destruct p; discriminate).
    destruct (replace_split _ _ _ En) as (u & v & -> & Hr).
    assert (E' : match act p m with Ok (p', m') => follow r (replace_nth n p' (u ++ p :: v)) m' | _ => None end = Some (qs, m')) by (destruct p; congruence).
    destruct (act p m) as [[p' m1]| | |] eqn:Ea; try discriminate. rewrite Hr in E'.
    eapply il_step; [exact Hp|exact Ea|]. eapply IH; eauto.
Qed.

From Coq Require Import QArith.
(** 3x2 nodes, psix = 0, psiy = 1 at the last node of the first row *)
Definition race_mem : mem Q := fun l => match l with
  | (Psix, i, j) => if ((0 <=? i) && (i <? 2) && (0 <=? j) && (j <? 3))%Z%bool then Some (D 0%Q) else None
  | (Psiy, i, j) => if ((0 <=? i) && (i <? 2) && (0 <=? j) && (j <? 3))%Z%bool then Some (D (if ((i =? 0) && (j =? 2))%Z%bool then 1%Q else 0%Q)) else None
  | (Psixy, i, j) => if ((0 <=? i) && (i <? 2) && (0 <=? j) && (j <? 3))%Z%bool then Some (D 0%Q) else None
  | _ => None end.
Definition race_teams : list (list (Z * Z)) := [[(0, 0); (0, 1); (0, 2)]; [(1, 0); (1, 1); (1, 2)]]%Z.
Definition race_picks : list nat := repeat 0%nat 32 ++ repeat 1%nat 12 ++ repeat 0%nat 5 ++ repeat 1%nat 25.
Definition is_q (v : option (val Q)) (q : Q) : bool := match v with Some (D r) => Qeq_bool r q | _ => false end.
Lemma is_q_ok v q : is_q v q = true -> exists r, v = Some (D r) /\ (r == q)%Q.
Proof. destruct v as [[r| |]|]; try discriminate. intros H. exists r. split; [reflexivity|]. apply Qeq_bool_iff. exact H. Qed.
Lemma wrong_result : exists m1 m2 r1 r2,
  runs (update_mixed_derivatives 3 2 1%Q 1%Q 0 3) (mixed_vars race_mem) = Ok m1 /\
  interleaved (threads (mixed_body 3 2 1%Q 1%Q) race_teams) (mixed_vars race_mem) (Ok m2) /\
  m1 (Psixy, 0, 2)%Z = Some (D r1) /\ (r1 == Qmake 3 4)%Q /\ m2 (Psixy, 0, 2)%Z = Some (D r2) /\ (r2 == 0)%Q.
Proof.
  assert (A : match runs (update_mixed_derivatives 3 2 1%Q 1%Q 0 3) (mixed_vars race_mem) with Ok m1 => is_q (m1 (Psixy, 0, 2)%Z) (Qmake 3 4) | _ => false end = true) by (vm_compute; reflexivity).
  assert (B : match follow race_picks (threads (mixed_body 3 2 1%Q 1%Q) race_teams) (mixed_vars race_mem) with
    Some (qs, m2) => (all_done qs && is_q (m2 (Psixy, 0, 2)%Z) 0)%bool | None => false end = true) by (vm_compute; reflexivity).
  destruct (runs _ _) as [m1| | |]; try discriminate A.
  destruct (follow _ _ _) as [[qs m2]|] eqn:E; try discriminate B. apply andb_prop in B as [B1 B2].
  destruct (is_q_ok _ _ A) as (r1 & E1 & Q1). destruct (is_q_ok _ _ B2) as (r2 & E2 & Q2).
  exists m1, m2, r1, r2. split; [reflexivity|]. split; [eapply follow_ok; eassumption|]. auto.
Qed.
