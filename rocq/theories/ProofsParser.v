From Coq Require Import ZArith List String Lia Permutation.
From Verif Require Import Base Num NumB64 ModelVec ModelAnalytic ModelParser ModelFiles ModelApp SpecParser.
Import ListNotations.
Open Scope string_scope.

Lemma find_entry l key : yfind l key = entry l key.
Proof.
  unfold entry. induction l as [|[k v] l IH]; cbn [yfind find fst]; auto. destruct (String.eqb k key); auto.
Qed.

(** *** reading *)
Lemma bind_ok {A B} (o : outcome A) (f : A -> outcome B) b : bind o f = Ok b <-> exists a, o = Ok a /\ f a = Ok b.
Proof. destruct o; cbn [bind]; split; try discriminate; try (intros (? & ? & ?); congruence); eauto. Qed.
Lemma sub1 n k m : ysub (Some n) k = Ok (Some m) <-> at_path [k] n = Some m.
Proof.
  destruct n; cbn [ysub at_path]; split; try discriminate. 
  - rewrite find_entry. intros H. injection H as ->. reflexivity.
  - rewrite find_entry. destruct (entry l k); try discriminate. intros H. injection H as ->. reflexivity.
Qed.
Lemma sub2 n k1 k2 m : (exists b, ysub (Some n) k1 = Ok b /\ ysub b k2 = Ok (Some m)) <-> at_path [k1; k2] n = Some m.
Proof.
  split.
  - intros (b & H1 & H2). destruct b as [b|]; [|discriminate]. apply sub1 in H1. apply sub1 in H2.
    cbn [at_path] in *. destruct n; try discriminate. destruct (entry l k1); [|discriminate]. injection H1 as ->. exact H2.
  - intros H. cbn [at_path] in H. destruct n as [| | |l]; try discriminate. destruct (entry l k1) as [b|] eqn:E; [|discriminate].
    exists (Some b). cbn [ysub]. rewrite find_entry, E. split; auto. apply sub1. exact H.
Qed.
Lemma as_scalar {A} (conv : string -> option A) o v : yas conv o = Ok v <-> exists s, o = Some (YScalar s) /\ conv s = Some v.
Proof.
  unfold yas. destruct o as [[]|]; split; try discriminate; try (intros (? & ? & ?); congruence).
  - destruct (conv s) eqn:E; try discriminate. intros H. injection H as <-. eauto.
  - intros (s' & E & H). injection E as <-. rewrite H. reflexivity.
Qed.
Lemma as_str nul o v : yas_string nul o = Ok v <-> o = Some (YScalar v) \/ (o = Some YNull /\ nul = Some v).
Proof.
  unfold yas_string. destruct o as [[]|]; split; try discriminate; try (intros [|[? ?]]; congruence).
  - destruct nul; [|discriminate]. intros H. injection H as <-. auto.
  - intros [H|(_ & ->)]; [discriminate|]. reflexivity.
  - intros H. injection H as <-. auto.
Qed.
Lemma as_list {A} (conv : string -> option A) l vs :
  yas_list conv l = Ok vs <-> Forall2 (fun y v => exists s, y = YScalar s /\ conv s = Some v) l vs.
Proof.
  revert vs. induction l as [|y l IH]; intros vs; cbn [yas_list].
  - split; intros H; [injection H as <-; constructor|inversion H; reflexivity].
  - rewrite bind_ok. split.
    + intros (a & H1 & H2). apply bind_ok in H2. destruct H2 as (r & H2 & H3). injection H3 as <-. constructor.
      * apply as_scalar in H1. destruct H1 as (s & E & H). injection E as ->. eauto.
      * apply IH. exact H2.
    + intros H. inversion H as [|y' v l' vs' (s & -> & Hs) Hr]; subst. exists v. split; [cbn; rewrite Hs; reflexivity|].
      apply IH in Hr. rewrite Hr. reflexivity.
Qed.
Lemma as_vec {A} (conv : string -> option A) o vs :
  yas_vector conv o = Ok vs <-> exists l, o = Some (YSeq l) /\ Forall2 (fun y v => exists s, y = YScalar s /\ conv s = Some v) l vs.
Proof.
  unfold yas_vector. destruct o as [[]|]; split; try discriminate; try (intros (? & ? & ?); congruence).
  - intros H. apply as_list in H. eauto.
  - intros (l' & E & H). injection E as <-. apply as_list. exact H.
Qed.

Lemma none_scalar {A} (conv : string -> option A) v : ~ yas conv None = Ok v. Proof. discriminate. Qed.

Lemma read_scalar1 {A} (conv : string -> option A) n k v : (m <- ysub (Some n) k ;; yas conv m) = Ok v <-> scalar_at conv [k] n v.
Proof.
  rewrite bind_ok. split.
  - intros (m & H1 & H2). apply as_scalar in H2. destruct H2 as (s & -> & Hs). apply sub1 in H1. exists s. auto.
  - intros (s & H1 & Hs). apply sub1 in H1. eexists. split; [exact H1|]. apply as_scalar. eauto.
Qed.
Lemma read_scalar2 {A} (conv : string -> option A) n k1 k2 v :
  (b <- ysub (Some n) k1 ;; m <- ysub b k2 ;; yas conv m) = Ok v <-> scalar_at conv [k1; k2] n v.
Proof.
  rewrite bind_ok. split.
  - intros (b & H1 & H). apply bind_ok in H. destruct H as (m & H2 & H3). apply as_scalar in H3. destruct H3 as (s & -> & Hs). exists s. split; auto. apply sub2. eauto.
  - intros (s & H & Hs). apply sub2 in H. destruct H as (b & H1 & H2). exists b. split; auto. apply bind_ok. eexists. split; [exact H2|]. apply as_scalar. eauto.
Qed.
Lemma read_string1 nul n k v : (m <- ysub (Some n) k ;; yas_string nul m) = Ok v <-> string_at nul [k] n v.
Proof.
  rewrite bind_ok. split.
  - intros (m & H1 & H2). apply as_str in H2. destruct H2 as [-> | (-> & E)]; [left|right; split; auto]; apply sub1; auto.
  - intros [H|(H & E)]; apply sub1 in H; eexists; (split; [exact H|]); apply as_str; auto.
Qed.
Lemma read_string2 nul n k1 k2 v : (b <- ysub (Some n) k1 ;; m <- ysub b k2 ;; yas_string nul m) = Ok v <-> string_at nul [k1; k2] n v.
Proof.
  rewrite bind_ok. split.
  - intros (b & H1 & H). apply bind_ok in H. destruct H as (m & H2 & H3). apply as_str in H3.
    destruct H3 as [-> | (-> & E)]; [left|right; split; auto]; apply sub2; eauto.
  - intros [H|(H & E)]; apply sub2 in H; destruct H as (b & H1 & H2); exists b; (split; auto); apply bind_ok; eexists; (split; [exact H2|]); apply as_str; auto.
Qed.
Lemma read_list1 {A} (conv : string -> option A) n k vs : (m <- ysub (Some n) k ;; yas_vector conv m) = Ok vs <-> list_at conv [k] n vs.
Proof.
  rewrite bind_ok. split.
  - intros (m & H1 & H2). apply as_vec in H2. destruct H2 as (l & -> & Hs). apply sub1 in H1. exists l. auto.
  - intros (l & H1 & Hs). apply sub1 in H1. eexists. split; [exact H1|]. apply as_vec. eauto.
Qed.
Lemma list_at_fun {A} (conv : string -> option A) p n vs ws : list_at conv p n vs -> list_at conv p n ws -> vs = ws.
Proof.
  intros (l & E & H) (l' & E' & H'). rewrite E in E'. injection E' as <-. apply as_list in H. apply as_list in H'. congruence.
Qed.

Section Parse.
Context {T : Type} (dbl : string -> option T) (int : string -> option Z) (nul : option string).

Lemma general_iff n d : parse_general nul (Some n) = Ok d <-> general_says nul n d.
Proof. apply read_string1. Qed.

Lemma count_ok n idx z : (c <- ysub (Some n) "cells" ;; l <- yas_vector int c ;; vread l idx) = Ok z <->
  exists vs, list_at int ["cells"] n vs /\ vread vs idx = Ok z.
Proof.
  rewrite bind_ok. split.
  - intros (c & H1 & H). apply bind_ok in H. destruct H as (vs & H2 & H3). exists vs. split; auto. apply read_list1. rewrite H1. exact H2.
  - intros (vs & H1 & H2). apply read_list1 in H1. apply bind_ok in H1. destruct H1 as (c & H1 & H3). exists c. split; auto. rewrite H3. exact H2.
Qed.
Lemma read_at {A} (l : list A) k z : vread l (Z.of_nat k) = Ok z <-> nth_error l k = Some z.
Proof.
  unfold vread. rewrite (proj2 (Z.leb_le _ _)) by lia. rewrite Nat2Z.id. destruct (nth_error l k); split; congruence.
Qed.
Lemma bind3 {A B} (x : outcome A) f (b : B) : (exists a, x = Ok a /\ f a = Ok b) -> bind x f = Ok b.
Proof. intros (a & -> & H). exact H. Qed.

Ltac split_bind H := apply bind_ok in H; let v := fresh "v" in let E := fresh "E" in destruct H as (v & E & H).

Lemma grid_iff n gi : parse_grid dbl int (Some n) = Ok gi <-> grid_says dbl int n gi.
Proof.
  unfold parse_grid, grid_says, box_says. split.
  - intros H. do 9 split_bind H. injection H as <-. cbn [gi_min gi_max gi_n vx vy vz].
    rewrite read_scalar2 in E, E0, E1, E2, E3, E4. rewrite count_ok in E5, E6, E7.
    split; [tauto|]. destruct E5 as (vs & L & R0), E6 as (vs' & L' & R1), E7 as (vs'' & L'' & R2).
    rewrite <- (list_at_fun _ _ _ _ _ L L') in R1. rewrite <- (list_at_fun _ _ _ _ _ L L'') in R2.
    apply (read_at vs 0) in R0. apply (read_at vs 1) in R1. apply (read_at vs 2) in R2.
    destruct vs as [|a [|b [|c more]]]; try discriminate. cbn in R0, R1, R2. injection R0 as ->. injection R1 as ->. injection R2 as ->. exists more. exact L.
  - destruct gi as [[x0 y0 z0] [x1 y1 z1] [nx ny nz]]. cbn [gi_min gi_max gi_n vx vy vz]. intros ((H1 & H2 & H3 & H4 & H5 & H6) & more & L).
    rewrite <- read_scalar2 in H1, H2, H3, H4, H5, H6.
    rewrite H1; cbn [bind]. rewrite H2; cbn [bind]. rewrite H3; cbn [bind]. rewrite H4; cbn [bind]. rewrite H5; cbn [bind]. rewrite H6; cbn [bind].
    rewrite (proj2 (count_ok n 0 nx)); [cbn [bind]|eexists; split; [exact L|reflexivity]].
    rewrite (proj2 (count_ok n 1 ny)); [cbn [bind]|eexists; split; [exact L|reflexivity]].
    rewrite (proj2 (count_ok n 2 nz)); [cbn [bind]|eexists; split; [exact L|reflexivity]]. reflexivity.
Qed.
Lemma time_iff n ti : parse_time dbl nul (Some n) = Ok ti <-> time_says dbl nul n ti.
Proof.
  unfold parse_time, time_says. split.
  - intros H. do 4 split_bind H. injection H as <-. cbn [ti_start ti_end ti_dt ti_constant_dt]. rewrite read_scalar1 in E, E0, E1. rewrite read_string1 in E2. auto.
  - destruct ti as [s e d c]. cbn [ti_start ti_end ti_dt ti_constant_dt]. intros (H1 & H2 & H3 & H4). rewrite <- read_scalar1 in H1, H2, H3. rewrite <- read_string1 in H4.
    rewrite H1; cbn [bind]. rewrite H2; cbn [bind]. rewrite H3; cbn [bind]. rewrite H4; cbn [bind]. reflexivity.
Qed.
Lemma velocity_iff n vi : parse_velocity dbl nul (Some n) = Ok vi <-> velocity_says dbl nul n vi.
Proof.
  unfold parse_velocity, velocity_says. split.
  - intros H. do 4 split_bind H. injection H as <-. cbn [vi_name vi_vector vi_center vi_scheme]. rewrite read_string1 in E. rewrite read_list1 in E0, E1. rewrite read_string2 in E2. auto.
  - destruct vi as [nm v c s]. cbn [vi_name vi_vector vi_center vi_scheme]. intros (H1 & H2 & H3 & H4). rewrite <- read_string1 in H1. rewrite <- read_list1 in H2, H3. rewrite <- read_string2 in H4.
    rewrite H1; cbn [bind]. rewrite H2; cbn [bind]. rewrite H3; cbn [bind]. rewrite H4; cbn [bind]. reflexivity.
Qed.
Lemma macro_true b : exists k, if_macro true b = Ok k.
Proof. destruct b; eexists; reflexivity. Qed.
Lemma macro_false b : if_macro false b = Exit 0.
Proof. destruct b; reflexivity. Qed.
Lemma center_ok n c : (m <- ysub (Some n) "center" ;; l <- yas_vector dbl m ;; vec3_of_vector true l) = Ok c <->
  exists more, list_at dbl ["center"] n (vx c :: vy c :: vz c :: more).
Proof.
  rewrite bind_ok. split.
  - intros (m & H1 & H). split_bind H. unfold vec3_of_vector in H. split_bind H. clear E0 v0. do 3 split_bind H. injection H as <-. cbn [vx vy vz].

    assert (L : list_at dbl ["center"] n v) by (apply read_list1; rewrite H1; exact E).
    apply (read_at v 0) in E0. apply (read_at v 1) in E1. apply (read_at v 2) in E2.
    destruct v as [|x [|y [|z more]]]; try discriminate. cbn in E0, E1, E2. injection E0 as ->. injection E1 as ->. injection E2 as ->. eauto.
  - destruct c as [x y z]. cbn [vx vy vz]. intros (more & L). apply read_list1 in L. apply bind_ok in L. destruct L as (m & H1 & H2). exists m. split; auto.
    rewrite H2. cbn [bind]. unfold vec3_of_vector. destruct (macro_true (negb (Nat.eqb (List.length (x :: y :: z :: more)) 3))) as (q & ->). reflexivity.
Qed.
Lemma levelset_iff n li : parse_levelset dbl nul true (Some n) = Ok li <-> levelset_says dbl nul n li.
Proof.
  unfold parse_levelset, levelset_says. split.
  - intros H. do 4 split_bind H. injection H as <-. cbn [li_name li_center li_radius li_scheme]. rewrite read_string1 in E. rewrite center_ok in E0. rewrite read_scalar1 in E1. rewrite read_string2 in E2. auto.
  - destruct li as [nm c r s]. cbn [li_name li_center li_radius li_scheme]. intros (H1 & H2 & H3 & H4). rewrite <- read_string1 in H1. rewrite <- center_ok in H2. rewrite <- read_scalar1 in H3. rewrite <- read_string2 in H4.
    rewrite H1; cbn [bind]. rewrite H2; cbn [bind]. rewrite H3; cbn [bind]. rewrite H4; cbn [bind]. reflexivity.
Qed.

Lemma section_iff {A} kvs key (p : option yaml -> outcome A) (says : yaml -> A -> Prop) r :
  (forall n a, p (Some n) = Ok a <-> says n a) ->
  section (Some (YMap kvs)) key p = Ok r <-> match entry kvs key with None => r = None | Some n => exists a, r = Some a /\ says n a end.
Proof.
  intros H. unfold section. cbn [ysub bind]. rewrite find_entry. destruct (entry kvs key) as [n|].
  - rewrite bind_ok. split.
    + intros (a & H1 & H2). injection H2 as <-. apply H in H1. eauto.
    + intros (a & -> & Ha). apply H in Ha. eauto.
  - split; [intros E; injection E as <-; auto|intros ->; reflexivity].
Qed.

Lemma parse_iff kvs old new : parse dbl int nul true (YMap kvs) old = Ok new <-> document_says dbl int nul kvs old new.
Proof.
  unfold parse, document_says, sets. split.
  - intros H. do 5 split_bind H. injection H as <-. cbn [if_general if_grid if_time if_vel if_ls].
    rewrite (section_iff _ _ _ _ _ general_iff) in E. rewrite (section_iff _ _ _ _ _ grid_iff) in E0. rewrite (section_iff _ _ _ _ _ time_iff) in E1.
    rewrite (section_iff _ _ _ _ _ velocity_iff) in E2. rewrite (section_iff _ _ _ _ _ levelset_iff) in E3.
    repeat split.
    + destruct (entry kvs "general"); [destruct E as (a & -> & Ha); exact Ha|subst; reflexivity].
    + destruct (entry kvs "grid"); [destruct E0 as (a & -> & Ha); exists a; auto|subst; reflexivity].
    + destruct (entry kvs "time"); [destruct E1 as (a & -> & Ha); exists a; auto|subst; reflexivity].
    + destruct (entry kvs "velocity"); [destruct E2 as (a & -> & Ha); exact Ha|subst; reflexivity].
    + destruct (entry kvs "levelset"); [destruct E3 as (a & -> & Ha); exists a; auto|subst; reflexivity].
  - destruct new as [ge gr ti ve ls]. cbn [if_general if_grid if_time if_vel if_ls]. intros (H1 & H2 & H3 & H4 & H5).
    apply bind_ok. exists (match entry kvs "general" with None => None | Some _ => Some ge end). split.
    { apply (section_iff _ _ _ _ _ general_iff). destruct (entry kvs "general"); eauto. }
    apply bind_ok. exists (match entry kvs "grid" with None => None | Some _ => gr end). split.
    { apply (section_iff _ _ _ _ _ grid_iff). destruct (entry kvs "grid"); auto. }
    apply bind_ok. exists (match entry kvs "time" with None => None | Some _ => ti end). split.
    { apply (section_iff _ _ _ _ _ time_iff). destruct (entry kvs "time"); auto. }
    apply bind_ok. exists (match entry kvs "velocity" with None => None | Some _ => Some ve end). split.
    { apply (section_iff _ _ _ _ _ velocity_iff). destruct (entry kvs "velocity"); eauto. }
    apply bind_ok. exists (match entry kvs "levelset" with None => None | Some _ => ls end). split.
    { apply (section_iff _ _ _ _ _ levelset_iff). destruct (entry kvs "levelset"); auto. }
    f_equal. f_equal.
    + destruct (entry kvs "general"); auto.
    + destruct (entry kvs "grid"); [destruct H2 as (a & -> & _)|]; auto.
    + destruct (entry kvs "time"); [destruct H3 as (a & -> & _)|]; auto.
    + destruct (entry kvs "velocity"); auto.
    + destruct (entry kvs "levelset"); [destruct H5 as (a & -> & _)|]; auto.
Qed.

(** *** order *)
Lemma entry_perm kvs kvs' key : NoDup (map fst kvs) -> Permutation kvs kvs' -> entry kvs key = entry kvs' key.
Proof.
  intros ND P. induction P as [|[k v] l l' P IH|[k v] [k' v'] l|l1 l2 l3 P1 IH1 P2 IH2].
  - reflexivity.
  - unfold entry in *. cbn [find fst]. destruct (String.eqb k key); auto. apply IH. inversion ND; auto.
  - unfold entry. cbn [find fst]. destruct (String.eqb_spec k key), (String.eqb_spec k' key); auto. subst. inversion ND; subst. cbn in H1. tauto.
  - rewrite IH1 by auto. apply IH2. apply (Permutation_NoDup (l := map fst l1)); auto. apply Permutation_map. exact P1.
Qed.
Lemma parse_order bt kvs kvs' fs : (forall key, In key ["general"; "grid"; "time"; "velocity"; "levelset"] -> entry kvs key = entry kvs' key) ->
  parse dbl int nul bt (YMap kvs) fs = parse dbl int nul bt (YMap kvs') fs.
Proof.
  intros H. unfold parse, section. cbn [ysub]. rewrite !find_entry.
  rewrite (H "general"), (H "grid"), (H "time"), (H "velocity"), (H "levelset") by (cbn; tauto). reflexivity.
Qed.
Lemma parse_perm bt kvs kvs' fs : NoDup (map fst kvs) -> Permutation kvs kvs' ->
  parse dbl int nul bt (YMap kvs) fs = parse dbl int nul bt (YMap kvs') fs.
Proof. intros H P. apply parse_order. intros key _. apply entry_perm; auto. Qed.

(** *** malformed lists *)
Lemma short_cells bt kvs fs n lo hi vs :
  (forall m, entry kvs "general" = Some m -> exists d, general_says nul m d) ->
  entry kvs "grid" = Some n -> box_says dbl n lo hi -> list_at int ["cells"] n vs -> (List.length vs < 3)%nat ->
  parse dbl int nul bt (YMap kvs) fs = UB OutOfBounds.
Proof.
  intros Hge Hn (H1 & H2 & H3 & H4 & H5 & H6) L Hlen. unfold parse.
  assert (G : exists r, section (Some (YMap kvs)) "general" (parse_general nul) = Ok r).
  { unfold section. cbn [ysub bind]. rewrite find_entry. destruct (entry kvs "general") as [m|] eqn:E.
    - destruct (Hge m eq_refl) as (d & Hd). apply general_iff in Hd. rewrite Hd. cbn [bind]. eauto.
    - eauto. }
  destruct G as (r & ->). cbn [bind]. unfold section at 1. cbn [ysub bind]. rewrite find_entry, Hn.
  unfold parse_grid at 1. rewrite <- read_scalar2 in H1, H2, H3, H4, H5, H6.
  rewrite H1; cbn [bind]. rewrite H2; cbn [bind]. rewrite H3; cbn [bind]. rewrite H4; cbn [bind]. rewrite H5; cbn [bind]. rewrite H6; cbn [bind].
  apply read_list1 in L. apply bind_ok in L. destruct L as (c & Hc & Hv). rewrite Hc. cbn [bind]. rewrite Hv. cbn [bind].
  destruct vs as [|a [|b [|c' more]]]; cbn in Hlen; try lia; reflexivity.
Qed.
Lemma grid_only bt fs n gi : grid_says dbl int n gi ->
  parse dbl int nul bt (YMap [("grid", n)]) fs = Ok (mkIF (if_general fs) (Some gi) (if_time fs) (if_vel fs) (if_ls fs)).
Proof.
  intros H. apply grid_iff in H. unfold parse, section. cbn [ysub yfind String.eqb Ascii.eqb Bool.eqb bind]. rewrite H. reflexivity.
Qed.
Lemma short_center fs n vs nm : string_at nul ["name"] n nm -> list_at dbl ["center"] n vs -> (List.length vs < 3)%nat ->
  parse dbl int nul true (YMap [("levelset", n)]) fs = UB OutOfBounds.
Proof.
  intros Hn L Hlen. unfold parse, section. cbn [ysub yfind String.eqb Ascii.eqb Bool.eqb bind]. unfold parse_levelset.
  apply read_string1 in Hn. rewrite Hn. cbn [bind].
  apply read_list1 in L. apply bind_ok in L. destruct L as (c & Hc & Hv). rewrite Hc. cbn [bind]. rewrite Hv. cbn [bind].
  destruct vs as [|a [|b [|c' more]]]; cbn in Hlen; try lia; reflexivity.
Qed.

(** *** builds without BUILD_TESTS *)
Lemma release_levelset kvs fs fs' : parse dbl int nul true (YMap kvs) fs = Ok fs' -> entry kvs "levelset" <> None ->
  parse dbl int nul false (YMap kvs) fs = Exit 0.
Proof.
  intros H Hl. unfold parse in *. do 5 split_bind H. rewrite E. cbn [bind]. rewrite E0. cbn [bind]. rewrite E1. cbn [bind]. rewrite E2. cbn [bind].
  revert E3. unfold section. cbn [ysub bind]. rewrite find_entry. destruct (entry kvs "levelset") as [n|]; [|congruence]. intros E3.
  split_bind E3. apply levelset_iff in E4. destruct E4 as (H1 & (more & H2) & _).
  unfold parse_levelset. apply read_string1 in H1. rewrite H1. cbn [bind].
  apply read_list1 in H2. apply bind_ok in H2. destruct H2 as (c & Hc & Hv). rewrite Hc. cbn [bind]. rewrite Hv. cbn [bind]. unfold vec3_of_vector. rewrite macro_false. reflexivity.
Qed.
Lemma release_other kvs fs : entry kvs "levelset" = None -> parse dbl int nul false (YMap kvs) fs = parse dbl int nul true (YMap kvs) fs.
Proof. intros H. unfold parse, section. cbn [ysub]. rewrite !find_entry, H. reflexivity. Qed.

Lemma release_main {NT : Num T} {TT : Trans T} fuel ov fmt file kvs fs' disk : parse dbl int nul true (YMap kvs) fields0 = Ok fs' ->
  entry kvs "levelset" <> None -> app_main fuel ov false dbl int nul fmt (Some file) (Some (YMap kvs)) disk = Some (Exit 0).
Proof.
  intros H Hl. unfold app_main. destruct (fileExists _ _ _); cbn [negb]; auto. rewrite (release_levelset _ _ _ H Hl). reflexivity.
Qed.
End Parse.
