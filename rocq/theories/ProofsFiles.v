From Coq Require Import List String Bool Lia.
From Verif Require Import Base ModelFiles SpecFiles.
Import ListNotations.

Lemma path_eqb_spec p q : reflect (p = q) (path_eqb p q).
Proof.
  revert q. induction p as [|a p IH]; intros [|b q]; cbn [path_eqb]; try (constructor; congruence).
  destruct (String.eqb_spec a b); cbn [andb]; [|constructor; congruence]. destruct (IH q); constructor; congruence.
Qed.
Lemma find_filter s p q : fs_find (filter (fun e => negb (path_eqb (fst e) p)) s) q = if path_eqb p q then None else fs_find s q.
Proof.
  induction s as [|[r n] s IH]; cbn [filter fs_find fst].
  - destruct (path_eqb p q); reflexivity.
  - destruct (path_eqb_spec r p); cbn [negb fs_find].
    + rewrite IH. subst r. destruct (path_eqb_spec p q); auto.
    + rewrite IH. destruct (path_eqb_spec r q), (path_eqb_spec p q); auto. congruence.
Qed.
Lemma get_put s p n q : p <> [] -> fs_get (fs_put s p n) q = if path_eqb p q then Some n else fs_get s q.
Proof.
  intros Hp. unfold fs_get, fs_put. destruct q as [|a q]; [destruct p; [contradiction|reflexivity]|].
  cbn [fs_find]. destruct (path_eqb_spec p (a :: q)); auto. rewrite find_filter. destruct (path_eqb_spec p (a :: q)); auto. contradiction.
Qed.
Lemma get_del s p q : p <> [] -> fs_get (fs_del s p) q = if path_eqb p q then None else fs_get s q.
Proof.
  intros Hp. unfold fs_get, fs_del. destruct q as [|a q]; [destruct p; [contradiction|reflexivity]|]. apply find_filter.
Qed.

(** *** create_directories *)
Lemma mkdirs_spec todo : forall s done, fs_get s done = Some FDir ->
  let r := fs_mkdirs s done todo in
  (forall q, fs_get s q <> None -> fs_get (snd r) q = fs_get s q) /\
  (forall q, fs_get (snd r) q <> fs_get s q -> fs_get (snd r) q = Some FDir /\ exists t u, q = done ++ t /\ t <> [] /\ todo = t ++ u) /\
  (fst r = true -> fs_get (snd r) (done ++ todo) = Some FDir) /\
  (fst r = false -> exists t u c, todo = t ++ u /\ t <> [] /\ fs_get s (done ++ t) = Some (FFile c)).
Proof.
  induction todo as [|c todo IH]; intros s done Hd; cbn [fs_mkdirs].
  - cbn. rewrite app_nil_r. split; [auto|]. split; [congruence|]. split; [auto|discriminate].
  - destruct (fs_get s (done ++ [c])) as [[x|]|] eqn:E.
    + cbn. split; [auto|]. split; [congruence|]. split; [discriminate|]. intros _. exists [c], todo, x. split; auto. split; [discriminate|exact E].
    + destruct (IH s (done ++ [c]) E) as (A & B & C & D). cbv zeta. split; [exact A|]. split; [|split].
      * intros q Hq. destruct (B q Hq) as (B1 & t & u & -> & Ht & ->). split; auto. exists (c :: t), u. rewrite <- app_assoc. cbn. repeat split; congruence.
      * intros H. specialize (C H). rewrite <- app_assoc in C. exact C.
      * intros H. destruct (D H) as (t & u & x & -> & Ht & Hf). exists (c :: t), u, x. split; [reflexivity|]. split; [discriminate|]. rewrite <- app_assoc in Hf. exact Hf.
    + assert (Hne : done ++ [c] <> []) by (destruct done; discriminate).
      assert (E' : fs_get (fs_put s (done ++ [c]) FDir) (done ++ [c]) = Some FDir).
      { rewrite get_put by auto. destruct (path_eqb_spec (done ++ [c]) (done ++ [c])); congruence. }
      destruct (IH _ _ E') as (A & B & C & D). cbv zeta. split; [|split; [|split]].
      * intros q Hq. rewrite A.
        { rewrite get_put by auto. destruct (path_eqb_spec (done ++ [c]) q); congruence. }
        rewrite get_put by auto. destruct (path_eqb_spec (done ++ [c]) q); congruence.
      * intros q Hq. destruct (path_eqb_spec (done ++ [c]) q) as [Heq|Hneq].
        { subst q. split; [rewrite A; [exact E'|rewrite E'; discriminate]|]. exists [c], todo. split; auto. split; [discriminate|reflexivity]. }
        destruct (B q) as (B1 & t & u & -> & Ht & ->).
        { rewrite get_put by auto. destruct (path_eqb_spec (done ++ [c]) q); congruence. }
        split; auto. exists (c :: t), u. rewrite <- app_assoc. cbn. repeat split; congruence.
      * intros H. specialize (C H). rewrite <- app_assoc in C. exact C.
      * intros H. destruct (D H) as (t & u & x & -> & Ht & Hf). exists (c :: t), u, x. split; [reflexivity|]. split; [discriminate|].
        rewrite get_put in Hf by auto. destruct (path_eqb_spec (done ++ [c]) ((done ++ [c]) ++ t)) as [_|_]; [discriminate|]. rewrite <- app_assoc in Hf. exact Hf.
Qed.

Lemma mkdir_ok u s name : let r := createDirectory u s name in let p := path_of name in
  (fst r = true <-> fs_get (snd r) p <> None) /\
  (fst r = true -> fs_get s p = None -> fs_get (snd r) p = Some FDir) /\
  (fst r = true -> createDirectory u (snd r) name = (true, snd r)) /\
  (fst r = false -> exists q c, on_the_way q p /\ fs_get s q = Some (FFile c)) /\
  (forall q, fs_get s q <> None -> fs_get (snd r) q = fs_get s q) /\
  (forall q, fs_get (snd r) q <> fs_get s q -> fs_get (snd r) q = Some FDir /\ on_the_way q p).
Proof.
  cbv zeta. unfold createDirectory. set (p := path_of name). unfold fs_exists. destruct (fs_get s p) as [n|] eqn:E; cbn [negb].
  - cbn [fst snd]. rewrite E. split; [split; congruence|]. split; [congruence|]. split; [intros _; try rewrite E; reflexivity|].
    split; [discriminate|]. split; [auto|congruence].
  - destruct (mkdirs_spec p s [] eq_refl) as (A & B & C & D). cbn [List.app] in *.
    assert (R : fst (fs_mkdirs s [] p) = true <-> fs_get (snd (fs_mkdirs s [] p)) p <> None).
    { split; [intros H; rewrite (C H); discriminate|]. intros H. destruct (fst (fs_mkdirs s [] p)) eqn:F; auto. exfalso.
      destruct (D eq_refl) as (t & v & x & Ht & Hne & Hf). destruct (B p) as (B1 & _); [congruence|].
      destruct v as [|c v]; [rewrite app_nil_r in Ht; congruence|].
      (* a file on the way stays, so nothing was made below it *)
      clear -D F B B1 E H Hf Ht Hne A.
      assert (K : forall todo s done, fs_get s done = Some FDir -> fst (fs_mkdirs s done todo) = false -> fs_get s (done ++ todo) = None -> fs_get (snd (fs_mkdirs s done todo)) (done ++ todo) = None).
      { clear. induction todo as [|c todo IH]; intros s done Hd F N; cbn [fs_mkdirs] in *; [discriminate|].
        destruct (fs_get s (done ++ [c])) as [[x|]|] eqn:E; cbn [fst snd] in *.
        - exact N.
        - replace (done ++ c :: todo) with ((done ++ [c]) ++ todo) in * by (rewrite <- app_assoc; reflexivity). apply IH; auto.
        - assert (Hne : done ++ [c] <> []) by (destruct done; discriminate).
          replace (done ++ c :: todo) with ((done ++ [c]) ++ todo) in * by (rewrite <- app_assoc; reflexivity). apply IH; auto.
          + rewrite get_put by auto. destruct (path_eqb_spec (done ++ [c]) (done ++ [c])); congruence.
          + rewrite get_put by auto. destruct (path_eqb_spec (done ++ [c]) ((done ++ [c]) ++ todo)) as [Q|]; auto. exfalso.
            assert (todo = []) as ->. { apply (f_equal (@List.length _)) in Q. rewrite (app_length (done ++ [c])) in Q. destruct todo; [reflexivity|cbn in Q; lia]. }
            cbn in F. discriminate. }
      apply H. apply (K p s []); auto. }
    split; [exact R|]. split; [intros H _; exact (C H)|]. split.
    { intros H. rewrite (C H). cbn [negb]. reflexivity. }
    split.
    { intros H. destruct (D H) as (t & v & x & Ht & Hne & Hf). exists t, x. split; [|exact Hf]. split; [exact Hne|]. exists v. exact Ht. }
    split; [exact A|]. intros q Hq. destruct (B q Hq) as (B1 & t & v & -> & Hne & Hp). split; [exact B1|]. split; [exact Hne|]. exists v. exact Hp.
Qed.
Lemma mkdir_file u s name c : fs_get s (path_of name) = Some (FFile c) -> createDirectory u s name = (true, s).
Proof. intros H. unfold createDirectory, fs_exists. rewrite H. reflexivity. Qed.

(** *** write, remove, exists *)
Lemma write_ok u s name text : path_of name <> [] -> fs_get s (removelast (path_of name)) = Some FDir -> fs_get s (path_of name) <> Some FDir ->
  let s' := fu_write u s name text in fs_get s' (path_of name) = Some (FFile text) /\ fileExists u s' name = true /\
  forall q, q <> path_of name -> fs_get s' q = fs_get s q.
Proof.
  intros Hne Hp Hd. cbv zeta. unfold fu_write, fs_write, parent. destruct (path_of name) as [|a p] eqn:E; [contradiction|]. rewrite Hp.
  assert (W : match fs_get s (a :: p) with Some FDir => s | _ => fs_put s (a :: p) (FFile text) end = fs_put s (a :: p) (FFile text)).
  { destruct (fs_get s (a :: p)) as [[]|]; congruence. }
  rewrite W. rewrite get_put by discriminate. destruct (path_eqb_spec (a :: p) (a :: p)) as [_|]; [|congruence]. split; [reflexivity|]. split.
  - unfold fileExists, fs_exists. rewrite E, get_put by discriminate. destruct (path_eqb_spec (a :: p) (a :: p)); congruence.
  - intros q Hq. rewrite get_put by discriminate. destruct (path_eqb_spec (a :: p) q); congruence.
Qed.
Lemma write_lost u s name text : fs_get s (removelast (path_of name)) <> Some FDir \/ fs_get s (path_of name) = Some FDir ->
  fu_write u s name text = s.
Proof.
  intros H. unfold fu_write, fs_write, parent. destruct (path_of name) as [|a p]; auto.
  destruct (fs_get s (removelast (a :: p))) as [[]|]; auto. destruct (fs_get s (a :: p)) as [[]|]; auto; destruct H; congruence.
Qed.
Lemma remove_ok u s name : let r := removeFile u s name in let p := path_of name in
  (fst r = true -> fs_get s p <> None /\ fileExists u (snd r) name = false) /\ (fst r = false -> snd r = s) /\
  (forall q, q <> p -> fs_get (snd r) q = fs_get s q) /\
  (forall c, fs_get s p = Some (FFile c) -> fst r = true) /\ (fs_get s p = None -> fst r = false).
Proof.
  cbv zeta. unfold removeFile, fs_remove, fileExists, fs_exists. destruct (path_of name) as [|a p] eqn:E.
  { cbn. repeat split; try discriminate; auto. }
  assert (G : fs_get (fs_del s (a :: p)) (a :: p) = None). { rewrite get_del by discriminate. destruct (path_eqb_spec (a :: p) (a :: p)); congruence. }
  assert (K : forall q, q <> a :: p -> fs_get (fs_del s (a :: p)) q = fs_get s q). { intros q Hq. rewrite get_del by discriminate. destruct (path_eqb_spec (a :: p) q); congruence. }
  destruct (fs_get s (a :: p)) as [[c|]|] eqn:Eg; [| destruct (has_child s (a :: p)) |]; cbn [fst snd]; rewrite ?G; repeat split; auto; congruence.
Qed.

(** *** histories *)
Lemma call_root o u u' s : fst (fst (call o u s)) = fst (fst (call o u' s)) /\ snd (call o u s) = snd (call o u' s).
Proof.
  destruct o; cbn [call]; auto.
  - unfold removeFile. destruct (fs_remove s (path_of name)); auto.
  - unfold createDirectory. destruct (negb _); [|auto]. destruct (fs_mkdirs s [] (path_of name)); auto.
Qed.
Lemma history_root os : forall u u' s, history os u s = history os u' s.
Proof.
  induction os as [|o os IH]; intros u u' s; cbn [history]; auto. destruct (call_root o u u' s) as (H1 & H2).
  destruct (call o u s) as [[b v] s1], (call o u' s) as [[b' v'] s1']. cbn [fst snd] in *. subst. rewrite (IH v v'). reflexivity.
Qed.

Lemma removelast_pref (q : path) c : removelast (q ++ [c]) = q.
Proof. rewrite removelast_app by discriminate. cbn. apply app_nil_r. Qed.
Lemma removelast_neq (p : path) : p <> [] -> removelast p <> p.
Proof. intros H E. rewrite (app_removelast_last EmptyString H) in E at 2. apply (f_equal (@List.length _)) in E. rewrite app_length in E. cbn in E. lia. Qed.

Lemma tree_put s p n : p <> [] -> is_tree s -> fs_get s (removelast p) = Some FDir -> (n = FDir \/ fs_get s p <> Some FDir) -> is_tree (fs_put s p n).
Proof.
  intros Hp Ht Hd Hn q Hq. rewrite !get_put by auto. destruct (path_eqb_spec p q) as [<-|Hne].
  - intros _. destruct (path_eqb_spec p (removelast p)) as [E|]; auto. exfalso. exact (removelast_neq p Hp (eq_sym E)).
  - intros H. specialize (Ht q Hq H). destruct (path_eqb_spec p (removelast q)) as [E|]; auto. destruct Hn as [->|Hn]; auto. rewrite E in Hn. contradiction.
Qed.
Lemma tree_mkdirs todo : forall s done, fs_get s done = Some FDir -> is_tree s -> is_tree (snd (fs_mkdirs s done todo)).
Proof.
  induction todo as [|c todo IH]; intros s done Hd Ht; cbn [fs_mkdirs]; auto.
  destruct (fs_get s (done ++ [c])) as [[x|]|] eqn:E; auto. assert (Hne : done ++ [c] <> []) by (destruct done; discriminate). apply IH.
  - rewrite get_put by auto. destruct (path_eqb_spec (done ++ [c]) (done ++ [c])); congruence.
  - apply tree_put; auto. rewrite removelast_pref. exact Hd.
Qed.
Lemma find_in s q n : fs_find s q = Some n -> exists e, In e s /\ fst e = q.
Proof.
  induction s as [|[r m] s IH]; cbn [fs_find]; [discriminate|]. destruct (path_eqb_spec r q) as [<-|].
  - intros _. exists (r, m). split; [now left|reflexivity].
  - intros H. destruct (IH H) as (e & He & Hf). exists e. split; [now right|exact Hf].
Qed.
Lemma child_spec s p q : q <> [] -> removelast q = p -> fs_get s q <> None -> has_child s p = true.
Proof.
  intros Hq Hr Hg. unfold fs_get in Hg. destruct q as [|a q]; [contradiction|]. destruct (fs_find s (a :: q)) as [n|] eqn:E; [|contradiction].
  destruct (find_in _ _ _ E) as (e & He & Hf). unfold has_child. apply existsb_exists. exists e. split; auto. destruct e as [r m]. cbn [fst] in *. subst r. unfold parent. rewrite Hr.
  destruct (path_eqb_spec p p); congruence.
Qed.
Lemma tree_del s p : p <> [] -> is_tree s -> has_child s p = false -> is_tree (fs_del s p).
Proof.
  intros Hp Ht Hc q Hq. rewrite !get_del by auto. destruct (path_eqb_spec p q); [congruence|]. intros H. specialize (Ht q Hq H) as Hd.
  destruct (path_eqb_spec p (removelast q)) as [E|]; auto. exfalso. rewrite (child_spec s p q) in Hc; auto. discriminate.
Qed.
Lemma tree_call o u s : is_tree s -> is_tree (snd (call o u s)).
Proof.
  intros Ht. destruct o; cbn [call snd]; auto.
  - unfold removeFile, fs_remove. destruct (path_of name) as [|a p]; auto. destruct (fs_get s (a :: p)) as [[c|]|] eqn:E; auto.
    + cbn [snd]. apply tree_del; auto; [discriminate|]. destruct (has_child s (a :: p)) eqn:Hc; auto. exfalso.
      unfold has_child in Hc. apply existsb_exists in Hc. destruct Hc as ([q n] & Hin & Hq). cbn [fst] in Hq. destruct q as [|b q]; [discriminate|].
      destruct (path_eqb_spec (parent (b :: q)) (a :: p)) as [Hpar|]; [|discriminate].
      assert (Hg : fs_get s (b :: q) <> None).
      { cbn [fs_get]. clear -Hin. induction s as [|[r m] s IH]; [destruct Hin|]. cbn [fs_find]. destruct (path_eqb_spec r (b :: q)); [discriminate|].
        destruct Hin as [Hin|Hin]; [congruence|auto]. }
      specialize (Ht (b :: q)). unfold parent in Hpar. rewrite Hpar, E in Ht. specialize (Ht ltac:(discriminate) Hg). discriminate.
    + destruct (has_child s (a :: p)) eqn:Hc; cbn [snd]; auto. apply tree_del; auto. discriminate.
  - unfold createDirectory. destruct (negb _); [|auto]. pose proof (tree_mkdirs (path_of name) s [] eq_refl Ht) as H. destruct (fs_mkdirs s [] (path_of name)); exact H.
  - unfold fu_write, fs_write, parent. destruct (path_of name) as [|a p]; auto. destruct (fs_get s (removelast (a :: p))) as [[]|] eqn:E; auto.
    destruct (fs_get s (a :: p)) as [[]|] eqn:E2; auto; apply tree_put; auto; try discriminate; right; congruence.
Qed.
Lemma tree_history os : forall u s, is_tree s -> is_tree (snd (history os u s)).
Proof.
  induction os as [|o os IH]; intros u s H; cbn [history]; auto. pose proof (tree_call o u s H) as K.
  destruct (call o u s) as [[b v] s1]. cbn [snd] in K. specialize (IH v s1 K). destruct (history os v s1). exact IH.
Qed.

Lemma find_entry s q : (exists n, In (q, n) s) <-> fs_find s q <> None.
Proof.
  induction s as [|[r k] s IH]; cbn [fs_find In]; [split; [intros [n []]|congruence]|].
  destruct (path_eqb_spec r q) as [->|N].
  - split; [discriminate|]. intros _. exists k. auto.
  - rewrite <- IH. split; intros [n H]; exists n; [destruct H as [H|H]; [congruence|exact H]|auto].
Qed.
Lemma remove_dir u s name : let p := path_of name in p <> [] -> fs_get s p = Some FDir ->
  (fst (removeFile u s name) = true <-> forall q, q <> [] -> removelast q = p -> fs_get s q = None).
Proof.
  intros p Hp Hd. unfold removeFile. fold p. unfold fs_remove. destruct p as [|c p'] eqn:E; [congruence|]. rewrite Hd.
  assert (K : has_child s (c :: p') = true <-> exists d q n, In (d :: q, n) s /\ removelast (d :: q) = c :: p').
  { unfold has_child. rewrite existsb_exists. split.
    - intros ((q & n) & Hin & Hq). cbn [fst] in Hq. destruct q as [|d q]; [discriminate|]. exists d, q, n. split; [exact Hin|].
      unfold parent in Hq. destruct (path_eqb_spec (removelast (d :: q)) (c :: p')); [assumption|discriminate].
    - intros (d & q & n & Hin & Hq). exists (d :: q, n). split; [exact Hin|]. cbn [fst]. unfold parent. rewrite Hq. destruct (path_eqb_spec (c :: p') (c :: p')); congruence. }
  destruct (has_child s (c :: p')); cbn [fst].
  - split; [discriminate|]. intros H. exfalso. destruct (proj1 K eq_refl) as (d & q & n & Hin & Hq).
    specialize (H (d :: q) ltac:(discriminate) Hq). apply (proj1 (find_entry s (d :: q))); eauto.
  - split; [|reflexivity]. intros _ q Hq Hr. destruct q as [|d q]; [congruence|]. change (fs_find s (d :: q) = None).
    destruct (fs_find s (d :: q)) as [n|] eqn:F; [|reflexivity]. exfalso.
    destruct (proj2 (find_entry s (d :: q))) as [n' Hin]; [congruence|]. assert (false = true) by (apply K; exists d, q, n'; auto). discriminate.
Qed.
