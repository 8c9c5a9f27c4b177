From Coq Require Import ZArith List String Ascii Lia Bool.
From Verif Require Import Base Num ModelVec ModelGrid ModelArray ModelOutput SpecGrid SpecOutput ProofsBase ProofsGrid ProofsArray ProofsGridProps.
Open Scope Z_scope.

Lemma split_free sep a : occurs sep a = false -> split_at sep a = [a].
Proof.
  induction a as [|c a IH]; cbn [occurs split_at]; auto. intros H. apply orb_false_iff in H. destruct H as [-> H]. rewrite IH by auto. reflexivity.
Qed.
Lemma split_app sep a b : occurs sep a = false -> split_at sep (a ++ String sep b)%string = a :: split_at sep b.
Proof.
  induction a as [|c a IH]; cbn [append occurs split_at]; intros H.
  - rewrite Ascii.eqb_refl. reflexivity.
  - apply orb_false_iff in H. destruct H as [-> H]. rewrite IH by auto. reflexivity.
Qed.
Lemma occurs_app sep a b : occurs sep (a ++ b)%string = (occurs sep a || occurs sep b)%bool.
Proof. induction a as [|c a IH]; cbn [append occurs]; auto. rewrite IH, orb_assoc. reflexivity. Qed.
Lemma append_assoc a b c : ((a ++ b) ++ c = a ++ (b ++ c))%string.
Proof. induction a as [|x a IH]; cbn [append]; auto. rewrite IH. reflexivity. Qed.
Lemma append_nil_r a : (a ++ "" = a)%string.
Proof. induction a as [|x a IH]; cbn [append]; auto. rewrite IH. reflexivity. Qed.

Lemma nth_flat_map {A B} (f : A -> list B) m : (forall a, List.length (f a) = m) -> forall l i j a, nth_error l i = Some a -> (j < m)%nat ->
  nth_error (flat_map f l) (i * m + j) = nth_error (f a) j.
Proof.
  intros Hm. induction l as [|x l IH]; intros i j a Hi Hj; [destruct i; discriminate|]. cbn [flat_map].
  destruct i as [|i]; cbn [nth_error] in Hi.
  - injection Hi as ->. rewrite nth_error_app1 by (rewrite Hm; lia). reflexivity.
  - rewrite nth_error_app2 by (rewrite Hm; lia). rewrite Hm. replace (S i * m + j - m)%nat with (i * m + j)%nat by lia. apply IH; auto.
Qed.
Lemma nth_range lo hi i : lo <= i < hi -> nth_error (range lo hi) (Z.to_nat (i - lo)) = Some i.
Proof.
  intros H. unfold range. rewrite nth_error_map.
  rewrite (nth_error_nth' _ 0%nat) by (rewrite seq_length; lia). rewrite seq_nth by lia. cbn. f_equal. lia.
Qed.
Lemma range_len lo hi : List.length (range lo hi) = Z.to_nat (hi - lo).
Proof. unfold range. rewrite map_length, seq_length. reflexivity. Qed.

Lemma nth_interior n i j k : interior_cell n (i, j, k) ->
  nth_error (interior n) (Z.to_nat ((i * vy n + j) * vz n + k)) = Some (i, j, k).
Proof.
  intros H. pose proof (H AX) as X; pose proof (H AY) as Y; pose proof (H AZ) as W. cbn [ccoord vget] in *.
  unfold interior, cells3.
  assert (E : Z.to_nat ((i * vy n + j) * vz n + k) = (Z.to_nat (i - 0) * (Z.to_nat (vy n) * Z.to_nat (vz n)) + (Z.to_nat (j - 0) * Z.to_nat (vz n) + Z.to_nat (k - 0)))%nat).
  { apply Nat2Z.inj. assert (P1 : 0 <= i * vy n) by (apply Z.mul_nonneg_nonneg; lia). assert (P2 : 0 <= (i * vy n + j) * vz n) by (apply Z.mul_nonneg_nonneg; lia). rewrite Z2Nat.id by lia. rewrite !Nat2Z.inj_add, !Nat2Z.inj_mul, !Z2Nat.id by lia. ring. }
  rewrite E. rewrite nth_flat_map with (a := i).
  - rewrite nth_flat_map with (a := j).
    + rewrite nth_error_map, nth_range by lia. reflexivity.
    + intros a. rewrite map_length, range_len. f_equal. lia.
    + apply nth_range. lia.
    + lia.
  - intros a. rewrite (flat_map_const_length _ _ (Z.to_nat (vz n))); [rewrite range_len; f_equal; f_equal; lia|].
    intros b _. rewrite map_length, range_len. f_equal. lia.
  - apply nth_range. lia.
  - assert (Z.to_nat (j - 0) < Z.to_nat (vy n))%nat by lia. assert (Z.to_nat (k - 0) < Z.to_nat (vz n))%nat by lia. nia.
Qed.
Lemma interior_length n : (forall a, 0 <= vget n a) -> List.length (interior n) = Z.to_nat (vx n * vy n * vz n).
Proof.
  intros H. pose proof (H AX); pose proof (H AY); pose proof (H AZ). cbn [vget] in *.
  unfold interior. rewrite cells3_length, !range_len, !Z.sub_0_r. rewrite !Z2Nat.inj_mul by lia. lia.
Qed.

Section Out.
Context {T : Type} {NT : Num T} (fmt : T -> string).

Definition record_text {A} (show : A -> string) (p : vec3 T) (x : A) : string := (show_vec3 fmt p ++ tab ++ show x)%string.

Lemma print_loop {A} ov (g : grid T) (show : A -> string) a : forall cs,
  (forall i j k, In (i, j, k) cs -> exists p x, node ov g i j k = Ok p /\ aget ov g a i j k = Ok x) ->
  exists recs, List.length recs = List.length cs /\
    (forall m i j k p x, nth_error cs m = Some (i, j, k) -> node ov g i j k = Ok p -> aget ov g a i j k = Ok x -> nth_error recs m = Some (record_text show p x)) /\
    forall out, forM cs (print_body fmt ov g show a) out = Ok (out ++ String.concat "" (map (fun r => r ++ newline) recs))%string.
Proof.
  induction cs as [|[[i j] k] cs IH]; intros H.
  - exists []. split; [reflexivity|]. split; [intros [|]; discriminate|]. intros out. cbn. rewrite append_nil_r. reflexivity.
  - destruct IH as (recs & L & N & E). { intros; apply H; now right. }
    destruct (H i j k) as (p & x & Hp & Hx); [now left|]. exists (record_text show p x :: recs). split; [cbn; lia|]. split.
    + intros [|m] i' j' k' p' x'; cbn [nth_error].
      * intros Hm Hp' Hx'. injection Hm as <- <- <-. rewrite Hp in Hp'. rewrite Hx in Hx'. injection Hp' as <-. injection Hx' as <-. reflexivity.
      * apply N.
    + intros out. cbn [forM]. unfold print_body at 1. rewrite Hp. cbn [bind]. rewrite Hx. cbn [bind]. rewrite E. f_equal.
      cbn [map]. unfold record_text. destruct recs as [|r recs]; cbn [map String.concat]; rewrite ?append_nil_r, ?append_assoc; cbn [append]; reflexivity.
Qed.

Lemma split_records recs : (forall r, In r recs -> occurs NL r = false) ->
  lines_of (String.concat "" (map (fun r => r ++ newline)%string recs)) recs.
Proof.
  unfold lines_of. induction recs as [|r recs IH]; intros H; [reflexivity|].
  assert (E : String.concat "" (map (fun r0 => (r0 ++ newline)%string) (r :: recs)) = (r ++ String NL (String.concat "" (map (fun r0 => (r0 ++ newline)%string) recs)))%string).
  { cbn [map]. destruct recs as [|r' recs']; cbn [map String.concat]; rewrite ?append_assoc; reflexivity. }
  rewrite E, split_app by (apply H; now left). rewrite IH by (intros; apply H; now right). reflexivity.
Qed.

Lemma columns_vec3 p : (forall x, occurs TAB (fmt x) = false) -> columns (show_vec3 fmt p) = [fmt (vx p); fmt (vy p); fmt (vz p)].
Proof.
  intros H. unfold columns, show_vec3. change tab with (String TAB EmptyString). cbn [append].
  rewrite !split_app by auto. rewrite split_free by auto. reflexivity.
Qed.
Lemma columns_record {A} (show : A -> string) p x : (forall y, occurs TAB (fmt y) = false) ->
  columns (record_text show p x) = fmt (vx p) :: fmt (vy p) :: fmt (vz p) :: columns (show x).
Proof.
  intros H. unfold columns, record_text, show_vec3. change tab with (String TAB EmptyString). rewrite !append_assoc. cbn [append].
  repeat (rewrite ?append_assoc; cbn [append]; rewrite split_app by auto; f_equal).
Qed.
Lemma columns_fold l : (forall y, occurs TAB (fmt y) = false) ->
  columns (fold_left (fun out x => (out ++ fmt x ++ tab)%string) l EmptyString) = (map fmt l ++ [EmptyString])%list.
Proof.
  intros H.
  assert (G : forall l out, fold_left (fun out x => (out ++ fmt x ++ tab)%string) l out =
     (out ++ fold_left (fun out x => (out ++ fmt x ++ tab)%string) l EmptyString)%string).
  { clear l. induction l as [|x l IH]; intros out; cbn [fold_left]; [rewrite append_nil_r; reflexivity|].
    rewrite IH. rewrite (IH (EmptyString ++ _)%string). cbn [append]. rewrite !append_assoc. reflexivity. }
  induction l as [|x l IH]; cbn [fold_left map List.app]; [reflexivity|]. rewrite G. cbn [append].
  unfold columns in *. change tab with (String TAB EmptyString) in *. rewrite append_assoc. cbn [append]. rewrite split_app by auto. rewrite IH. reflexivity.
Qed.

(** values print without separators of their own *)
Lemma print_ok {A} ov dim n pad bmin bmax (g : grid T) (show : A -> string) (a : array A) :
  built ov dim n pad bmin bmax g -> array_on g a ->
  (forall x, occurs NL (fmt x) = false) -> (forall x, occurs TAB (fmt x) = false) -> (forall x, occurs NL (show x) = false) ->
  exists text ls, print_array fmt ov g show a = Ok text /\ lines_of text ls /\
    Z.of_nat (List.length ls) = vx n * vy n * vz n /\
    forall i j k, interior_cell n (i, j, k) -> exists p x line, node ov g i j k = Ok p /\ aget ov g a i j k = Ok x /\
      nth_error ls (Z.to_nat ((i * vy n + j) * vz n + k)) = Some line /\
      columns line = fmt (vx p) :: fmt (vy p) :: fmt (vz p) :: columns (show x).
Proof.
  intros Hb Ha H1 H2 H3. pose proof (built_ok _ _ _ _ _ _ _ Hb) as F. pose proof (bf_ok _ _ _ _ _ _ _ F) as Hg.
  assert (Sa : shaped g a) by (apply (array_on_shaped _ _ _ _ _ _ _ _ Hb); auto).
  assert (En : array_cells a = n). { destruct Sa as [E _]. unfold array_cells. rewrite E. apply (bf_n _ _ _ _ _ _ _ F). }
  assert (HV : forall i j k, interior_cell n (i, j, k) -> exists p x, node ov g i j k = Ok p /\ aget ov g a i j k = Ok x).
  { intros i j k Hi. assert (HC : gcell g (i, j, k)). { apply (built_gcell _ _ _ _ _ _ _ _ Hb). eapply interior_padded; [apply Hb|exact Hi]. }
    destruct (peek_ok ov g a (i, j, k)) as (x & Ex); auto. exists (pos_at dim n pad bmin bmax (i, j, k)), x. split.
    - unfold node. rewrite index_ok; [|apply Hg|apply Hg|apply padded_cell_for; auto]. apply (bf_pos _ _ _ _ _ _ _ F). exact HC.
    - rewrite (aget_peek_c ov) by auto. exact Ex. }
  unfold print_array. rewrite En.
  destruct (print_loop ov g show a (interior n)) as (recs & L & N & E).
  { intros i j k Hi. apply HV. apply in_interior. exact Hi. }
  exists (String.concat "" (map (fun r => r ++ newline)%string recs)), recs. split; [rewrite E; reflexivity|]. split.
  - apply split_records. intros r Hr. apply In_nth_error in Hr. destruct Hr as (m & Hm).
    assert (Hlt : (m < List.length (interior n))%nat) by (rewrite <- L; apply nth_error_Some; rewrite Hm; discriminate).
    destruct (nth_error (interior n) m) as [[[i j] k]|] eqn:Ec; [|apply nth_error_Some in Hlt; contradiction].
    assert (Hi : interior_cell n (i, j, k)) by (apply in_interior; eapply nth_error_In; exact Ec).
    destruct (HV i j k Hi) as (p & x & Hp & Hx). rewrite (N m i j k p x Ec Hp Hx) in Hm. injection Hm as <-.
    unfold record_text, show_vec3. change tab with (String TAB EmptyString). rewrite !occurs_app, !H1, H3. reflexivity.
  - assert (Hn : forall b, 1 <= vget n b). { destruct Hb as ((_ & _ & Hn & _) & _). intros b. specialize (Hn b). destruct (used dim b); lia. }
    pose proof (Hn AX); pose proof (Hn AY); pose proof (Hn AZ). cbn [vget] in *. split.
    + rewrite L, interior_length, Z2Nat.id; auto. { apply Z.mul_nonneg_nonneg; [apply Z.mul_nonneg_nonneg|]; lia. } intros b. specialize (Hn b). lia.
    + intros i j k Hi. destruct (HV i j k Hi) as (p & x & Hp & Hx). exists p, x, (record_text show p x). split; [exact Hp|]. split; [exact Hx|]. split.
      * eapply N; eauto. apply nth_interior. exact Hi.
      * apply columns_record. exact H2.
Qed.
End Out.
