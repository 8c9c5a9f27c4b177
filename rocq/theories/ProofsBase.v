From Coq Require Import ZArith List Lia Bool Permutation.
From Verif Require Import Base.
Open Scope Z_scope.

Lemma bind_ok {A B} (o : outcome A) (f : A -> outcome B) b :
  bind o f = Ok b -> exists a, o = Ok a /\ f a = Ok b.
Proof. destruct o; simpl; try discriminate. intro H; eauto. Qed.

(** ** checked integers *)
Lemma chk_ok ov z : INT_MIN <= z <= INT_MAX -> chk ov z = Ok z.
Proof.
  unfold chk. intros [H1 H2].
  destruct (Z.leb_spec INT_MIN z); [|lia]. destruct (Z.leb_spec z INT_MAX); [|lia]. reflexivity.
Qed.
Lemma chk_wrap_total z : exists w, chk Wrap z = Ok w.
Proof. unfold chk. destruct (_ && _); eauto. Qed.
Lemma chk_trap_overflow z : (z < INT_MIN \/ INT_MAX < z) -> chk Trap z = UB SignedOverflow.
Proof.
  unfold chk. intros H. destruct (Z.leb_spec INT_MIN z); destruct (Z.leb_spec z INT_MAX);
    simpl; auto; lia.
Qed.
Lemma float_to_int_ok z : INT_MIN <= z <= INT_MAX -> float_to_int z = Ok z.
Proof.
  unfold float_to_int. intros [H1 H2].
  destruct (Z.leb_spec INT_MIN z); [|lia]. destruct (Z.leb_spec z INT_MAX); [|lia]. reflexivity.
Qed.
Lemma to_size_t_ok z : 0 <= z <= INT_MAX -> to_size_t z = z.
Proof. unfold to_size_t, INT_MAX. intros. apply Z.mod_small. lia. Qed.
Lemma wrap32_ok z : INT_MIN <= z <= INT_MAX -> wrap32 z = z.
Proof.
  unfold wrap32, INT_MIN, INT_MAX. intros. rewrite Z.mod_small; lia.
Qed.

(** ** lists *)
Lemma lupd_length {A} (l : list A) n a : length (lupd l n a) = length l.
Proof. revert n; induction l; destruct n; simpl; auto. Qed.
Lemma lupd_same {A} (l : list A) n a : (n < length l)%nat -> nth_error (lupd l n a) n = Some a.
Proof.
  revert n; induction l; destruct n; simpl; intros; try lia; auto. apply IHl; lia.
Qed.
Lemma lupd_other {A} (l : list A) n m a : n <> m -> nth_error (lupd l n a) m = nth_error l m.
Proof.
  revert n m; induction l; destruct n, m; simpl; intros; try lia; auto.
Qed.

Lemma vread_inb {A} (l : list A) i : 0 <= i < Z.of_nat (length l) ->
  exists a, vread l i = Ok a /\ nth_error l (Z.to_nat i) = Some a.
Proof.
  intros H. unfold vread. destruct (Z.leb_spec 0 i); [|lia].
  destruct (nth_error l (Z.to_nat i)) eqn:E; [eauto|].
  apply nth_error_None in E. lia.
Qed.
Lemma vread_oob {A} (l : list A) i : ~ (0 <= i < Z.of_nat (length l)) -> vread l i = UB OutOfBounds.
Proof.
  intros H. unfold vread. destruct (Z.leb_spec 0 i); [|reflexivity].
  destruct (nth_error l (Z.to_nat i)) eqn:E; [|reflexivity].
  assert (Z.to_nat i < length l)%nat by (apply nth_error_Some; congruence). lia.
Qed.
Lemma vwrite_inb {A} (l : list A) i a : 0 <= i < Z.of_nat (length l) ->
  vwrite l i a = Ok (lupd l (Z.to_nat i) a).
Proof.
  intros [H1 H2]. unfold vwrite.
  destruct (Z.leb_spec 0 i); [|lia]. destruct (Z.ltb_spec i (Z.of_nat (length l))); [|lia]. reflexivity.
Qed.
Lemma vread_lupd_same {A} (l : list A) i a : 0 <= i < Z.of_nat (length l) ->
  vread (lupd l (Z.to_nat i) a) i = Ok a.
Proof.
  intros H. unfold vread. destruct (Z.leb_spec 0 i); [|lia].
  rewrite lupd_same by lia. reflexivity.
Qed.
Lemma vread_lupd_other {A} (l : list A) i j a : 0 <= i -> 0 <= j -> i <> j ->
  vread (lupd l (Z.to_nat i) a) j = vread l j.
Proof.
  intros Hi Hj Hn. unfold vread. destruct (Z.leb_spec 0 j); [|lia].
  rewrite lupd_other by lia. reflexivity.
Qed.
Lemma vread_repeat {A} (d : A) m i : 0 <= i < Z.of_nat m -> vread (repeat d m) i = Ok d.
Proof.
  intros H. unfold vread. destruct (Z.leb_spec 0 i); [|lia].
  rewrite nth_error_repeat by lia. reflexivity.
Qed.

(** ** ranges and cells *)
Lemma in_range lo hi x : In x (range lo hi) <-> lo <= x < hi.
Proof.
  unfold range. rewrite in_map_iff. split.
  - intros (n & <- & Hn). apply in_seq in Hn. lia.
  - intros H. exists (Z.to_nat (x - lo)). split; [lia|]. apply in_seq. lia.
Qed.
Lemma nodup_range lo hi : NoDup (range lo hi).
Proof.
  unfold range. apply FinFun.Injective_map_NoDup; [|apply seq_NoDup].
  intros a b H. lia.
Qed.
Lemma range_length lo hi : length (range lo hi) = Z.to_nat (hi - lo).
Proof. unfold range. rewrite map_length, seq_length. reflexivity. Qed.

Lemma in_cells3 I J K i j k : In (i, j, k) (cells3 I J K) <-> In i I /\ In j J /\ In k K.
Proof.
  unfold cells3. rewrite in_flat_map. split.
  - intros (i' & Hi & H). apply in_flat_map in H. destruct H as (j' & Hj & H).
    apply in_map_iff in H. destruct H as (k' & E & Hk). inversion E; subst. auto.
  - intros (Hi & Hj & Hk). exists i; split; auto. apply in_flat_map. exists j; split; auto.
    apply in_map_iff. eauto.
Qed.

Lemma nodup_flat_map {A B} (f : A -> list B) (l : list A) :
  NoDup l -> (forall a, In a l -> NoDup (f a)) ->
  (forall a b x, In a l -> In b l -> In x (f a) -> In x (f b) -> a = b) ->
  NoDup (flat_map f l).
Proof.
  induction l as [|a l IH]; simpl; intros Hnd Hf Hd; [constructor|].
  inversion Hnd; subst.
  assert (Hfa : NoDup (f a)) by (apply Hf; auto).
  assert (Hrest : NoDup (flat_map f l)).
  { apply IH; auto. intros; eapply Hd; eauto. }
  clear IH. revert Hrest.
  assert (Hdis : forall x, In x (f a) -> ~ In x (flat_map f l)).
  { intros x Hx Hin. apply in_flat_map in Hin. destruct Hin as (b & Hb & Hxb).
    assert (a = b) by (eapply Hd; eauto). subst. contradiction. }
  revert Hdis. generalize (flat_map f l) as r.
  induction (f a) as [|y ys IHy]; simpl; intros r Hdis Hr; [exact Hr|].
  inversion Hfa; subst. constructor.
  - rewrite in_app_iff. intros [H|H]; [contradiction|]. exact (Hdis y (or_introl eq_refl) H).
  - apply IHy; auto.
Qed.

Lemma nodup_cells3 I J K : NoDup I -> NoDup J -> NoDup K -> NoDup (cells3 I J K).
Proof.
  intros HI HJ HK. unfold cells3. apply nodup_flat_map; auto.
  - intros i Hi. apply nodup_flat_map; auto.
    + intros j Hj. apply FinFun.Injective_map_NoDup; auto. intros a b E. inversion E; auto.
    + intros a b x _ _ Ha Hb. apply in_map_iff in Ha, Hb.
      destruct Ha as (? & <- & _), Hb as (? & E & _). inversion E; auto.
  - intros a b x _ _ Ha Hb. apply in_flat_map in Ha, Hb.
    destruct Ha as (? & _ & Ha), Hb as (? & _ & Hb).
    apply in_map_iff in Ha, Hb. destruct Ha as (? & <- & _), Hb as (? & E & _). inversion E; auto.
Qed.

Lemma flat_map_const_length {A B} (f : A -> list B) (l : list A) m :
  (forall a, In a l -> length (f a) = m) -> length (flat_map f l) = (length l * m)%nat.
Proof.
  induction l as [|a l IH]; simpl; intros H; [reflexivity|].
  rewrite app_length, IH by auto. rewrite H by auto. reflexivity.
Qed.
Lemma cells3_length I J K : length (cells3 I J K) = (length I * (length J * length K))%nat.
Proof.
  unfold cells3. apply flat_map_const_length. intros i _.
  apply flat_map_const_length. intros j _. apply map_length.
Qed.

(** ** loops *)
Lemma forM_inv {A S} (P : list A -> S -> Prop) (body : S -> A -> outcome S) (l : list A) :
  forall (s : S),
  P [] s ->
  (forall pre a post s, l = pre ++ a :: post -> P pre s -> exists s', body s a = Ok s' /\ P (pre ++ [a]) s') ->
  exists s', forM l body s = Ok s' /\ P l s'.
Proof.
  intros s H0 Hstep.
  assert (G : forall post pre s, l = pre ++ post -> P pre s ->
            exists s', forM post body s = Ok s' /\ P l s').
  { induction post as [|a post IH]; intros pre s1 E HP; simpl.
    - exists s1. rewrite app_nil_r in E. subst. auto.
    - destruct (Hstep pre a post s1 E HP) as (s2 & E2 & HP2).
      rewrite E2. simpl. apply (IH (pre ++ [a]) s2); auto.
      rewrite <- app_assoc. exact E. }
  apply (G l [] s); auto.
Qed.

Lemma forM_app {A S} (body : S -> A -> outcome S) l1 l2 s :
  forM (l1 ++ l2) body s = bind (forM l1 body s) (forM l2 body).
Proof.
  revert s; induction l1 as [|a l1 IH]; intros s; simpl; [reflexivity|].
  destruct (body s a); simpl; auto.
Qed.

Lemma forM_ext {A S} (b1 b2 : S -> A -> outcome S) l s :
  (forall s a, In a l -> b1 s a = b2 s a) -> forM l b1 s = forM l b2 s.
Proof.
  revert s; induction l as [|a l IH]; intros s H; simpl; [reflexivity|].
  rewrite H by (left; auto). destruct (b2 s a); simpl; auto.
  apply IH. intros; apply H; right; auto.
Qed.

(** The first iteration that fails decides the result of the loop. *)
Lemma forM_first_fail {A S} (body : S -> A -> outcome S) pre a post s s1 r :
  forM pre body s = Ok s1 -> body s1 a = UB r -> forM (pre ++ a :: post) body s = UB r.
Proof. intros H1 H2. rewrite forM_app, H1. simpl. rewrite H2. reflexivity. Qed.

(** A loop over distinct cells whose body changes only the observation of its own cell:
    every visited cell is updated exactly once, from its initial value. *)
Lemma forM_obs {C S V} (U : C -> Prop) (good : S -> Prop) (obs : S -> C -> V)
    (F : C -> V -> V) (body : S -> C -> outcome S) (cs : list C) (s0 : S) :
  NoDup cs -> (forall c, In c cs -> U c) -> good s0 ->
  (forall s c, good s -> In c cs ->
     exists s', body s c = Ok s' /\ good s' /\ obs s' c = F c (obs s c) /\
                forall c', U c' -> c' <> c -> obs s' c' = obs s c') ->
  exists s', forM cs body s0 = Ok s' /\ good s' /\
    (forall c, In c cs -> obs s' c = F c (obs s0 c)) /\
    (forall c, U c -> ~ In c cs -> obs s' c = obs s0 c).
Proof.
  intros Hnd HU Hg Hb.
  destruct (forM_inv (fun pre s => good s /\
      (forall c, In c pre -> obs s c = F c (obs s0 c)) /\
      (forall c, U c -> ~ In c pre -> obs s c = obs s0 c)) body cs s0) as (s' & E & H).
  - split; [auto|]. split; [intros c []|]. auto.
  - intros pre a post s -> (Hgs & H1 & H2).
    destruct (Hb s a Hgs) as (s' & Es & Hg' & Ha & Ho); [apply in_elt|].
    exists s'. split; [exact Es|]. split; [exact Hg'|]. split.
    + intros c Hc. apply in_app_iff in Hc. destruct Hc as [Hc|[<-|[]]].
      * rewrite Ho. apply H1; auto. apply HU, in_app_iff; auto.
        intros ->. apply NoDup_remove_2 in Hnd. apply Hnd. apply in_app_iff; auto.
      * rewrite Ha. f_equal. apply H2. apply HU, in_elt.
        apply NoDup_remove_2 in Hnd. intros Hi. apply Hnd, in_app_iff; auto.
    + intros c Uc Hc. rewrite Ho; auto. apply H2; auto.
      * intros Hi; apply Hc, in_app_iff; auto.
      * intros ->. apply Hc, in_app_iff. right; left; auto.
  - exists s'. split; auto.
Qed.

Lemma nth_error_ext {A} (l m : list A) : (forall i, nth_error l i = nth_error m i) -> l = m.
Proof.
  revert m; induction l as [|x l IH]; destruct m as [|y m]; intros H; auto.
  - specialize (H 0%nat); discriminate.
  - specialize (H 0%nat); discriminate.
  - f_equal.
    + specialize (H 0%nat). cbn in H. congruence.
    + apply IH. intros i. apply (H (S i)).
Qed.
