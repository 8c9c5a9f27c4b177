From Coq Require Import ZArith List Lia Bool.
From Verif Require Import Base Num ModelVec ModelGrid ModelArray SpecGrid ProofsBase ProofsGrid.
Open Scope Z_scope.

Section WithT.
Context {T : Type} {NT : Num T}.

Definition okgrid (ov : ovmode) (g : grid T) : Prop :=
  good_sizes (g_dim g) (g_n g) (g_pad g) /\ garith ov g.

Definition shaped {A} (g : grid T) (a : array A) : Prop :=
  a_n a = g_n g /\ Z.of_nat (length (a_data a)) = gcount g.

Definition peek {A} (g : grid T) (a : array A) (c : cell) : outcome A :=
  vread (a_data a) (glin g c).
Definition poke {A} (g : grid T) (a : array A) (c : cell) (x : A) : array A :=
  mkArray (a_n a) (a_pad a) (lupd (a_data a) (Z.to_nat (glin g c)) x).

Context {A : Type}.
Implicit Types (g : grid T) (a : array A).

Lemma glin_bounds ov g c : okgrid ov g -> gcell g c -> 0 <= glin g c < gcount g.
Proof. intros [H _] Hc. apply lin_bounds; auto. Qed.

Lemma gcount_pos ov g : okgrid ov g -> 0 < gcount g <= INT_MAX.
Proof.
  intros [H _]. pose proof (extent_pos _ _ _ AX H); pose proof (extent_pos _ _ _ AY H); pose proof (extent_pos _ _ _ AZ H).
  split; [|apply H]. unfold gcount, padded_count. apply Z.mul_pos_pos; [apply Z.mul_pos_pos|]; lia.
Qed.

Lemma aget_peek ov g a i j k : okgrid ov g -> gcell_for ov g (i, j, k) ->
  aget ov g a i j k = peek g a (i, j, k).
Proof. intros [H1 H2] Hc. unfold aget. rewrite index_ok by auto. reflexivity. Qed.

Lemma aget_peek_c ov g a i j k : okgrid ov g -> gcell g (i, j, k) ->
  aget ov g a i j k = peek g a (i, j, k).
Proof. intros H Hc. apply aget_peek; auto. apply padded_cell_for; auto. Qed.

Lemma peek_project g a c : peek g a (project (g_dim g) c) = peek g a c.
Proof. unfold peek, glin. rewrite lin_project. reflexivity. Qed.

Lemma peek_ok ov g a c : okgrid ov g -> shaped g a -> gcell g c -> exists x, peek g a c = Ok x.
Proof.
  intros H [_ Hs] Hc. destruct (vread_inb (a_data a) (glin g c)) as (x & E & _).
  - rewrite Hs. eapply glin_bounds; eauto.
  - exists x. exact E.
Qed.

Lemma aset_poke ov g a i j k x : okgrid ov g -> shaped g a -> gcell g (i, j, k) ->
  aset ov g a i j k x = Ok (poke g a (i, j, k) x).
Proof.
  intros H [_ Hs] Hc. unfold aset. rewrite index_ok; [|apply H|apply H|apply padded_cell_for; exact Hc].
  cbn [bind]. unfold araw_set. rewrite vwrite_inb; [reflexivity|].
  rewrite Hs. eapply glin_bounds; eauto.
Qed.

Lemma poke_shaped g a c x : shaped g a -> shaped g (poke g a c x).
Proof. intros [H1 H2]. split; cbn; auto. rewrite lupd_length. auto. Qed.

Lemma peek_poke_same ov g a c x : okgrid ov g -> shaped g a -> gcell g c ->
  peek g (poke g a c x) c = Ok x.
Proof.
  intros H [_ Hs] Hc. unfold peek, poke; cbn. apply vread_lupd_same. rewrite Hs.
  eapply glin_bounds; eauto.
Qed.

Lemma peek_poke_other ov g a c c' x : okgrid ov g -> gcell g c -> gcell g c' -> c' <> c ->
  peek g (poke g a c x) c' = peek g a c'.
Proof.
  intros H Hc Hc' Hne. unfold peek, poke; cbn. apply vread_lupd_other.
  - eapply glin_bounds; eauto.
  - eapply glin_bounds; eauto.
  - intros E. apply Hne. symmetry. eapply lin_inj; eauto. apply H.
Qed.

(** Two arrays of the same shape that agree on all cells are equal. *)
Lemma peek_ext ov g a b : okgrid ov g -> shaped g a -> shaped g b -> a_pad a = a_pad b ->
  (forall c, gcell g c -> peek g a c = peek g b c) -> a = b.
Proof.
  intros H [Ha1 Ha2] [Hb1 Hb2] Hp E.
  destruct a as [n1 p1 d1], b as [n2 p2 d2]; cbn [a_n a_pad a_data] in *.
  assert (d1 = d2); [|congruence].
  assert (Hlen : length d1 = length d2) by lia.
  apply nth_error_ext. intros m.
  destruct (Nat.lt_ge_cases m (length d1)) as [Hm|Hm].
  - destruct (lin_surj (g_dim g) (g_n g) (g_pad g) (Z.of_nat m)) as (c & Hc & El); [apply H| |].
    { fold (gcount g). lia. }
    specialize (E c Hc). unfold peek, glin in E. cbn [a_data] in E. rewrite El in E.
    unfold vread in E. destruct (Z.leb_spec 0 (Z.of_nat m)); [|lia]. rewrite Nat2Z.id in E.
    destruct (nth_error d1 m), (nth_error d2 m); congruence.
  - transitivity (@None A); [apply nth_error_None; lia | symmetry; apply nth_error_None; lia].
Qed.

(** ** interior cells *)
Lemma in_interior n c : In c (interior n) <-> interior_cell n c.
Proof.
  destruct c as [[i j] k]. unfold interior. rewrite in_cells3, !in_range. split.
  - intros (H1 & H2 & H3) [| |]; cbn; lia.
  - intros H. pose proof (H AX); pose proof (H AY); pose proof (H AZ). cbn in *. lia.
Qed.
Lemma interior_nodup n : NoDup (interior n).
Proof. apply nodup_cells3; apply nodup_range. Qed.

Lemma interior_padded dim n pad c : good_sizes dim n pad -> interior_cell n c -> padded_cell dim n pad c.
Proof.
  intros (Hd & Hp & Hn & Hs) H a. specialize (H a). specialize (Hn a).
  destruct (used dim a); lia.
Qed.

(** ** constructors *)
Lemma grid_size_ok ov g : okgrid ov g -> Z.of_nat (length (g_nodes g)) = gcount g -> grid_size g = gcount g.
Proof.
  intros H E. unfold grid_size. rewrite E. apply wrap32_ok.
  pose proof (gcount_pos _ _ H). assert (INT_MIN = -2147483648) by reflexivity. lia.
Qed.

Lemma array_ctor_shaped ov g (d : A) : okgrid ov g -> Z.of_nat (length (g_nodes g)) = gcount g ->
  shaped g (array_ctor g d) /\ forall c, gcell g c -> peek g (array_ctor g d) c = Ok d.
Proof.
  intros H E. pose proof (gcount_pos _ _ H).
  split.
  - split; [reflexivity|]. cbn. rewrite repeat_length, (grid_size_ok ov) by auto. lia.
  - intros c Hc. unfold peek. cbn. apply vread_repeat. rewrite (grid_size_ok ov) by auto.
    pose proof (glin_bounds _ _ _ H Hc). lia.
Qed.
End WithT.

(** ** what [built] gives *)
Section Built.
Context {T : Type} {NT : Num T}.

Record built_facts (ov : ovmode) (dim : nat) (n : vec3 Z) (pad : Z) (bmin bmax : vec3 T) (g : grid T) : Prop := {
  bf_dim : g_dim g = dim; bf_n : g_n g = n; bf_pad : g_pad g = pad;
  bf_ok : okgrid ov g;
  bf_min : g_box_min g = bmin; bf_max : g_box_max g = bmax;
  bf_dx : g_dx g = V3 ((vx bmax - vx bmin) / nofZ (vx n))%num ((vy bmax - vy bmin) / nofZ (vy n))%num
                      ((vz bmax - vz bmin) / nofZ (vz n))%num;
  bf_odx : forall a, used dim a = true -> vget (g_odx g) a = (nofZ 1 / vget (g_dx g) a)%num;
  bf_len : Z.of_nat (length (g_nodes g)) = gcount g;
  bf_pos : forall c, gcell g c -> vread (g_nodes g) (glin g c) = Ok (pos_at dim n pad bmin bmax c);
  bf_total : g_total g = vx n * vy n * vz n }.

Lemma built_exists ov dim n pad (bmin bmax : vec3 T) :
  good_sizes dim n pad -> arith_ok ov dim n pad -> exists g, built ov dim n pad bmin bmax g.
Proof.
  intros H1 H2. destruct (make_grid_ok ov dim n pad bmin bmax H1 H2) as (g & E & _).
  exists g. split; [|split]; auto.
Qed.

Lemma built_ok ov dim n pad (bmin bmax : vec3 T) g :
  built ov dim n pad bmin bmax g -> built_facts ov dim n pad bmin bmax g.
Proof.
  intros (H1 & H2 & E).
  destruct (make_grid_ok ov dim n pad bmin bmax H1 H2)
    as (g' & E' & Hd & Hn & Hp & Hmin & Hmax & Hdx & Hodx & Hlen & Hpos & Htot).
  rewrite E in E'. inversion E'; subst g'.
  constructor; auto.
  - split; [|unfold garith]; rewrite Hd, Hn, Hp; auto.
  - rewrite Hdx. unfold gen_dx. rewrite Hn. reflexivity.
  - unfold gcount. rewrite Hd, Hn, Hp. auto.
  - intros c Hc. unfold gcell, glin in *. rewrite Hd, Hn, Hp in *. auto.
Qed.
End Built.
