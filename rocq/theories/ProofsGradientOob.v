(** The third-order scheme with one ghost layer. *)
From Coq Require Import ZArith List Lia Bool.
From Verif Require Import Base Num ModelVec ModelGrid ModelArray ModelGradient
  SpecGrid SpecGradient ProofsBase ProofsGrid ProofsArray ProofsGridProps ProofsLoops ProofsInterpMore ProofsGradient.
Open Scope Z_scope.

Section Oob.
Context {T : Type} {NT : Num T}.

(** an int operation whose result is multiplied by a zero mask *)
Lemma chk_any ov z : (ov = Trap -> INT_MIN <= z <= INT_MAX) -> exists w, chk ov z = Ok w /\ (ov = Trap -> w = z).
Proof.
  intros H. destruct ov.
  - exists z. split; [|auto]. apply chk_fit. auto.
  - destruct (chk_Wrap z) as (w & E). exists w. split; [exact E|discriminate].
Qed.

Local Ltac chks := repeat match goal with
  | |- context [bind (chk ?ov ?z) _] => rewrite (chk_ok ov z) by lia; cbn [bind]
  end.

(** slot computed for the cell two steps below the first one, padding 1 *)
Lemma index_minus2 ov (g : grid T) a : okgrid ov g -> g_pad g = 1 -> used (g_dim g) a = true ->
  match cshift (0, 0, 0) a (-2) with (i, j, k) => index ov g i j k end =
  Ok (to_size_t (lin (g_dim g) (g_n g) 1 (cshift (0, 0, 0) a (-2)))).
Proof.
  intros (Hg & Har) Hp Hu. unfold garith, arith_ok in Har. rewrite Hp in *.
  destruct Hg as (Hd & _ & Hn & Hs).
  pose proof (Hn AX) as HX; pose proof (Hn AY) as HY; pose proof (Hn AZ) as HZ. clear Hn.
  unfold padded_count, extent in Hs.
  assert (HM : INT_MAX = 2147483647) by reflexivity. assert (Hm : INT_MIN = -2147483648) by reflexivity.
  destruct g as [dim n pad tot bmin bmax dx odx nodes]; cbn [g_dim g_n g_pad] in *. subst pad.
  destruct n as [nx ny nz].
  unfold index, iadd, imul, lin. cbn [g_dim g_n g_pad].
  assert (D : dim = 1%nat \/ dim = 2%nat \/ dim = 3%nat) by lia.
  destruct D as [-> | [-> | ->]]; unfold mask; cbn [used Nat.leb vget vx vy vz] in *.
  - destruct a; try discriminate Hu. cbn [cshift]. subst ny. set (sx := nx + 2 * 1) in *.
    chks. fold sx. change (1 + 2 * 1) with 3 in *. change (0 + 1) with 1. rewrite Z.mul_1_l. chks.
    destruct (chk_any ov (sx * 3)) as (w & Ew & _).
    { intros ->. destruct Har as [?|Har]; [discriminate|]. cbn [vx vy] in Har. lia. }
    rewrite Ew. cbn [bind]. rewrite !Z.mul_0_r. chks. do 2 f_equal; lia.
  - set (sx := nx + 2 * 1) in *. set (sy := ny + 2 * 1) in *.
    assert (sx * 1 <= sx * sy) by (apply Z.mul_le_mono_nonneg_l; lia).
    assert (3 * sy <= sx * sy) by (apply Z.mul_le_mono_nonneg_r; lia).
    destruct a; try discriminate Hu; cbn [cshift]; chks; fold sx sy; cbn [Z.add]; rewrite ?Z.mul_1_l.
    + set (t := sx * sy) in *. chks. rewrite !Z.mul_0_r. chks. do 2 f_equal; lia.
    + set (t := sx * sy) in *. chks. rewrite !Z.mul_0_r. chks. do 2 f_equal; lia.
  - set (sx := nx + 2 * 1) in *. set (sy := ny + 2 * 1) in *. set (sz := nz + 2 * 1) in *.
    assert (sx * 1 <= sx * sy) by (apply Z.mul_le_mono_nonneg_l; lia).
    assert (3 * sy <= sx * sy) by (apply Z.mul_le_mono_nonneg_r; lia).
    assert (sx * sy * 3 <= sx * sy * sz) by (apply Z.mul_le_mono_nonneg_l; lia).
    assert (1 * sz <= sx * sy * sz) by (apply Z.mul_le_mono_nonneg_r; lia).
    destruct a; cbn [cshift]; chks; fold sx sy; cbn [Z.add]; rewrite ?Z.mul_1_l.
    all: set (t := sx * sy) in *; set (u := t * sz) in *.
    + chks. do 2 f_equal; lia.
    + chks. do 2 f_equal; lia.
    + replace (-1 * sx * sy) with (- t) by (unfold t; ring). chks. do 2 f_equal; unfold t; lia.
Qed.

Definition last_axis (dim : nat) : axis := match dim with 1%nat => AX | 2%nat => AY | _ => AZ end.

Lemma lin_minus2 ov (g : grid T) a : okgrid ov g -> g_pad g = 1 -> used (g_dim g) a = true ->
  let z := lin (g_dim g) (g_n g) 1 (cshift (0, 0, 0) a (-2)) in
  INT_MIN <= z <= INT_MAX /\ (if axis_eqb a (last_axis (g_dim g)) then z < 0 else 0 <= z < gcount g).
Proof.
  intros (Hg & _) Hp Hu. cbv zeta. unfold gcount, padded_count, extent, lin. rewrite Hp in *.
  destruct Hg as (Hd & _ & Hn & Hs).
  pose proof (Hn AX) as HX; pose proof (Hn AY) as HY; pose proof (Hn AZ) as HZ. clear Hn.
  unfold padded_count, extent in Hs.
  assert (HM : INT_MAX = 2147483647) by reflexivity. assert (Hm : INT_MIN = -2147483648) by reflexivity.
  assert (D : g_dim g = 1%nat \/ g_dim g = 2%nat \/ g_dim g = 3%nat) by lia.
  destruct D as [D|[D|D]]; rewrite D in *; cbn [last_axis used Nat.leb vget vx vy vz] in *;
    set (sx := vx (g_n g) + 2 * 1) in *; set (sy := vy (g_n g) + 2 * 1) in *; set (sz := vz (g_n g) + 2 * 1) in *.
  - destruct a; try discriminate Hu. cbn. lia.
  - assert (sx * 3 <= sx * sy) by (apply Z.mul_le_mono_nonneg_l; lia).
    set (t := sx * sy) in *. destruct a; try discriminate Hu; cbn [cshift axis_eqb]; lia.
  - assert (sx * 3 <= sx * sy) by (apply Z.mul_le_mono_nonneg_l; lia).
    assert (sx * sy * 3 <= sx * sy * sz) by (apply Z.mul_le_mono_nonneg_l; lia).
    destruct a; cbn [cshift axis_eqb].
    all: replace ((0 + 1) * sx * sy) with (sx * sy) by ring.
    all: try replace ((0 + -2 + 1) * sx * sy) with (- (sx * sy)) by ring.
    all: set (t := sx * sy) in *; set (u := t * sz) in *; lia.
Qed.

Lemma minus2_read {A} ov (g : grid T) (al : array A) a : okgrid ov g -> g_pad g = 1 -> used (g_dim g) a = true -> shaped g al ->
  if axis_eqb a (last_axis (g_dim g)) then ashift ov g al 0 0 0 a (-2) = UB OutOfBounds
  else exists x, ashift ov g al 0 0 0 a (-2) = Ok x.
Proof.
  intros Hg Hp Hu Ha.
  assert (HM : INT_MAX = 2147483647) by reflexivity. assert (Hm : INT_MIN = -2147483648) by reflexivity.
  assert (E : ashift ov g al 0 0 0 a (-2) = match cshift (0, 0, 0) a (-2) with (i, j, k) => aget ov g al i j k end).
  { unfold ashift, iadd, ev. destruct a; cbn [axis_eqb cshift]; repeat (rewrite chk_fit by lia; cbn [bind]); reflexivity. }
  rewrite E. clear E. pose proof (index_minus2 ov g a Hg Hp Hu) as E. pose proof (lin_minus2 ov g a Hg Hp Hu) as (HI & HL). cbv zeta in *.
  set (z := lin _ _ _ _) in *. clearbody z. destruct (cshift (0, 0, 0) a (-2)) as [[i j] k]. unfold aget. rewrite E. cbn [bind].
  pose proof (gcount_pos _ _ Hg) as GC.
  destruct (axis_eqb a (last_axis (g_dim g))).
  - apply vread_oob. right. rewrite (proj2 Ha).
    assert (to_size_t z = z + 18446744073709551616) by (unfold to_size_t; symmetry; apply Z.mod_unique with (-1); lia). lia.
  - rewrite to_size_t_ok by lia. destruct (vread_inb (a_data al) z) as (x & Ex & _); [rewrite (proj2 Ha); lia|]. eauto.
Qed.

Lemma interior_first n : (forall a, 1 <= vget n a) -> exists r, interior n = (0, 0, 0) :: r.
Proof.
  intros H. pose proof (H AX); pose proof (H AY); pose proof (H AZ). cbn [vget] in *. unfold interior, range.
  assert (K : forall m, 1 <= m -> exists r, map (fun k => 0 + Z.of_nat k) (seq 0 (Z.to_nat (m - 0))) = 0 :: r).
  { intros m Hm. destruct (Z.to_nat (m - 0)) eqn:E; [lia|]. cbn. eauto. }
  destruct (K (vx n)) as (a & ->); [lia|]. destruct (K (vy n)) as (b & ->); [lia|]. destruct (K (vz n)) as (c & ->); [lia|].
  cbn. eauto.
Qed.

Lemma first_interior ov (g : grid T) : okgrid ov g -> interior_cell (g_n g) (0, 0, 0) /\ exists r, interior (g_n g) = (0, 0, 0) :: r.
Proof.
  intros ((Hd & Hp & Hn & _) & _).
  assert (K : forall a, 1 <= vget (g_n g) a) by (intros a; specialize (Hn a); destruct (used _ a); lia).
  split; [|apply interior_first; exact K]. intros a. specialize (K a). destruct a; cbn [ccoord] in *; lia.
Qed.

Lemma third_step ov (g : grid T) al s a : okgrid ov g -> g_pad g = 1 -> used (g_dim g) a = true -> shaped g al -> shaped g s ->
  if axis_eqb a (last_axis (g_dim g)) then third_cell ov g al g s (0, 0, 0) a = UB OutOfBounds
  else exists s', third_cell ov g al g s (0, 0, 0) a = Ok s' /\ shaped g s'.
Proof.
  intros Hg Hp Hu Ha Hs. destruct (first_interior ov g Hg) as (Hi & _).
  destruct (ashift_ok ov g al 0 0 0 a 1 Hg Hi Hu) as (C1 & E1); [lia|].
  destruct (ashift_ok ov g al 0 0 0 a (-1) Hg Hi Hu) as (C2 & E2); [lia|].
  pose proof (interior_padded _ _ (g_pad g) _ (proj1 Hg) Hi) as Hc.
  pose proof (minus2_read ov g al a Hg Hp Hu Ha) as R. unfold third_cell.
  rewrite E1, (pk_ok (nofZ 0) ov g al _ Hg Ha C1). cbn [bind].
  rewrite (aget_peek_c ov g al) by auto. rewrite (pk_ok (nofZ 0) ov g al _ Hg Ha Hc). cbn [bind].
  rewrite E2, (pk_ok (nofZ 0) ov g al _ Hg Ha C2). cbn [bind].
  destruct (axis_eqb a (last_axis (g_dim g))); [rewrite R; reflexivity|].
  destruct R as (x & ->). cbn [bind]. rewrite (aget_peek_c ov) by auto.
  destruct (peek_ok ov g s _ Hg Hs Hc) as (o & ->). cbn [bind]. rewrite (aset_poke ov) by auto.
  eexists. split; [reflexivity|]. apply poke_shaped; auto.
Qed.
Lemma third_vstep ov (g : grid T) al s a d : okgrid ov g -> g_pad g = 1 -> used (g_dim g) a = true -> shaped g al -> shaped g s ->
  if axis_eqb a (last_axis (g_dim g)) then third_vcell ov g al g s (0, 0, 0) (a, d) = UB OutOfBounds
  else exists s', third_vcell ov g al g s (0, 0, 0) (a, d) = Ok s' /\ shaped g s'.
Proof.
  intros Hg Hp Hu Ha Hs. destruct (first_interior ov g Hg) as (Hi & _).
  destruct (ashift_ok ov g al 0 0 0 a 1 Hg Hi Hu) as (C1 & E1); [lia|].
  destruct (ashift_ok ov g al 0 0 0 a (-1) Hg Hi Hu) as (C2 & E2); [lia|].
  pose proof (interior_padded _ _ (g_pad g) _ (proj1 Hg) Hi) as Hc.
  pose proof (minus2_read ov g al a Hg Hp Hu Ha) as R. unfold third_vcell.
  rewrite E1, (pk_ok vzero ov g al _ Hg Ha C1). cbn [bind].
  rewrite (aget_peek_c ov g al) by auto. rewrite (pk_ok vzero ov g al _ Hg Ha Hc). cbn [bind].
  rewrite E2, (pk_ok vzero ov g al _ Hg Ha C2). cbn [bind].
  destruct (axis_eqb a (last_axis (g_dim g))); [rewrite R; reflexivity|].
  destruct R as (x & ->). cbn [bind]. rewrite (aget_peek_c ov) by auto.
  destruct (peek_ok ov g s _ Hg Hs Hc) as (o & ->). cbn [bind]. rewrite (aset_poke ov) by auto.
  eexists. split; [reflexivity|]. apply poke_shaped; auto.
Qed.

Lemma third_scalar_oob ov (g : grid T) al gr : okgrid ov g -> g_pad g = 1 -> shaped g al -> shaped g gr ->
  third_scalar ov g al g gr = UB OutOfBounds.
Proof.
  intros Hg Hp Ha Hr. destruct (first_interior ov g Hg) as (Hi & r & E).
  unfold third_scalar. replace (array_cells al) with (g_n g) by (symmetry; apply Ha). rewrite E. cbn [forM].
  assert (K : forM (axes (g_dim g)) (fun gr a => third_cell ov g al g gr (0, 0, 0) a) gr = UB OutOfBounds); [|rewrite K; reflexivity].
  pose proof (proj1 (proj1 Hg)) as Hd. pose proof (fun s a Hu Hs => third_step ov g al s a Hg Hp Hu Ha Hs) as S.
  assert (D : g_dim g = 1%nat \/ g_dim g = 2%nat \/ g_dim g = 3%nat) by lia.
  destruct D as [D|[D|D]]; rewrite D in S; rewrite D; cbn [axes forM].
  - pose proof (S gr AX eq_refl Hr) as H. cbn [axis_eqb last_axis] in H. rewrite H. reflexivity.
  - pose proof (S gr AX eq_refl Hr) as H. cbn [axis_eqb last_axis] in H. destruct H as (s & -> & Hs). cbn [bind].
    pose proof (S s AY eq_refl Hs) as H. cbn [axis_eqb last_axis] in H. rewrite H. reflexivity.
  - pose proof (S gr AX eq_refl Hr) as H. cbn [axis_eqb last_axis] in H. destruct H as (s & -> & Hs). cbn [bind].
    pose proof (S s AY eq_refl Hs) as H. cbn [axis_eqb last_axis] in H. destruct H as (s' & -> & Hs'). cbn [bind].
    pose proof (S s' AZ eq_refl Hs') as H. cbn [axis_eqb last_axis] in H. rewrite H. reflexivity.
Qed.
Lemma third_vector_oob ov (g : grid T) al gr : okgrid ov g -> g_pad g = 1 -> shaped g al -> shaped g gr ->
  third_vector ov g al g gr = UB OutOfBounds.
Proof.
  intros Hg Hp Ha Hr. destruct (first_interior ov g Hg) as (Hi & r & E).
  unfold third_vector. replace (array_cells al) with (g_n g) by (symmetry; apply Ha). rewrite E. cbn [forM].
  assert (K : forM (list_prod (axes (g_dim g)) (axes (g_dim g))) (fun gr a => third_vcell ov g al g gr (0, 0, 0) a) gr = UB OutOfBounds); [|rewrite K; reflexivity].
  pose proof (proj1 (proj1 Hg)) as Hd. pose proof (fun s a d Hu Hs => third_vstep ov g al s a d Hg Hp Hu Ha Hs) as S.
  assert (D : g_dim g = 1%nat \/ g_dim g = 2%nat \/ g_dim g = 3%nat) by lia.
  destruct D as [D|[D|D]]; rewrite D in S; rewrite D; cbn [axes list_prod map app forM].
  - pose proof (S gr AX AX eq_refl Hr) as H. cbn [axis_eqb last_axis] in H. rewrite H. reflexivity.
  - pose proof (S gr AX AX eq_refl Hr) as H. cbn [axis_eqb last_axis] in H. destruct H as (s & -> & Hs). cbn [bind].
    pose proof (S s AX AY eq_refl Hs) as H. cbn [axis_eqb last_axis] in H. destruct H as (s' & -> & Hs'). cbn [bind].
    pose proof (S s' AY AX eq_refl Hs') as H. cbn [axis_eqb last_axis] in H. rewrite H. reflexivity.
  - assert (ST : forall s a d, shaped g s -> a <> AZ -> exists s', third_vcell ov g al g s (0, 0, 0) (a, d) = Ok s' /\ shaped g s').
    { intros s a d Hs Hne. destruct a; [apply (S s AX d eq_refl Hs)|apply (S s AY d eq_refl Hs)|congruence]. }
    do 6 (match goal with H : shaped g ?s |- context [third_vcell ov g al g ?s (0, 0, 0) (?a, ?d)] =>
      let s' := fresh "s" in let H' := fresh "Hs" in
      destruct (ST s a d H ltac:(discriminate)) as (s' & -> & H'); cbn [bind] end).
    match goal with H : shaped g ?s |- context [third_vcell ov g al g ?s (0, 0, 0) (AZ, ?d)] =>
      pose proof (S s AZ d eq_refl H) as H1; cbn [axis_eqb last_axis] in H1; rewrite H1 end. reflexivity.
Qed.
End Oob.
