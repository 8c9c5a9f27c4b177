From Coq Require Import ZArith List Lia Bool Reals Lra Psatz.
From Verif Require Import Base Num ModelVec ModelGrid SpecGrid ProofsBase.
Open Scope Z_scope.

(** Mixed-radix number of a cell. *)
Definition lin (dim : nat) (n : vec3 Z) (pad : Z) (c : cell) : Z :=
  match c with (i, j, k) =>
    (if used dim AZ then (k + pad) * (vx n + 2 * pad) * (vy n + 2 * pad) else 0) +
    (if used dim AY then (j + pad) * (vx n + 2 * pad) else 0) + (i + pad)
  end.

Lemma good_used dim n pad a : good_sizes dim n pad -> used dim a = true -> 1 <= vget n a.
Proof. intros (_ & _ & H & _) Hu. specialize (H a). rewrite Hu in H. exact H. Qed.

Lemma extent_pos dim n pad a : good_sizes dim n pad -> 1 <= extent dim n pad a.
Proof.
  intros (Hd & Hp & H & _). specialize (H a). unfold extent. destruct (used dim a); lia.
Qed.

Ltac dim_cases H :=
  let d := fresh "d" in
  match type of H with (1 <= ?dim <= 3)%nat =>
    destruct dim as [|[|[|[|d]]]]; [exfalso; lia| | | |exfalso; lia] end.

Lemma lin_bounds dim n pad c :
  good_sizes dim n pad -> padded_cell dim n pad c ->
  0 <= lin dim n pad c < padded_count dim n pad.
Proof.
  intros (Hd & Hp & Hn & Hs) Hc. destruct c as [[i j] k].
  pose proof (Hn AX) as HX; pose proof (Hn AY) as HY; pose proof (Hn AZ) as HZ.
  pose proof (Hc AX) as CX; pose proof (Hc AY) as CY; pose proof (Hc AZ) as CZ.
  unfold padded_count, extent, lin in *. clear Hs Hn Hc.
  dim_cases Hd; cbn [used Nat.leb vget ccoord] in *.
  - lia.
  - set (sx := vx n + 2 * pad) in *. set (sy := vy n + 2 * pad) in *.
    assert (0 <= (j + pad) * sx) by (apply Z.mul_nonneg_nonneg; lia).
    assert ((j + pad) * sx <= (sy - 1) * sx) by (apply Z.mul_le_mono_nonneg_r; lia).
    lia.
  - set (sx := vx n + 2 * pad) in *. set (sy := vy n + 2 * pad) in *. set (sz := vz n + 2 * pad) in *.
    assert (0 <= (k + pad) * (sx * sy)) by (apply Z.mul_nonneg_nonneg; [|apply Z.mul_nonneg_nonneg]; lia).
    assert (0 <= (j + pad) * sx) by (apply Z.mul_nonneg_nonneg; lia).
    assert ((j + pad) * sx <= (sy - 1) * sx) by (apply Z.mul_le_mono_nonneg_r; lia).
    assert ((k + pad) * (sx * sy) <= (sz - 1) * (sx * sy)) by (apply Z.mul_le_mono_nonneg_r; [apply Z.mul_nonneg_nonneg|]; lia).
    lia.
Qed.

Lemma radix_inj (s a b a' b' : Z) : 0 <= b < s -> 0 <= b' < s -> a * s + b = a' * s + b' -> a = a' /\ b = b'.
Proof. intros. assert (a = a') by nia. subst. lia. Qed.

Lemma lin_inj dim n pad c c' :
  good_sizes dim n pad -> padded_cell dim n pad c -> padded_cell dim n pad c' ->
  lin dim n pad c = lin dim n pad c' -> c = c'.
Proof.
  intros (Hd & Hp & Hn & Hs) Hc Hc' E. destruct c as [[i j] k], c' as [[i' j'] k'].
  pose proof (Hn AX) as HX; pose proof (Hn AY) as HY; pose proof (Hn AZ) as HZ.
  pose proof (Hc AX) as CX; pose proof (Hc AY) as CY; pose proof (Hc AZ) as CZ.
  pose proof (Hc' AX) as DX; pose proof (Hc' AY) as DY; pose proof (Hc' AZ) as DZ.
  unfold lin in E. clear Hc Hc' Hs.
  dim_cases Hd; cbn [used Nat.leb vget ccoord] in *.
  - f_equal; [f_equal|]; lia.
  - destruct (radix_inj (vx n + 2 * pad) (j + pad) (i + pad) (j' + pad) (i' + pad)); try lia.
    f_equal; [f_equal|]; lia.
  - assert (E1 : ((k + pad) * (vy n + 2 * pad) + (j + pad)) * (vx n + 2 * pad) + (i + pad)
               = ((k' + pad) * (vy n + 2 * pad) + (j' + pad)) * (vx n + 2 * pad) + (i' + pad)) by lia.
    apply radix_inj in E1; [|lia|lia]. destruct E1 as [E1 E2].
    apply radix_inj in E1; [|lia|lia]. f_equal; [f_equal|]; lia.
Qed.

Lemma lin_surj dim n pad s :
  good_sizes dim n pad -> 0 <= s < padded_count dim n pad ->
  exists c, padded_cell dim n pad c /\ lin dim n pad c = s.
Proof.
  intros (Hd & Hp & Hn & Hs) Hb.
  pose proof (Hn AX) as HX; pose proof (Hn AY) as HY; pose proof (Hn AZ) as HZ.
  unfold padded_count, extent in Hb. clear Hs.
  dim_cases Hd; cbn [used Nat.leb vget ccoord] in *.
  - exists (s - pad, 0, 0). split; [intros [| |]; cbn [used Nat.leb vget ccoord]; lia | unfold lin; cbn [used Nat.leb vget ccoord]; lia].
  - set (sx := vx n + 2 * pad) in *.
    assert (Hsx : 0 < sx) by lia.
    pose proof (Z.mod_pos_bound s sx Hsx). pose proof (Z.div_mod s sx ltac:(lia)).
    assert (0 <= s / sx) by (apply Z.div_pos; lia).
    assert (s / sx < vy n + 2 * pad) by (apply Z.div_lt_upper_bound; lia).
    exists (s mod sx - pad, s / sx - pad, 0). split.
    + intros [| |]; cbn [used Nat.leb vget ccoord]; fold sx; lia.
    + unfold lin; cbn [used Nat.leb vget ccoord]. fold sx. lia.
  - set (sx := vx n + 2 * pad) in *. set (sy := vy n + 2 * pad) in *. set (sz := vz n + 2 * pad) in *.
    assert (Hsx : 0 < sx) by lia. assert (Hsy : 0 < sy) by lia.
    pose proof (Z.mod_pos_bound s sx Hsx). pose proof (Z.div_mod s sx ltac:(lia)).
    set (q := s / sx) in *.
    pose proof (Z.mod_pos_bound q sy Hsy). pose proof (Z.div_mod q sy ltac:(lia)).
    assert (0 <= q) by (apply Z.div_pos; lia).
    assert (q < sy * sz) by (apply Z.div_lt_upper_bound; lia).
    assert (0 <= q / sy) by (apply Z.div_pos; lia).
    assert (q / sy < sz) by (apply Z.div_lt_upper_bound; lia).
    exists (s mod sx - pad, q mod sy - pad, q / sy - pad). split.
    + intros [| |]; cbn [used Nat.leb vget ccoord]; lia.
    + unfold lin; cbn [used Nat.leb vget ccoord]. fold sx sy.
      replace (q mod sy - pad + pad) with (q mod sy) by lia.
      replace (q / sy - pad + pad) with (q / sy) by lia.
      replace (s mod sx - pad + pad) with (s mod sx) by lia.
      transitivity (sx * (sy * (q / sy) + q mod sy) + s mod sx); [ring|].
      rewrite <- H2. lia.
Qed.

(** Coordinates accepted by the index function: padded on the used axes; on unused axes 0,
    or anything when overflow wraps (the term is multiplied by 0). *)
Definition cell_for (ov : ovmode) (dim : nat) (n : vec3 Z) (pad : Z) (c : cell) : Prop :=
  forall a, if used dim a then - pad <= ccoord c a < vget n a + pad
            else match ov with Trap => ccoord c a = 0 | Wrap => True end.

Lemma padded_cell_for ov dim n pad c : padded_cell dim n pad c -> cell_for ov dim n pad c.
Proof.
  intros H a. specialize (H a). destruct (used dim a); auto. destruct ov; auto.
Qed.

(** forget the coordinates of unused axes *)
Definition project (dim : nat) (c : cell) : cell :=
  match c with (i, j, k) => (i, if used dim AY then j else 0, if used dim AZ then k else 0) end.

Lemma project_padded ov dim n pad c : cell_for ov dim n pad c -> padded_cell dim n pad (project dim c).
Proof.
  intros H a. specialize (H a). destruct c as [[i j] k].
  destruct a; unfold project; cbn [ccoord] in *; cbn [used] in *; auto.
  - destruct (Nat.leb 2 dim); auto.
  - destruct (Nat.leb 3 dim); auto.
Qed.

Lemma project_id dim n pad c : padded_cell dim n pad c -> project dim c = c.
Proof.
  intros H. destruct c as [[i j] k]. pose proof (H AY) as HY; pose proof (H AZ) as HZ.
  unfold project. cbn [ccoord] in *. destruct (used dim AY), (used dim AZ); congruence.
Qed.

Lemma lin_project dim n pad c : lin dim n pad (project dim c) = lin dim n pad c.
Proof.
  destruct c as [[i j] k]. unfold lin, project. destruct (used dim AY), (used dim AZ); reflexivity.
Qed.

Section WithT.
Context {T : Type} {NT : Num T}.

(** A grid whose storage has been generated with its current padding. *)
Definition shaped_grid (g : grid T) : Prop :=
  good_sizes (g_dim g) (g_n g) (g_pad g) /\
  Z.of_nat (length (g_nodes g)) = padded_count (g_dim g) (g_n g) (g_pad g).

Definition gcount (g : grid T) := padded_count (g_dim g) (g_n g) (g_pad g).
Definition glin (g : grid T) := lin (g_dim g) (g_n g) (g_pad g).
Definition gcell (g : grid T) := padded_cell (g_dim g) (g_n g) (g_pad g).
Definition gcell_for ov (g : grid T) := cell_for ov (g_dim g) (g_n g) (g_pad g).
Definition garith ov (g : grid T) := arith_ok ov (g_dim g) (g_n g) (g_pad g).

Local Ltac chks := repeat match goal with
  | |- context [bind (chk ?ov ?z) _] =>
      rewrite (chk_ok ov z) by lia; cbn [bind]
  end.

Lemma index_ok ov (g : grid T) i j k :
  good_sizes (g_dim g) (g_n g) (g_pad g) -> garith ov g -> gcell_for ov g (i, j, k) ->
  index ov g i j k = Ok (glin g (i, j, k)).
Proof.
  intros Hg Har Hc.
  pose proof (lin_bounds _ _ _ _ Hg (project_padded ov _ _ _ _ Hc)) as HB.
  rewrite lin_project in HB.
  unfold glin, gcell_for, garith in *.
  destruct Hg as (Hd & Hp & Hn & Hs).
  pose proof (Hn AX) as HX; pose proof (Hn AY) as HY; pose proof (Hn AZ) as HZ.
  pose proof (Hc AX) as CX; pose proof (Hc AY) as CY; pose proof (Hc AZ) as CZ.
  unfold index, iadd, imul.
  destruct g as [dim n pad tot bmin bmax dx odx nodes]; cbn [g_dim g_n g_pad] in *.
  destruct n as [nx ny nz].
  unfold padded_count, extent in *. clear Hn Hc.
  assert (HM : INT_MAX = 2147483647) by reflexivity.
  assert (Hm : INT_MIN = -2147483648) by reflexivity.
  dim_cases Hd; unfold mask; cbn [used Nat.leb vget vx vy vz ccoord lin] in *;
    set (sx := nx + 2 * pad) in *; set (sy := ny + 2 * pad) in *.
  - (* 1-D *)
    assert (Hny : sy = 1 + 2 * pad) by lia.
    assert (Hp0 : 0 <= pad <= INT_MAX) by lia.
    destruct ov.
    + destruct Har as [?|Har]; [discriminate|]. cbn [vx vy] in Har. fold sx sy in Har.
      assert (0 <= pad * sx) by (apply Z.mul_nonneg_nonneg; lia).
      assert (pad * sx * 1 <= pad * sx * sy) by (apply Z.mul_le_mono_nonneg_l; lia).
      subst j k. replace (0 + pad) with pad by lia.
      set (t1 := pad * sx) in *. set (t2 := t1 * sy) in *.
      chks. f_equal. rewrite to_size_t_ok; lia.
    + destruct (chk_wrap_total (k + pad)) as [w1 ->]; cbn [bind]. chks. fold sx sy.
      destruct (chk_wrap_total (w1 * sx)) as [w2 ->]; cbn [bind].
      destruct (chk_wrap_total (w2 * sy)) as [w3 ->]; cbn [bind].
      replace (w3 * 0) with 0 by ring. chks.
      destruct (chk_wrap_total (j + pad)) as [w4 ->]; cbn [bind].
      destruct (chk_wrap_total (w4 * sx)) as [w5 ->]; cbn [bind].
      replace (w5 * 0) with 0 by ring. chks. f_equal. rewrite to_size_t_ok; lia.
  - (* 2-D *)
    assert (HJ : 0 <= (j + pad) * sx) by (apply Z.mul_nonneg_nonneg; lia).
    assert (sx * 1 <= sx * sy) by (apply Z.mul_le_mono_nonneg_l; lia).
    assert (1 * sy <= sx * sy) by (apply Z.mul_le_mono_nonneg_r; lia).
    destruct ov.
    + destruct Har as [?|Har]; [discriminate|]. cbn [vx vy] in Har. fold sx sy in Har.
      assert (0 <= pad * sx) by (apply Z.mul_nonneg_nonneg; lia).
      assert (pad * sx * 1 <= pad * sx * sy) by (apply Z.mul_le_mono_nonneg_l; lia).
      subst k. replace (0 + pad) with pad by lia.
      set (t1 := pad * sx) in *. set (t2 := t1 * sy) in *. set (t3 := (j + pad) * sx) in *.
      chks. f_equal. rewrite to_size_t_ok; lia.
    + destruct (chk_wrap_total (k + pad)) as [w1 ->]; cbn [bind]. chks. fold sx sy.
      destruct (chk_wrap_total (w1 * sx)) as [w2 ->]; cbn [bind].
      destruct (chk_wrap_total (w2 * sy)) as [w3 ->]; cbn [bind].
      replace (w3 * 0) with 0 by ring.
      set (t3 := (j + pad) * sx) in *. chks. f_equal. rewrite to_size_t_ok; lia.
  - (* 3-D *)
    set (sz := nz + 2 * pad) in *.
    assert (HJ : 0 <= (j + pad) * sx) by (apply Z.mul_nonneg_nonneg; lia).
    assert (HK1 : 0 <= (k + pad) * sx) by (apply Z.mul_nonneg_nonneg; lia).
    assert (HK3 : (k + pad) * sx * 1 <= (k + pad) * sx * sy) by (apply Z.mul_le_mono_nonneg_l; lia).
    assert (Hsxy : sx * 1 <= sx * sy) by (apply Z.mul_le_mono_nonneg_l; lia).
    assert (Hsxy' : 1 * sy <= sx * sy) by (apply Z.mul_le_mono_nonneg_r; lia).
    assert (sx * sy * 1 <= sx * sy * sz) by (apply Z.mul_le_mono_nonneg_l; lia).
    assert (1 * sz <= sx * sy * sz) by (apply Z.mul_le_mono_nonneg_r; lia).
    set (t1 := (k + pad) * sx) in *. set (t2 := t1 * sy) in *. set (t3 := (j + pad) * sx) in *.
    set (t4 := sx * sy) in *. set (t5 := t4 * sz) in *.
    chks. f_equal. rewrite to_size_t_ok; lia.
Qed.

Lemma good_int dim n pad a : good_sizes dim n pad ->
  0 <= 2 * pad <= INT_MAX /\ 1 <= vget n a <= INT_MAX /\ extent dim n pad a <= INT_MAX.
Proof.
  intros Hg.
  pose proof (extent_pos _ _ _ AX Hg) as EX. pose proof (extent_pos _ _ _ AY Hg) as EY.
  pose proof (extent_pos _ _ _ AZ Hg) as EZ.
  destruct Hg as (Hd & Hp & Hn & Hs). unfold padded_count in Hs.
  set (x := extent dim n pad AX) in *. set (y := extent dim n pad AY) in *. set (z := extent dim n pad AZ) in *.
  assert (x * 1 <= x * y) by (apply Z.mul_le_mono_nonneg_l; lia).
  assert (1 * y <= x * y) by (apply Z.mul_le_mono_nonneg_r; lia).
  assert (x * y * 1 <= x * y * z) by (apply Z.mul_le_mono_nonneg_l; lia).
  assert (1 * z <= x * y * z) by (apply Z.mul_le_mono_nonneg_r; lia).
  assert (0 <= 2 * pad <= INT_MAX).
  { split; [lia|]. pose proof (Hn AX) as HX. unfold extent in x. cbn [used] in *. lia. }
  split; [assumption|].
  specialize (Hn a).
  assert (INT_MAX = 2147483647) by reflexivity.
  destruct a; fold x y z; (split; [|lia]); unfold extent in *; destruct (used dim _); cbn [vget] in *; lia.
Qed.

Lemma resize_count_ok ov (g : grid T) :
  good_sizes (g_dim g) (g_n g) (g_pad g) -> resize_count ov g = Ok (gcount g).
Proof.
  intros Hg.
  pose proof (good_int _ _ _ AX Hg) as GX. pose proof (good_int _ _ _ AY Hg) as GY.
  pose proof (good_int _ _ _ AZ Hg) as GZ.
  pose proof (extent_pos _ _ _ AX Hg) as EX. pose proof (extent_pos _ _ _ AY Hg) as EY.
  pose proof (extent_pos _ _ _ AZ Hg) as EZ.
  destruct Hg as (Hd & Hp & Hn & Hs).
  pose proof (Hn AX) as HX; pose proof (Hn AY) as HY; pose proof (Hn AZ) as HZ. clear Hn.
  unfold gcount, resize_count, iadd, imul, padded_count, extent in *.
  destruct g as [dim n pad tot bmin bmax dx odx nodes]; cbn [g_dim g_n g_pad] in *.
  destruct n as [nx ny nz].
  assert (HM : INT_MAX = 2147483647) by reflexivity.
  assert (Hm : INT_MIN = -2147483648) by reflexivity.
  dim_cases Hd; unfold mask; cbn [used Nat.leb vget vx vy vz] in *.
  - subst ny nz. chks. f_equal. rewrite to_size_t_ok; lia.
  - subst nz.
    assert ((nx + 2 * pad) * (ny + 2 * pad) = (ny + 2 * pad) * (nx + 2 * pad)) by ring.
    chks.
    replace (1 + 2 * pad * 0) with 1 by lia.
    replace (ny + 2 * pad * 1) with (ny + 2 * pad) by lia.
    replace (nx + 2 * pad * 1) with (nx + 2 * pad) by lia.
    replace (1 * (ny + 2 * pad)) with (ny + 2 * pad) by lia.
    assert (1 <= (ny + 2 * pad) * (nx + 2 * pad)) by (apply Z.lt_pred_le, Z.mul_pos_pos; lia).
    chks. f_equal. rewrite to_size_t_ok; lia.
  - replace (2 * pad * 1) with (2 * pad) by lia. chks.
    replace (2 * pad * 1) with (2 * pad) by lia.
    set (x := nx + 2 * pad) in *. set (y := ny + 2 * pad) in *. set (z := nz + 2 * pad) in *.
    assert (1 <= z * y) by (apply Z.lt_pred_le, Z.mul_pos_pos; lia).
    assert (z * y * 1 <= z * y * x) by (apply Z.mul_le_mono_nonneg_l; lia).
    assert (E : z * y * x = x * y * z) by ring.
    set (t1 := z * y) in *. set (t2 := t1 * x) in *.
    chks. f_equal. rewrite to_size_t_ok; lia.
Qed.

Definition bounds_cells (dim : nat) (n : vec3 Z) (pad : Z) : list cell :=
  let p a := if used dim a then pad else 0 in
  cells3 (range (- p AX) (vx n + p AX)) (range (- p AY) (vy n + p AY)) (range (- p AZ) (vz n + p AZ)).

Lemma in_bounds_cells dim n pad c : good_sizes dim n pad ->
  In c (bounds_cells dim n pad) <-> padded_cell dim n pad c.
Proof.
  intros (Hd & Hp & Hn & Hs). destruct c as [[i j] k].
  unfold bounds_cells. rewrite in_cells3, !in_range.
  pose proof (Hn AX) as HX; pose proof (Hn AY) as HY; pose proof (Hn AZ) as HZ.
  unfold padded_cell. split.
  - intros (H1 & H2 & H3) a. destruct a; cbn [ccoord vget] in *; auto.
    + destruct (used dim AY); lia.
    + destruct (used dim AZ); lia.
  - intros H. pose proof (H AX) as H1; pose proof (H AY) as H2; pose proof (H AZ) as H3.
    cbn [ccoord vget] in *. cbn [used] in H1. split; [cbn [used]; lia|].
    destruct (used dim AY), (used dim AZ); lia.
Qed.

Lemma bounds_cells_nodup dim n pad : NoDup (bounds_cells dim n pad).
Proof. apply nodup_cells3; apply nodup_range. Qed.

Lemma gen_cells_ok ov (g : grid T) :
  good_sizes (g_dim g) (g_n g) (g_pad g) ->
  gen_cells ov g = Ok (bounds_cells (g_dim g) (g_n g) (g_pad g)).
Proof.
  intros Hg.
  pose proof (good_int _ _ _ AX Hg) as GX. pose proof (good_int _ _ _ AY Hg) as GY.
  pose proof (good_int _ _ _ AZ Hg) as GZ.
  destruct Hg as (Hd & Hp & Hn & Hs). clear Hn Hs.
  unfold gen_cells, bounds_cells, iadd, imul, isub, extent in *.
  destruct g as [dim n pad tot bmin bmax dx odx nodes]; cbn [g_dim g_n g_pad] in *.
  destruct n as [nx ny nz].
  assert (HM : INT_MAX = 2147483647) by reflexivity.
  assert (Hm : INT_MIN = -2147483648) by reflexivity.
  assert (H : forall a b c d e f a' b' c' d' e' f', a = a' -> b = b' -> c = c' -> d = d' -> e = e' -> f = f' ->
    Ok (cells3 (range a b) (range c d) (range e f)) = Ok (cells3 (range a' b') (range c' d') (range e' f')))
    by (intros; subst; reflexivity).
  dim_cases Hd; unfold mask; cbn [used Nat.leb vget vx vy vz] in *; chks; apply H; lia.
Qed.

Definition pos_at (dim : nat) (n : vec3 Z) (pad : Z) (bmin bmax : vec3 T) (c : cell) : vec3 T :=
  let g0 := mkGrid dim n pad 0 bmin bmax bmin bmin [] in
  let m := mask dim in
  match c with (i, j, k) =>
    gen_elem g0 (gen_min g0 bmin (gen_dx g0 bmin bmax)) (gen_dx g0 bmin bmax)
      (V3 (i + pad * vx m) (j + pad * vy m) (k + pad * vz m)) end.

Lemma make_grid_ok ov dim n pad (bmin bmax : vec3 T) :
  good_sizes dim n pad -> arith_ok ov dim n pad ->
  exists g, make_grid ov dim n pad bmin bmax = Ok g /\
    g_dim g = dim /\ g_n g = n /\ g_pad g = pad /\
    g_box_min g = bmin /\ g_box_max g = bmax /\
    g_dx g = gen_dx g bmin bmax /\
    (forall a, used dim a = true -> vget (g_odx g) a = (nofZ 1 / vget (g_dx g) a)%num) /\
    Z.of_nat (length (g_nodes g)) = padded_count dim n pad /\
    (forall c, padded_cell dim n pad c ->
       vread (g_nodes g) (lin dim n pad c) = Ok (pos_at dim n pad bmin bmax c)) /\
    g_total g = vx n * vy n * vz n.
Proof.
  intros Hg Har.
  pose proof (good_int _ _ _ AX Hg) as GX. pose proof (good_int _ _ _ AY Hg) as GY.
  pose proof (good_int _ _ _ AZ Hg) as GZ.
  assert (HM : INT_MAX = 2147483647) by reflexivity.
  assert (Hm : INT_MIN = -2147483648) by reflexivity.
  assert (HN : 1 <= vx n * vy n /\ vx n * vy n * vz n <= INT_MAX /\ vx n * vy n <= vx n * vy n * vz n).
  { cbn [vget] in *. destruct Hg as (Hd & Hp & Hn & Hs).
    assert (1 <= vx n * vy n) by (apply Z.lt_pred_le, Z.mul_pos_pos; lia).
    assert (vx n * vy n * 1 <= vx n * vy n * vz n) by (apply Z.mul_le_mono_nonneg_l; lia).
    split; [lia|]. split; [|lia]. refine (Z.le_trans _ _ _ _ Hs). unfold padded_count.
    assert (HE : forall a, vget n a <= extent dim n pad a).
    { intros a. specialize (Hn a). unfold extent. destruct (used dim a); lia. }
    pose proof (HE AX); pose proof (HE AY); pose proof (HE AZ). cbn [vget] in *.
    apply Z.mul_le_mono_nonneg; try lia. apply Z.mul_le_mono_nonneg; lia. }
  destruct HN as (HN1 & HN2 & HN3).
  unfold make_grid, grid_ctor, imul.
  cbn [vget] in *.
  rewrite (chk_ok ov (vx n * vy n)) by lia; cbn [bind].
  rewrite (chk_ok ov (vx n * vy n * vz n)) by lia; cbn [bind].
  unfold generate. set (g0 := set_padding _ pad).
  assert (E0 : g_dim g0 = dim /\ g_n g0 = n /\ g_pad g0 = pad) by (destruct n; auto).
  destruct E0 as (Ed & En & Ep).
  rewrite resize_count_ok by (rewrite Ed, En, Ep; exact Hg); cbn [bind].
  rewrite gen_cells_ok by (rewrite Ed, En, Ep; exact Hg); cbn [bind].
  unfold gcount. rewrite Ed, En, Ep.
  set (dx := gen_dx g0 bmin bmax). set (odx := gen_odx g0 dx). set (mn := gen_min g0 bmin dx).
  set (g1 := mkGrid dim n pad (g_total g0) bmin bmax dx odx _).
  cbn [g_nodes g1].
  set (cnt := Z.to_nat (padded_count dim n pad)).
  assert (Hc0 : 0 <= padded_count dim n pad).
  { pose proof (extent_pos _ _ _ AX Hg); pose proof (extent_pos _ _ _ AY Hg); pose proof (extent_pos _ _ _ AZ Hg).
    unfold padded_count. apply Z.mul_nonneg_nonneg; [apply Z.mul_nonneg_nonneg|]; lia. }
  destruct (forM_obs (padded_cell dim n pad)
     (fun l => length l = cnt)
     (fun l c => vread l (lin dim n pad c))
     (fun c _ => Ok (pos_at dim n pad bmin bmax c))
     (fun l c => match c with (i, j, k) =>
        let vec := V3 (i + pad * vx (mask dim)) (j + pad * vy (mask dim)) (k + pad * vz (mask dim)) in
        idx <- index ov g1 i j k ;; vwrite l idx (gen_elem g0 mn dx vec) end)
     (bounds_cells dim n pad) (repeat vzero cnt)) as (l & El & Hl & Hin & Hout).
  - apply bounds_cells_nodup.
  - intros c. apply in_bounds_cells; auto.
  - apply repeat_length.
  - intros l c Hl Hc. apply in_bounds_cells in Hc; [|exact Hg].
    pose proof (lin_bounds _ _ _ _ Hg Hc) as HB.
    destruct c as [[i j] k].
    rewrite index_ok; [|exact Hg|exact Har|apply padded_cell_for; exact Hc]. cbn [bind].
    change (glin g1 (i, j, k)) with (lin dim n pad (i, j, k)).
    assert (HL : 0 <= lin dim n pad (i, j, k) < Z.of_nat (length l)) by (rewrite Hl; unfold cnt; lia).
    rewrite vwrite_inb by exact HL. eexists. split; [reflexivity|].
    split; [rewrite lupd_length; exact Hl|]. split.
    + rewrite vread_lupd_same by exact HL. f_equal.
    + intros c' Hc' Hne. apply vread_lupd_other; try lia.
      * apply lin_bounds; auto.
      * intros E. apply Hne. symmetry. eapply lin_inj; eauto.
  - match goal with |- context [bind ?F _] => replace F with (Ok l) by (symmetry; exact El) end. cbn [bind]. eexists. split; [reflexivity|].
    cbn [g_dim g_n g_pad g_box_min g_box_max g_dx g_odx g_nodes g_total].
    repeat (split; [reflexivity|]).
    split.
    { destruct Hg as (Hd & _). clear - Hd Ed. unfold odx, gen_odx. rewrite Ed.
      dim_cases Hd; intros [| |]; cbn; congruence. }
    split. { rewrite Hl. unfold cnt. lia. }
    split. { intros c Hc. apply Hin. apply in_bounds_cells; auto. }
    destruct Hg as (Hd & _ & Hn & _). clear - Hd Hn HN1 HN2 HN3 GX GY GZ HM.
    pose proof (Hn AY) as HY; pose proof (Hn AZ) as HZ.
    dim_cases Hd; cbn [axes fold_left vget used Nat.leb] in *.
    + rewrite HY, HZ. rewrite Z.mod_small by lia. lia.
    + rewrite HZ in *. rewrite (Z.mod_small (1 * vx n)) by lia. rewrite Z.mod_small by lia. lia.
    + rewrite (Z.mod_small (1 * vx n)) by lia. rewrite (Z.mod_small (1 * vx n * vy n)) by lia.
      rewrite Z.mod_small by lia. lia.
Qed.
End WithT.
