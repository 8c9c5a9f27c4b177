(** Lemmas behind the properties of grids, arrays and small vectors. *)
From Coq Require Import ZArith List Lia Bool Reals Lra QArith Permutation.
From Verif Require Import Base Num ModelVec ModelGrid ModelArray SpecGrid ProofsBase ProofsGrid ProofsArray.
Open Scope Z_scope.

Section G.
Context {T : Type} {NT : Num T}.
Implicit Types (g : grid T).

Lemma built_size ov dim n pad bmin bmax g : built ov dim n pad bmin bmax g ->
  grid_size g = padded_count dim n pad.
Proof.
  intros Hb. apply built_ok in Hb. rewrite (grid_size_ok ov); [|apply Hb|apply Hb].
  unfold gcount. rewrite (bf_dim _ _ _ _ _ _ _ Hb), (bf_n _ _ _ _ _ _ _ Hb), (bf_pad _ _ _ _ _ _ _ Hb). reflexivity.
Qed.

Lemma built_gcell ov dim n pad bmin bmax g c : built ov dim n pad bmin bmax g ->
  gcell g c <-> padded_cell dim n pad c.
Proof.
  intros Hb. apply built_ok in Hb. unfold gcell.
  rewrite (bf_dim _ _ _ _ _ _ _ Hb), (bf_n _ _ _ _ _ _ _ Hb), (bf_pad _ _ _ _ _ _ _ Hb). reflexivity.
Qed.

Lemma array_on_shaped {A} ov dim n pad bmin bmax g (a : array A) :
  built ov dim n pad bmin bmax g -> array_on g a <-> shaped g a.
Proof.
  intros Hb. unfold array_on, shaped, array_size, array_cells, num_cells.
  rewrite (built_size _ _ _ _ _ _ _ Hb). apply built_ok in Hb. unfold gcount.
  rewrite (bf_dim _ _ _ _ _ _ _ Hb), (bf_n _ _ _ _ _ _ _ Hb), (bf_pad _ _ _ _ _ _ _ Hb). reflexivity.
Qed.

Lemma index_built ov dim n pad bmin bmax g i j k : built ov dim n pad bmin bmax g ->
  padded_cell dim n pad (i, j, k) -> index ov g i j k = Ok (lin dim n pad (i, j, k)).
Proof.
  intros Hb Hc. pose proof (built_ok _ _ _ _ _ _ _ Hb) as F.
  rewrite index_ok; [|apply F|apply F|].
  - unfold glin. rewrite (bf_dim _ _ _ _ _ _ _ F), (bf_n _ _ _ _ _ _ _ F), (bf_pad _ _ _ _ _ _ _ F). reflexivity.
  - apply padded_cell_for. apply (built_gcell _ _ _ _ _ _ _ _ Hb). exact Hc.
Qed.

(** *** C01 *)
Lemma storage_bijection ov dim n pad bmin bmax g :
  built ov dim n pad bmin bmax g ->
  (forall i j k, padded_cell dim n pad (i, j, k) ->
     exists s, index ov g i j k = Ok s /\ 0 <= s < grid_size g) /\
  (forall i j k i' j' k', padded_cell dim n pad (i, j, k) -> padded_cell dim n pad (i', j', k') ->
     index ov g i j k = index ov g i' j' k' -> (i, j, k) = (i', j', k')) /\
  (forall s, 0 <= s < grid_size g ->
     exists i j k, padded_cell dim n pad (i, j, k) /\ index ov g i j k = Ok s).
Proof.
  intros Hb. pose proof Hb as (Hg & _ & _). rewrite (built_size _ _ _ _ _ _ _ Hb). split; [|split].
  - intros i j k Hc. exists (lin dim n pad (i, j, k)). split.
    + eapply index_built; eauto.
    + apply lin_bounds; auto.
  - intros i j k i' j' k' Hc Hc' E.
    rewrite (index_built _ _ _ _ _ _ _ _ _ _ Hb Hc), (index_built _ _ _ _ _ _ _ _ _ _ Hb Hc') in E.
    inversion E. eapply lin_inj; eauto.
  - intros s Hs. destruct (lin_surj _ _ _ _ Hg Hs) as ([[i j] k] & Hc & <-).
    exists i, j, k. split; auto. eapply index_built; eauto.
Qed.

(** *** C02 *)
Lemma cell_eqb_eq c d : cell_eqb c d = true <-> c = d.
Proof.
  destruct c as [[i j] k], d as [[i' j'] k']. cbn.
  rewrite !andb_true_iff, !Z.eqb_eq. split; [intros ((-> & ->) & ->); auto | intros E; inversion E; auto].
Qed.

Lemma array_history {A} ov dim n pad bmin bmax g (a : array A) (ws : list (cell * A)) :
  built ov dim n pad bmin bmax g -> array_on g a ->
  (forall c v, In (c, v) ws -> padded_cell dim n pad c) ->
  exists a', run_writes ov g ws a = Ok a' /\ array_on g a' /\
    (forall i j k, padded_cell dim n pad (i, j, k) ->
       exists v0, aget ov g a i j k = Ok v0 /\
       aget ov g a' i j k = Ok (match last_write ws (i, j, k) with Some v => v | None => v0 end)).
Proof.
  intros Hb Ha Hw. pose proof (built_ok _ _ _ _ _ _ _ Hb) as F. pose proof (bf_ok _ _ _ _ _ _ _ F) as Hok.
  assert (Hsh : shaped g a) by (eapply array_on_shaped; eauto). unfold run_writes.
  destruct (forM_inv (fun pre s => shaped g s /\ forall c, gcell g c ->
      peek g s c = match last_write pre c with Some v => Ok v | None => peek g a c end)
      (fun a w => match w with ((i, j, k), v) => aset ov g a i j k v end) ws a) as (a' & E & Hs' & Hp).
  - split; auto.
  - intros pre [[[i j] k] v] post s -> (Hs & Hp).
    assert (Hc : gcell g (i, j, k)).
    { apply (built_gcell _ _ _ _ _ _ _ _ Hb). apply (Hw _ v), in_elt. }
    rewrite aset_poke by auto. eexists. split; [reflexivity|]. split; [apply poke_shaped; auto|].
    intros c Hcc. unfold last_write. rewrite fold_left_app. cbn [fold_left fst snd].
    destruct (cell_eqb (i, j, k) c) eqn:Ec.
    + apply cell_eqb_eq in Ec. subst c. eapply peek_poke_same; eauto.
    + rewrite (peek_poke_other ov) by (auto; intros ->; assert (cell_eqb (i,j,k) (i,j,k) = true) by (apply cell_eqb_eq; auto); congruence).
      apply Hp. auto.
  - exists a'. split; [exact E|]. split; [eapply array_on_shaped; eauto|].
    intros i j k Hc. apply (built_gcell _ _ _ _ _ _ _ _ Hb) in Hc.
    rewrite !aget_peek_c by auto. destruct (peek_ok ov g a (i, j, k)) as (v0 & E0); auto.
    exists v0. split; auto. rewrite Hp by auto. destruct (last_write ws (i, j, k)); auto.
Qed.

(** *** C05 *)
Lemma fresh_array {A} ov dim n pad bmin bmax g (d : A) :
  built ov dim n pad bmin bmax g ->
  array_on g (array_ctor g d) /\
  forall i j k, padded_cell dim n pad (i, j, k) -> aget ov g (array_ctor g d) i j k = Ok d.
Proof.
  intros Hb. pose proof (built_ok _ _ _ _ _ _ _ Hb) as F. pose proof (bf_ok _ _ _ _ _ _ _ F) as Hok.
  destruct (array_ctor_shaped ov g d Hok (bf_len _ _ _ _ _ _ _ F)) as [H1 H2]. split.
  - eapply array_on_shaped; eauto.
  - intros i j k Hc. apply (built_gcell _ _ _ _ _ _ _ _ Hb) in Hc. rewrite aget_peek_c by auto. auto.
Qed.

Lemma fresh_fields ov dim n pad bmin bmax g :
  built ov dim n pad bmin bmax g ->
  let l := levelset_ctor g in let lv := ls_velocity_ctor g in
  let z := nofZ 0 in
  forall i j k, padded_cell dim n pad (i, j, k) ->
    aget ov g (ls_phi l) i j k = Ok z /\ aget ov g (ls_psi l) i j k = Ok (V3 z z z) /\
    aget ov g (ls_phi_prev l) i j k = Ok z /\ aget ov g (ls_psi_prev l) i j k = Ok (V3 z z z) /\
    aget ov g (ls_phi_interp l) i j k = Ok z /\ aget ov g (ls_psi_interp l) i j k = Ok (V3 z z z) /\
    (exists m, aget ov g (ls_mix l) i j k = Ok m /\ aget ov g (ls_mix_prev l) i j k = Ok m /\
       Forall (eq z) m /\
       length m = match dim with 1%nat => 0%nat | 2%nat => 1%nat | _ => 4%nat end) /\
    aget ov g (lv_vel lv) i j k = Ok (V3 z z z) /\
    aget ov g (lv_grad lv) i j k = Ok (M3 (V3 z z z) (V3 z z z) (V3 z z z)).
Proof.
  intros Hb l lv z i j k Hc.
  assert (H : forall A (d : A), aget ov g (array_ctor g d) i j k = Ok d).
  { intros A d. eapply fresh_array; eauto. }
  unfold l, lv, levelset_ctor, ls_velocity_ctor. cbn [ls_phi ls_psi ls_mix ls_phi_prev ls_psi_prev ls_mix_prev ls_phi_interp ls_psi_interp lv_vel lv_grad].
  repeat match goal with |- _ /\ _ => split | |- aget _ _ _ _ _ _ = _ => apply H end.
  eexists. split; [apply H|]. split; [apply H|]. split.
  - apply Forall_forall. intros x Hx. apply repeat_spec in Hx. auto.
  - unfold vecN_zero. rewrite repeat_length. rewrite (bf_dim _ _ _ _ _ _ _ (built_ok _ _ _ _ _ _ _ Hb)).
    destruct Hb as ((Hd & _) & _). dim_cases Hd; reflexivity.
Qed.

(** *** C06 *)
Lemma run_writes_frame {A} ov g (ws : list (cell * A)) a a' :
  run_writes ov g ws a = Ok a' -> a_n a' = a_n a /\ a_pad a' = a_pad a /\ length (a_data a') = length (a_data a).
Proof.
  unfold run_writes. revert a; induction ws as [|[[[i j] k] v] ws IH]; intros a E; simpl in E.
  - inversion E; auto.
  - apply bind_ok in E. destruct E as (b & Eb & E). apply IH in E.
    unfold aset in Eb. apply bind_ok in Eb. destruct Eb as (idx & _ & Eb). unfold araw_set in Eb.
    apply bind_ok in Eb. destruct Eb as (d & Ed & Eb). inversion Eb; subst b. cbn in *.
    unfold vwrite in Ed. destruct (_ && _) in Ed; inversion Ed; subst. rewrite lupd_length in E. exact E.
Qed.

Lemma assign_deep_copy {A} ov dim n pad bmin bmax g (a b : array A) (ws : list (cell * A)) :
  built ov dim n pad bmin bmax g -> array_on g a -> array_on g b ->
  (forall c v, In (c, v) ws -> padded_cell dim n pad c) ->
  let b1 := array_assign b a in
  array_on g b1 /\
  (forall i j k, aget ov g b1 i j k = aget ov g a i j k) /\
  (exists b2, run_writes ov g ws b1 = Ok b2 /\
     forall i j k, padded_cell dim n pad (i, j, k) ->
       exists v0, aget ov g a i j k = Ok v0 /\
         aget ov g b2 i j k = Ok (match last_write ws (i, j, k) with Some v => v | None => v0 end)) /\
  (exists a2, run_writes ov g ws a = Ok a2 /\
     forall i j k, padded_cell dim n pad (i, j, k) ->
       exists v0, aget ov g b1 i j k = Ok v0 /\
         aget ov g a2 i j k = Ok (match last_write ws (i, j, k) with Some v => v | None => v0 end)).
Proof.
  intros Hb Ha Hbb Hw b1.
  assert (H1 : array_on g b1).
  { destruct Ha as [Ha1 Ha2], Hbb as [Hb1 Hb2]. split; cbn; auto. }
  assert (H2 : forall i j k, aget ov g b1 i j k = aget ov g a i j k) by reflexivity.
  split; [exact H1|]. split; [exact H2|]. split.
  - destruct (array_history ov dim n pad bmin bmax g b1 ws Hb H1 Hw) as (b2 & E & _ & H). exists b2. split; auto.
  - destruct (array_history ov dim n pad bmin bmax g a ws Hb Ha Hw) as (a2 & E & _ & H). exists a2. split; auto.
Qed.

(** *** C07 *)
Lemma interior_length n : 0 <= vx n -> 0 <= vy n -> 0 <= vz n ->
  Z.of_nat (length (interior n)) = vx n * vy n * vz n.
Proof.
  intros. unfold interior. rewrite cells3_length, !range_length, !Nat2Z.inj_mul, !Z2Nat.id by lia. lia.
Qed.
Lemma total_cells_counts ov dim n pad bmin bmax g :
  built ov dim n pad bmin bmax g ->
  total_cells g = Z.of_nat (length (interior (num_cells g))).
Proof.
  intros Hb. pose proof (built_ok _ _ _ _ _ _ _ Hb) as F. unfold total_cells, num_cells.
  rewrite (bf_total _ _ _ _ _ _ _ F), (bf_n _ _ _ _ _ _ _ F).
  destruct Hb as (Hg & _). pose proof (good_int _ _ _ AX Hg); pose proof (good_int _ _ _ AY Hg); pose proof (good_int _ _ _ AZ Hg).
  cbn [vget] in *. rewrite interior_length; lia.
Qed.

(** the shorter constructors *)
Lemma short_ctors ov pad (bmin bmax : vec3 T) nx ny :
  (good_sizes 1 (V3 nx 1 1) pad -> arith_ok ov 1 (V3 nx 1 1) pad -> exists g,
     bind (grid_ctor1 ov 1 nx) (fun g0 => generate ov (set_padding g0 pad) bmin bmax) = Ok g /\
     num_cells g = V3 nx 1 1 /\ total_cells g = nx /\ grid_size g = nx + 2 * pad) /\
  (good_sizes 2 (V3 nx ny 1) pad -> arith_ok ov 2 (V3 nx ny 1) pad -> exists g,
     bind (grid_ctor2 ov 2 nx ny) (fun g0 => generate ov (set_padding g0 pad) bmin bmax) = Ok g /\
     num_cells g = V3 nx ny 1 /\ total_cells g = nx * ny /\ grid_size g = (nx + 2 * pad) * (ny + 2 * pad)).
Proof.
  split; intros Hg Ha.
  - destruct (make_grid_ok ov 1 (V3 nx 1 1) pad bmin bmax Hg Ha) as (g & E & _).
    assert (Hb : built ov 1 (V3 nx 1 1) pad bmin bmax g) by (split; auto). exists g. split; [exact E|].
    pose proof (built_ok _ _ _ _ _ _ _ Hb) as F. unfold num_cells, total_cells.
    rewrite (bf_total _ _ _ _ _ _ _ F), (bf_n _ _ _ _ _ _ _ F), (built_size _ _ _ _ _ _ _ Hb). unfold padded_count, extent. cbn [used Nat.leb vget vx vy vz]. repeat split; lia.
  - destruct (make_grid_ok ov 2 (V3 nx ny 1) pad bmin bmax Hg Ha) as (g & E & _).
    assert (Hb : built ov 2 (V3 nx ny 1) pad bmin bmax g) by (split; auto). exists g. split; [exact E|].
    pose proof (built_ok _ _ _ _ _ _ _ Hb) as F. unfold num_cells, total_cells.
    rewrite (bf_total _ _ _ _ _ _ _ F), (bf_n _ _ _ _ _ _ _ F), (built_size _ _ _ _ _ _ _ Hb). unfold padded_count, extent. cbn [used Nat.leb vget vx vy vz]. repeat split; lia.
Qed.

(** *** C08: coordinates on unused axes are ignored *)
Lemma index_ignores_unused ov (g : grid T) c c' s s' :
  (1 <= g_dim g <= 3)%nat ->
  (forall a, used (g_dim g) a = true -> ccoord c a = ccoord c' a) ->
  index ov g (ccoord c AX) (ccoord c AY) (ccoord c AZ) = Ok s ->
  index ov g (ccoord c' AX) (ccoord c' AY) (ccoord c' AZ) = Ok s' -> s = s'.
Proof.
  intros Hd Hu. destruct c as [[i j] k], c' as [[i' j'] k'].
  pose proof (Hu AX eq_refl) as HX. cbn [ccoord] in *. subst i'.
  unfold index. destruct g as [dim n pad tot bmin bmax dx odx nodes]; cbn [g_dim g_n g_pad] in *.
  pose proof (Hu AY) as HY. pose proof (Hu AZ) as HZ. clear Hu.
  dim_cases Hd; cbn [mask vx vy vz used Nat.leb ccoord] in *; try rewrite (HY eq_refl); try rewrite (HZ eq_refl);
  intros E E'; [| |congruence];
  repeat match goal with H : bind _ _ = Ok _ |- _ => apply bind_ok in H; destruct H as (? & ? & H) end;
  unfold iadd, imul in *; rewrite ?Z.mul_0_r in *;
  repeat (repeat match goal with
  | H : chk ?o 0 = Ok _ |- _ => rewrite chk_ok in H by (compute; split; discriminate); inversion H; clear H; subst
  end; replace (0 + 0) with 0 in * by reflexivity);
  repeat match goal with H1 : ?a = Ok ?x, H2 : ?a = Ok ?y |- _ => assert (x = y) by congruence; subst; clear H2 end;
  congruence.
Qed.

(** *** C09 *)
Lemma index_trap_masked (g : grid T) i j k :
  good_sizes (g_dim g) (g_n g) (g_pad g) -> (g_dim g < 3)%nat -> gcell g (i, j, k) ->
  ~ masked_terms_fit (g_dim g) (g_n g) (g_pad g) -> index Trap g i j k = UB SignedOverflow.
Proof.
  intros Hg Hd Hc Hm.
  pose proof (good_int _ _ _ AX Hg) as GX. pose proof (good_int _ _ _ AY Hg) as GY.
  pose proof (extent_pos _ _ _ AX Hg) as EX.
  pose proof (Hc AZ) as CZ.
  unfold masked_terms_fit in Hm.
  assert (HM : INT_MAX = 2147483647) by reflexivity.
  assert (Hmm : INT_MIN = -2147483648) by reflexivity.
  assert (Hov : INT_MAX < g_pad g * (vx (g_n g) + 2 * g_pad g) * (vy (g_n g) + 2 * g_pad g)).
  { apply Z.nle_gt. intros H. apply Hm. right. exact H. }
  destruct g as [dim n pad tot bmin bmax dx odx nodes]; cbn [g_dim g_n g_pad] in *.
  destruct n as [nx ny nz]. cbn [vx vy vz vget] in *.
  assert (Hz : used dim AZ = false) by (apply Nat.leb_gt; lia).
  rewrite Hz in CZ. cbn [ccoord] in CZ. subst k.
  unfold extent in *. cbn [used vget vx] in EX, GX.
  unfold index, iadd, imul. cbn [g_dim g_n g_pad vx vy vz].
  assert (Hsy : ny + 2 * pad <= INT_MAX).
  { destruct Hg as (Hd1 & _ & Hn & _). specialize (Hn AY). destruct (used dim AY); cbn [vget vy] in *; lia. }
  replace (0 + pad) with pad by lia.
  rewrite (chk_ok Trap pad) by lia; cbn [bind].
  rewrite (chk_ok Trap (2 * pad)) by lia; cbn [bind].
  set (sx := nx + 2 * pad) in *. set (sy := ny + 2 * pad) in *.
  rewrite (chk_ok Trap sx) by lia; cbn [bind].
  rewrite (chk_ok Trap sy) by lia; cbn [bind].
  destruct (Z.le_gt_cases (pad * sx) INT_MAX) as [H|H].
  - assert (0 <= pad * sx) by (apply Z.mul_nonneg_nonneg; lia).
    rewrite (chk_ok Trap (pad * sx)) by lia; cbn [bind].
    rewrite chk_trap_overflow by lia. reflexivity.
  - rewrite chk_trap_overflow by lia. reflexivity.
Qed.

Lemma index_overflow_exact dim n pad tot bmin bmax dx odx nodes i j k :
  good_sizes dim n pad -> padded_cell dim n pad (i, j, k) ->
  (masked_terms_fit dim n pad ->
     exists s, index Trap (mkGrid dim n pad tot bmin bmax dx odx nodes : grid T) i j k = Ok s) /\
  (~ masked_terms_fit dim n pad ->
     index Trap (mkGrid dim n pad tot bmin bmax dx odx nodes : grid T) i j k = UB SignedOverflow).
Proof.
  intros Hg Hc. split; intros H.
  - eexists. apply index_ok; cbn; auto.
  - apply index_trap_masked; cbn; auto.
    destruct Hg as (Hd & _). destruct (Nat.eq_dec dim 3); [|lia]. exfalso. apply H. left. auto.
Qed.

Lemma bounds_cells_cons dim n pad : good_sizes dim n pad ->
  exists c cs, bounds_cells dim n pad = c :: cs /\ padded_cell dim n pad c.
Proof.
  intros Hg. destruct (bounds_cells dim n pad) as [|c cs] eqn:E.
  - exfalso. destruct (lin_surj dim n pad 0 Hg) as (c & Hc & _).
    { destruct (lin_bounds dim n pad (0,0,0) Hg); [|lia].
      destruct Hg as (Hd & Hp & Hn & _). intros a. specialize (Hn a). destruct a; cbn [ccoord]; destruct (used dim _); lia. }
    apply in_bounds_cells in Hc; auto. rewrite E in Hc. destruct Hc.
  - exists c, cs. split; auto. apply in_bounds_cells; auto. rewrite E. left; auto.
Qed.

Lemma make_grid_overflow dim n pad (bmin bmax : vec3 T) :
  good_sizes dim n pad -> ~ masked_terms_fit dim n pad ->
  make_grid Trap dim n pad bmin bmax = UB SignedOverflow.
Proof.
  intros Hg Hm.
  destruct (make_grid_ok Wrap dim n pad bmin bmax Hg I) as (gw & Ew & _).
  unfold make_grid, grid_ctor, imul in *.
  assert (HN : forall ov, exists g0 : grid T, (p <- chk ov (vx n * vy n) ;; q <- chk ov (p * vz n) ;;
      Ok (mkGrid dim (V3 (vx n) (vy n) (vz n)) 1 (to_size_t q)
       (V3 (nofZ INT_MIN) (nofZ INT_MIN) (nofZ INT_MIN)) (V3 (nofZ INT_MAX) (nofZ INT_MAX) (nofZ INT_MAX))
       (V3 (nofZ INT_MAX) (nofZ INT_MAX) (nofZ INT_MAX)) (V3 (nofZ INT_MIN) (nofZ INT_MIN) (nofZ INT_MIN)) [])) = Ok g0
       /\ g_dim g0 = dim /\ g_n g0 = n /\ g_pad g0 = 1).
  { intros ov. destruct ov.
    - assert (HM : INT_MAX = 2147483647) by reflexivity.
      assert (Hmm : INT_MIN = -2147483648) by reflexivity.
      pose proof (good_int _ _ _ AX Hg); pose proof (good_int _ _ _ AY Hg); pose proof (good_int _ _ _ AZ Hg).
      cbn [vget] in *. destruct Hg as (Hd & Hp & Hn & Hs).
      assert (1 <= vx n * vy n) by (apply Z.lt_pred_le, Z.mul_pos_pos; lia).
      assert (vx n * vy n * 1 <= vx n * vy n * vz n) by (apply Z.mul_le_mono_nonneg_l; lia).
      assert (vx n * vy n * vz n <= INT_MAX).
      { refine (Z.le_trans _ _ _ _ Hs). unfold padded_count.
        assert (HE : forall a, vget n a <= extent dim n pad a).
        { intros a. specialize (Hn a). unfold extent. destruct (used dim a); lia. }
        pose proof (HE AX); pose proof (HE AY); pose proof (HE AZ). cbn [vget] in *.
        apply Z.mul_le_mono_nonneg; try lia. apply Z.mul_le_mono_nonneg; lia. }
      rewrite chk_ok by lia. cbn [bind]. rewrite chk_ok by lia. cbn [bind].
      eexists. split; [reflexivity|]. destruct n; auto.
    - destruct (chk_wrap_total (vx n * vy n)) as [w ->]. cbn [bind].
      destruct (chk_wrap_total (w * vz n)) as [w' ->]. cbn [bind].
      eexists. split; [reflexivity|]. destruct n; auto. }
  destruct (HN Trap) as (g0 & E0 & D0 & N0 & _). rewrite E0. cbn [bind].
  unfold generate. cbn [set_padding g_dim g_n g_pad g_total].
  set (gp := set_padding g0 pad).
  assert (Hgp : good_sizes (g_dim gp) (g_n gp) (g_pad gp)) by (cbn; rewrite D0, N0; auto).
  rewrite resize_count_ok by exact Hgp. cbn [bind]. rewrite gen_cells_ok by exact Hgp. cbn [bind].
  assert (Hbc : bounds_cells (g_dim gp) (g_n gp) (g_pad gp) = bounds_cells dim n pad) by (cbn; rewrite D0, N0; reflexivity).
  rewrite Hbc. destruct (bounds_cells_cons dim n pad Hg) as ([[i j] k] & cs & Ec & Hc). rewrite Ec.
  cbn [forM g_nodes]. rewrite index_trap_masked.
  - reflexivity.
  - exact Hgp.
  - cbn. rewrite D0. destruct Hg as (Hd & _). destruct (Nat.eq_dec dim 3); [|lia]. exfalso. apply Hm. left. auto.
  - unfold gcell; cbn. rewrite D0, N0. exact Hc.
  - cbn. rewrite D0, N0. exact Hm.
Qed.

(** *** C10 *)
Lemma base_unused (g : grid T) x b a : (1 <= g_dim g <= 3)%nat -> baseNodeId g x = Ok b ->
  used (g_dim g) a = false -> vget b a = INT_MAX.
Proof.
  intros Hd E Hu. unfold baseNodeId in E.
  destruct g as [dim n pad tot bmin bmax dx odx nodes]; cbn [g_dim] in *.
  dim_cases Hd; cbn [axes forM] in E;
   repeat match goal with H : bind _ _ = Ok _ |- _ => apply bind_ok in H; destruct H as (? & ? & H) end;
   repeat match goal with H : Ok _ = Ok _ |- _ => inversion H; clear H; subst end;
   destruct a; cbn in Hu; try discriminate; reflexivity.
Qed.

Lemma base_node_lookup_trap dim n pad bmin bmax g x b :
  built Trap dim n pad bmin bmax g -> (dim < 3)%nat -> 1 <= pad ->
  baseNodeId g x = Ok b -> node_v Trap g b = UB SignedOverflow.
Proof.
  intros Hb Hd Hp E. pose proof (built_ok _ _ _ _ _ _ _ Hb) as F.
  assert (Hz : vz b = INT_MAX).
  { apply (base_unused g x b AZ) in E; auto.
    - destruct Hb as ((Hdd & _) & _). rewrite (bf_dim _ _ _ _ _ _ _ F). exact Hdd.
    - rewrite (bf_dim _ _ _ _ _ _ _ F). apply Nat.leb_gt. exact Hd. }
  unfold node_v, node, index, iadd. rewrite Hz, (bf_pad _ _ _ _ _ _ _ F).
  rewrite chk_trap_overflow; [reflexivity|]. right. lia.
Qed.

Lemma base_node_lookup_defined ov dim n pad bmin bmax g x b :
  built ov dim n pad bmin bmax g -> (ov = Wrap \/ dim = 3%nat) ->
  baseNodeId g x = Ok b ->
  (forall a, used dim a = true -> - pad <= vget b a < vget n a + pad) ->
  exists p, node_v ov g b = Ok p.
Proof.
  intros Hb Hd E Hr. pose proof (built_ok _ _ _ _ _ _ _ Hb) as F. pose proof (bf_ok _ _ _ _ _ _ _ F) as Hok.
  assert (Hc : gcell_for ov g (vx b, vy b, vz b)).
  { intros a. rewrite (bf_dim _ _ _ _ _ _ _ F), (bf_n _ _ _ _ _ _ _ F), (bf_pad _ _ _ _ _ _ _ F).
    destruct (used dim a) eqn:Hu.
    - specialize (Hr a Hu). destruct a; exact Hr.
    - destruct Hd as [->| ->]; auto. destruct a; discriminate. }
  unfold node_v, node. rewrite index_ok by (auto; apply Hok). cbn [bind].
  destruct (vread_inb (g_nodes g) (glin g (vx b, vy b, vz b))) as (p & Ep & _); [|exists p; exact Ep].
  rewrite (bf_len _ _ _ _ _ _ _ F).
  pose proof (project_padded ov _ _ _ _ Hc) as Hp.
  pose proof (lin_bounds _ _ _ _ (proj1 Hok) Hp) as HB. rewrite lin_project in HB. exact HB.
Qed.

(** *** C11 *)
Lemma repadded_slot ov dim n pad q bmin bmax g :
  built ov dim n pad bmin bmax g -> good_sizes dim n q -> arith_ok ov dim n q -> q <> pad ->
  forall s s', index ov g 0 0 0 = Ok s -> index ov (set_padding g q) 0 0 0 = Ok s' -> s <> s'.
Proof.
  intros Hb Hq Haq Hne s s' E E'. pose proof (built_ok _ _ _ _ _ _ _ Hb) as F.
  pose proof Hb as (Hg & Ha & _).
  assert (H0 : forall p, good_sizes dim n p -> padded_cell dim n p (0, 0, 0)).
  { intros p (Hd & Hp & Hn & _) a. specialize (Hn a). destruct a; cbn [ccoord]; destruct (used dim _); lia. }
  rewrite (index_built _ _ _ _ _ _ _ _ _ _ Hb (H0 _ Hg)) in E.
  rewrite index_ok in E'.
  2:{ cbn. rewrite (bf_dim _ _ _ _ _ _ _ F), (bf_n _ _ _ _ _ _ _ F). exact Hq. }
  2:{ unfold garith; cbn. rewrite (bf_dim _ _ _ _ _ _ _ F), (bf_n _ _ _ _ _ _ _ F). exact Haq. }
  2:{ apply padded_cell_for; cbn. rewrite (bf_dim _ _ _ _ _ _ _ F), (bf_n _ _ _ _ _ _ _ F). auto. }
  unfold glin in E'. cbn [set_padding g_dim g_n g_pad] in E'.
  rewrite (bf_dim _ _ _ _ _ _ _ F), (bf_n _ _ _ _ _ _ _ F) in E'.
  assert (Es : s = lin dim n pad (0,0,0)) by congruence.
  assert (Es' : s' = lin dim n q (0,0,0)) by congruence. clear E E'.
  assert (Mono : forall p r, good_sizes dim n p -> good_sizes dim n r -> p < r ->
            lin dim n p (0,0,0) < lin dim n r (0,0,0)).
  { intros p r Hp Hr Hlt. destruct Hp as (Hd & Hp & Hn & _). destruct Hr as (_ & Hr & _).
    pose proof (Hn AX) as HX; pose proof (Hn AY) as HY. cbn [used vget] in HX.
    assert (1 <= vy n) by (destruct (used dim AY); cbn [vget] in HY; lia).
    unfold lin.
    assert (M2 : (0 + p) * (vx n + 2 * p) <= (0 + r) * (vx n + 2 * r)) by (apply Z.mul_le_mono_nonneg; lia).
    assert (M3 : (0 + p) * (vx n + 2 * p) * (vy n + 2 * p) <= (0 + r) * (vx n + 2 * r) * (vy n + 2 * r)).
    { apply Z.mul_le_mono_nonneg; try lia. }
    destruct (used dim AY), (used dim AZ); lia. }
  destruct (Z.lt_total pad q) as [H|[H|H]].
  - specialize (Mono _ _ Hg Hq H). lia.
  - congruence.
  - specialize (Mono _ _ Hq Hg H). lia.
Qed.

Lemma grown_padding_out_of_bounds ov dim n pad q bmin bmax g :
  built ov dim n pad bmin bmax g -> good_sizes dim n q -> arith_ok ov dim n q -> pad < q ->
  let last a := if used dim a then vget n a + q - 1 else 0 in
  node ov (set_padding g q) (last AX) (last AY) (last AZ) = UB OutOfBounds.
Proof.
  intros Hb Hq Haq Hlt last. pose proof (built_ok _ _ _ _ _ _ _ Hb) as F. pose proof Hb as (Hg & _).
  assert (Hc : padded_cell dim n q (last AX, last AY, last AZ)).
  { destruct Hq as (Hd & Hp & Hn & _). intros a. specialize (Hn a).
    destruct a; unfold last; cbn [ccoord]; destruct (used dim _); lia. }
  unfold node. rewrite index_ok; cbn [set_padding g_dim g_n g_pad g_nodes].
  2:{ rewrite (bf_dim _ _ _ _ _ _ _ F), (bf_n _ _ _ _ _ _ _ F). exact Hq. }
  2:{ unfold garith; cbn. rewrite (bf_dim _ _ _ _ _ _ _ F), (bf_n _ _ _ _ _ _ _ F). exact Haq. }
  2:{ apply padded_cell_for; cbn. rewrite (bf_dim _ _ _ _ _ _ _ F), (bf_n _ _ _ _ _ _ _ F). exact Hc. }
  unfold glin; cbn [set_padding g_dim g_n g_pad]. rewrite (bf_dim _ _ _ _ _ _ _ F), (bf_n _ _ _ _ _ _ _ F).
  cbn [bind]. apply vread_oob. rewrite (bf_len _ _ _ _ _ _ _ F). unfold gcount.
  rewrite (bf_dim _ _ _ _ _ _ _ F), (bf_n _ _ _ _ _ _ _ F), (bf_pad _ _ _ _ _ _ _ F).
  assert (E : lin dim n q (last AX, last AY, last AZ) = padded_count dim n q - 1).
  { unfold lin, last, padded_count, extent. destruct Hq as (Hd & _ & Hn & _).
    dim_cases Hd; cbn [used Nat.leb vget]; ring. }
  rewrite E. intros [_ H].
  assert (padded_count dim n pad < padded_count dim n q); [|lia].
  assert (HE : forall a, 1 <= extent dim n pad a <= extent dim n q a).
  { intros a. pose proof (extent_pos _ _ _ a Hg). split; [lia|]. unfold extent. destruct (used dim a); lia. }
  pose proof (HE AX); pose proof (HE AY); pose proof (HE AZ).
  assert (extent dim n pad AX < extent dim n q AX) by (unfold extent; cbn [used]; lia).
  unfold padded_count.
  assert (extent dim n pad AX * extent dim n pad AY < extent dim n q AX * extent dim n q AY).
  { apply Z.lt_le_trans with (extent dim n q AX * extent dim n pad AY).
    - apply Z.mul_lt_mono_pos_r; lia.
    - apply Z.mul_le_mono_nonneg_l; lia. }
  apply Z.lt_le_trans with (extent dim n q AX * extent dim n q AY * extent dim n pad AZ).
  - apply Z.mul_lt_mono_pos_r; lia.
  - apply Z.mul_le_mono_nonneg_l; lia.
Qed.
End G.

(** ** Real positions *)
Local Open Scope R_scope.

Lemma gen_pos_axis dim n pad (bmin bmax : vec3 R) c a : (1 <= dim <= 3)%nat ->
  vget (pos_at dim n pad bmin bmax c) a =
  if used dim a then vget bmin a + (IZR (ccoord c a) + IZR pad - / 2) * spacing (vget bmin a) (vget bmax a) (vget n a)
  else 0.
Proof.
  intros Hd. destruct c as [[i j] k]. unfold pos_at, spacing.
  dim_cases Hd; destruct a; cbn [used Nat.leb gen_elem gen_min gen_dx axes fold_left g_dim g_n mask vget vset vx vy vz
    ccoord vzero half nofZ nadd nsub nmul ndiv NumR]; auto;
  rewrite ?plus_IZR, ?mult_IZR; unfold half; cbn [nofZ ndiv NumR]; lra.
Qed.

Lemma node_position ov dim n pad (bmin bmax : vec3 R) g i j k :
  built ov dim n pad bmin bmax g -> padded_cell dim n pad (i, j, k) ->
  exists p, node ov g i j k = Ok p /\
    forall a, vget p a = if used dim a
      then vget bmin a + (IZR (ccoord (i, j, k) a) + IZR pad - / 2) * spacing (vget bmin a) (vget bmax a) (vget n a)
      else 0.
Proof.
  intros Hb Hc. pose proof (built_ok _ _ _ _ _ _ _ Hb) as F.
  exists (pos_at dim n pad bmin bmax (i, j, k)). split.
  - unfold node. rewrite (index_built _ _ _ _ _ _ _ _ _ _ Hb Hc). cbn [bind].
    pose proof (proj2 (built_gcell _ _ _ _ _ _ _ _ Hb) Hc) as Hg.
    pose proof (bf_pos _ _ _ _ _ _ _ F _ Hg) as E. unfold glin in E.
    rewrite (bf_dim _ _ _ _ _ _ _ F), (bf_n _ _ _ _ _ _ _ F), (bf_pad _ _ _ _ _ _ _ F) in E. exact E.
  - intros a. apply gen_pos_axis. apply Hb.
Qed.

Lemma node_at_centre_pad1 ov dim n (bmin bmax : vec3 R) g i j k :
  built ov dim n 1%Z bmin bmax g -> padded_cell dim n 1%Z (i, j, k) ->
  exists p, node ov g i j k = Ok p /\
    forall a, vget p a = if used dim a
      then centre (vget bmin a) (vget bmax a) (vget n a) (ccoord (i, j, k) a) else 0.
Proof.
  intros Hb Hc. destruct (node_position _ _ _ _ _ _ _ _ _ _ Hb Hc) as (p & E & H).
  exists p. split; auto. intros a. rewrite H. destruct (used dim a); auto. unfold centre. lra.
Qed.

(** floor *)
Lemma Rfloor_spec x : IZR (Rfloor x) <= x < IZR (Rfloor x) + 1.
Proof. unfold Rfloor. rewrite minus_IZR. destruct (archimed x). lra. Qed.
Lemma Rfloor_unique x z : IZR z <= x < IZR z + 1 -> Rfloor x = z.
Proof.
  intros H. pose proof (Rfloor_spec x).
  assert (A1 : IZR (Rfloor x) < IZR (z + 1)) by (rewrite plus_IZR; lra).
  assert (A2 : IZR z < IZR (Rfloor x + 1)) by (rewrite plus_IZR; lra).
  apply lt_IZR in A1, A2. lia.
Qed.

Lemma spacing_pos lo hi n : lo < hi -> (1 <= n)%Z -> 0 < spacing lo hi n.
Proof.
  intros H1 H2. unfold spacing. apply Rdiv_lt_0_compat; [lra|]. apply IZR_lt. lia.
Qed.

Lemma built_odx ov dim n pad (bmin bmax : vec3 R) g a :
  built ov dim n pad bmin bmax g -> used dim a = true ->
  vget (g_odx g) a = / spacing (vget bmin a) (vget bmax a) (vget n a).
Proof.
  intros Hb Hu. pose proof (built_ok _ _ _ _ _ _ _ Hb) as F.
  rewrite (bf_odx _ _ _ _ _ _ _ F a Hu), (bf_dx _ _ _ _ _ _ _ F).
  unfold spacing. destruct a; cbn [vget vx vy vz nofZ ndiv nsub NumR]; unfold Rdiv; lra.
Qed.
Lemma built_dx ov dim n pad (bmin bmax : vec3 R) g a :
  built ov dim n pad bmin bmax g ->
  vget (g_dx g) a = spacing (vget bmin a) (vget bmax a) (vget n a).
Proof.
  intros Hb. pose proof (built_ok _ _ _ _ _ _ _ Hb) as F. rewrite (bf_dx _ _ _ _ _ _ _ F).
  destruct a; reflexivity.
Qed.

Lemma base_axis_floor ov dim n pad (bmin bmax : vec3 R) g x a :
  built ov dim n pad bmin bmax g -> used dim a = true ->
  nfloor ((vget x a - vget (g_box_min g) a) * vget (g_odx g) a - half)%num
  = Rfloor (lattice_coord (vget bmin a) (vget bmax a) (vget n a) (vget x a)).
Proof.
  intros Hb Hu. rewrite (built_odx _ _ _ _ _ _ _ _ Hb Hu).
  rewrite (bf_min _ _ _ _ _ _ _ (built_ok _ _ _ _ _ _ _ Hb)).
  unfold lattice_coord, half. cbn [nofZ ndiv nsub nmul nfloor NumR]. f_equal. lra.
Qed.

Definition base_of dim n (bmin bmax x : vec3 R) : vec3 Z :=
  let f a := if used dim a then Rfloor (lattice_coord (vget bmin a) (vget bmax a) (vget n a) (vget x a)) else INT_MAX in
  V3 (f AX) (f AY) (f AZ).

Lemma base_ok ov dim n pad (bmin bmax : vec3 R) g x :
  built ov dim n pad bmin bmax g -> lat_fits dim n bmin bmax x ->
  baseNodeId g x = Ok (base_of dim n bmin bmax x).
Proof.
  intros Hb Hf. unfold baseNodeId.
  pose proof (built_ok _ _ _ _ _ _ _ Hb) as F. rewrite (bf_dim _ _ _ _ _ _ _ F).
  assert (Hfl : forall a, used dim a = true ->
     float_to_int (nfloor ((vget x a - vget (g_box_min g) a) * vget (g_odx g) a - half)%num)
     = Ok (Rfloor (lattice_coord (vget bmin a) (vget bmax a) (vget n a) (vget x a)))).
  { intros a Hu. rewrite (base_axis_floor _ _ _ _ _ _ _ _ _ Hb Hu). apply float_to_int_ok.
    specialize (Hf a Hu). pose proof (Rfloor_spec (lattice_coord (vget bmin a) (vget bmax a) (vget n a) (vget x a))).
    set (z := Rfloor _) in *. split.
    - assert (A : IZR INT_MIN < IZR (z + 1)) by (rewrite plus_IZR; lra). apply lt_IZR in A. lia.
    - assert (A : IZR z < IZR (INT_MAX + 1)) by (rewrite plus_IZR; lra). apply lt_IZR in A. lia. }
  destruct Hb as ((Hd & _) & _). unfold base_of.
  dim_cases Hd; cbn [axes forM];
  repeat (rewrite Hfl by reflexivity; cbn [bind forM vset vx vy vz]); cbn [used Nat.leb]; reflexivity.
Qed.

Lemma base_encloses ov dim n (bmin bmax : vec3 R) g x :
  built ov dim n 1%Z bmin bmax g ->
  (forall a, used dim a = true -> vget bmin a < vget bmax a) ->
  lat_fits dim n bmin bmax x ->
  exists b, baseNodeId g x = Ok b /\
    forall a, if used dim a then
        let lo := vget bmin a in let hi := vget bmax a in let m := vget n a in
        (centre lo hi m (vget b a) <= vget x a < centre lo hi m (vget b a + 1)) /\
        (forall z, centre lo hi m z <= vget x a < centre lo hi m (z + 1) -> z = vget b a) /\
        0 <= (vget x a - centre lo hi m (vget b a)) * vget (g_odx g) a < 1
      else vget b a = INT_MAX.
Proof.
  intros Hb Hbox Hf. exists (base_of dim n bmin bmax x). split; [eapply base_ok; eauto|].
  intros a. destruct (used dim a) eqn:Hu.
  2:{ destruct a; unfold base_of; cbn [vget vx vy vz]; rewrite Hu; reflexivity. }
  cbv zeta. rewrite (built_odx _ _ _ _ _ _ _ _ Hb Hu).
  assert (Eb : vget (base_of dim n bmin bmax x) a = Rfloor (lattice_coord (vget bmin a) (vget bmax a) (vget n a) (vget x a))).
  { destruct a; unfold base_of; cbn [vget vx vy vz]; rewrite Hu; reflexivity. }
  rewrite Eb. specialize (Hbox a Hu).
  pose proof (good_used _ _ _ a (proj1 Hb) Hu) as Hn.
  set (lo := vget bmin a) in *. set (hi := vget bmax a) in *. set (m := vget n a) in *. set (xa := vget x a) in *.
  pose proof (spacing_pos lo hi m Hbox Hn) as Hs.
  assert (Hlat : forall z, centre lo hi m z <= xa < centre lo hi m (z + 1) <->
                 IZR z <= lattice_coord lo hi m xa < IZR z + 1).
  { intros z. unfold centre, lattice_coord. rewrite plus_IZR.
    set (s := spacing lo hi m) in *.
    assert (E : xa = lo + (((xa - lo) / s - / 2) + / 2) * s) by (field; lra).
    set (l := (xa - lo) / s - / 2) in *. rewrite E. split; intros [H1 H2]; split.
    - apply Rmult_le_reg_r with s; lra.
    - apply Rmult_lt_reg_r with s; lra.
    - apply Rmult_le_compat_r with (r := s) in H1; lra.
    - apply Rmult_lt_compat_r with (r := s) in H2; lra. }
  pose proof (Rfloor_spec (lattice_coord lo hi m xa)) as Hfl.
  set (z0 := Rfloor (lattice_coord lo hi m xa)) in *.
  split; [apply Hlat; exact Hfl|]. split.
  - intros z Hz. apply Hlat in Hz. symmetry. apply Rfloor_unique. exact Hz.
  - assert (E : (xa - centre lo hi m z0) * / spacing lo hi m = lattice_coord lo hi m xa - IZR z0).
    { unfold centre, lattice_coord. field. lra. }
    rewrite E. lra.
Qed.

Lemma base_unrepresentable ov dim n pad (bmin bmax : vec3 R) g x :
  built ov dim n pad bmin bmax g -> ~ lat_fits dim n bmin bmax x ->
  baseNodeId g x = UB FloatToInt.
Proof.
  intros Hb Hf. unfold baseNodeId.
  pose proof (built_ok _ _ _ _ _ _ _ Hb) as F. rewrite (bf_dim _ _ _ _ _ _ _ F).
  pose (ok a := IZR INT_MIN <= lattice_coord (vget bmin a) (vget bmax a) (vget n a) (vget x a) < IZR INT_MAX + 1).
  assert (Dec : forall a, ok a \/ ~ ok a).
  { intros a. unfold ok. set (l := lattice_coord _ _ _ _).
    destruct (Rle_dec (IZR INT_MIN) l), (Rlt_dec l (IZR INT_MAX + 1)); [left; auto|right; tauto..]. }
  assert (Hfl : forall a, used dim a = true ->
     (ok a -> exists z, float_to_int (nfloor ((vget x a - vget (g_box_min g) a) * vget (g_odx g) a - half)%num) = Ok z) /\
     (~ ok a -> float_to_int (nfloor ((vget x a - vget (g_box_min g) a) * vget (g_odx g) a - half)%num) = UB FloatToInt)).
  { intros a Hu. rewrite (base_axis_floor _ _ _ _ _ _ _ _ _ Hb Hu). unfold ok.
    pose proof (Rfloor_spec (lattice_coord (vget bmin a) (vget bmax a) (vget n a) (vget x a))) as H.
    set (l := lattice_coord _ _ _ _) in *. set (z := Rfloor _) in *. split; intros Hl.
    - exists z. apply float_to_int_ok. split.
      + assert (A : IZR INT_MIN < IZR (z + 1)) by (rewrite plus_IZR; lra). apply lt_IZR in A. lia.
      + assert (A : IZR z < IZR (INT_MAX + 1)) by (rewrite plus_IZR; lra). apply lt_IZR in A. lia.
    - unfold float_to_int. destruct (Z.leb_spec INT_MIN z); destruct (Z.leb_spec z INT_MAX); auto.
      exfalso. apply Hl. split.
      + apply IZR_le in H0. lra.
      + apply IZR_le in H1. lra. }
  destruct Hb as ((Hd & _) & _). unfold lat_fits in Hf.
  assert (Hnot : exists a, used dim a = true /\ ~ ok a).
  { destruct (Dec AX), (Dec AY), (Dec AZ), (used dim AY) eqn:UY, (used dim AZ) eqn:UZ;
    try (exfalso; apply Hf; intros [| |] Hu; solve [assumption | congruence]);
    first [exists AX; split; [reflexivity|assumption] | exists AY; split; assumption | exists AZ; split; assumption]. }
  clear Hf.
  dim_cases Hd; cbn [axes forM];
  repeat match goal with |- context [bind (float_to_int (nfloor (_ * vget (g_odx g) ?a - _)%num)) _] =>
    let D := fresh "D" in destruct (Dec a) as [D|D];
    [destruct (proj1 (Hfl a eq_refl) D) as [? ->]; cbn [bind forM]
    |rewrite (proj2 (Hfl a eq_refl) D); reflexivity] end;
  destruct Hnot as ([| |] & Hu & Hn); try discriminate Hu; contradiction.
Qed.

(** ** Small vectors *)
Lemma Rltb_spec x y : Bool.reflect (x < y) (Rltb x y).
Proof. unfold Rltb. destruct (Rlt_dec x y); constructor; auto. Qed.
Lemma Rleb_spec x y : Bool.reflect (x <= y) (Rleb x y).
Proof. unfold Rleb. destruct (Rle_dec x y); constructor; auto. Qed.

Lemma vmin_component (v : vec3 R) : exists a, vmin v = vget v a.
Proof.
  unfold vmin; cbn [nltb NumR].
  destruct (_ && _); [exists AX; auto|]. destruct (_ && _); [exists AY; auto|]. exists AZ; auto.
Qed.

Lemma vmin_smallest_iff (v : vec3 R) :
  (forall a, vmin v <= vget v a) <-> ~ (vx v = vy v /\ vx v < vz v).
Proof.
  unfold vmin; cbn [nltb NumR]. destruct v as [x y z]; cbn [vx vy vz].
  destruct (Rltb_spec x y), (Rltb_spec x z), (Rltb_spec y x), (Rltb_spec y z); cbn [andb]; split;
  try (intros H [E1 E2]; pose proof (H AX); pose proof (H AY); cbn in *; lra);
  intros H [| |]; cbn [vget vx vy vz]; try lra.
  all: destruct (Rle_dec z x); try lra; exfalso; apply H; lra.
Qed.

Lemma nabs_R x : nabs x = Rabs x.
Proof.
  unfold nabs; cbn [nltb nsub nofZ NumR]. destruct (Rltb_spec x 0).
  - rewrite Rabs_left by auto. lra.
  - rewrite Rabs_right by lra. auto.
Qed.
Lemma VSMALL_R : (VSMALL : R) = / 10000000000.
Proof. unfold VSMALL. cbn [ndiv nofZ NumR]. lra. Qed.

Lemma is_equal_iff (a b : R) : is_equal a b = true <-> Rabs (a - b) <= / 10000000000.
Proof.
  unfold is_equal. cbn [nleb nsub NumR]. rewrite nabs_R, VSMALL_R.
  destruct (Rleb_spec (Rabs (a - b)) (/ 10000000000)); split; auto; try discriminate.
Qed.
Lemma veqb_iff (u v : vec3 R) : veqb u v = true <-> forall a, Rabs (vget u a - vget v a) <= / 10000000000.
Proof.
  unfold veqb. rewrite !andb_true_iff, !is_equal_iff. split.
  - intros ((H1 & H2) & H3) [| |]; auto.
  - intros H. repeat split; [apply (H AX)|apply (H AY)|apply (H AZ)].
Qed.
Lemma meqb_iff (m p : mat3 R) :
  meqb m p = true <-> forall r c, Rabs (mget m r c - mget p r c) <= / 10000000000.
Proof.
  unfold meqb. rewrite !andb_true_iff, !veqb_iff. split.
  - intros ((H1 & H2) & H3) [| |] c; unfold mget; cbn [mrow]; auto.
  - intros H. repeat split; intros c; [apply (H AX)|apply (H AY)|apply (H AZ)].
Qed.
Lemma is_equal_refl_sym : (forall a : R, is_equal a a = true) /\
  (forall a b : R, is_equal a b = is_equal b a).
Proof.
  split.
  - intros a. apply is_equal_iff. replace (a - a) with 0 by ring. rewrite Rabs_R0. lra.
  - intros a b. apply Bool.eq_iff_eq_true. rewrite !is_equal_iff, Rabs_minus_sym. reflexivity.
Qed.
Lemma is_equal_not_trans : exists a b c : R, is_equal a b = true /\ is_equal b c = true /\ is_equal a c = false.
Proof.
  exists 0, (/ 10000000000), (2 * / 10000000000). rewrite !is_equal_iff. split; [|split].
  - rewrite Rabs_left; lra.
  - rewrite Rabs_left; lra.
  - apply Bool.not_true_is_false. rewrite is_equal_iff. rewrite Rabs_left; lra.
Qed.

Lemma mdot_R (m : mat3 R) (v : vec3 R) i :
  vget (mdot m v) i = mget m AX i * vx v + mget m AY i * vy v + mget m AZ i * vz v.
Proof.
  unfold mdot. destruct i;
  cbn [fold_left vget vset vx vy vz vzero nadd nmul nofZ NumR]; ring.
Qed.

(** ** Vec3 from a vector *)
Local Open Scope Z_scope.
Lemma vec3_of_vector_test {A} (l : list A) :
  vec3_of_vector true l =
  match l with a :: b :: c :: _ => Ok (V3 a b c) | _ => UB OutOfBounds end.
Proof.
  unfold vec3_of_vector, if_macro. cbn [macro_expansion].
  destruct l as [|a [|b [|c l]]]; try reflexivity.
  destruct (negb _); reflexivity.
Qed.
Lemma vec3_of_vector_release {A} (l : list A) : vec3_of_vector false l = Exit 0.
Proof. unfold vec3_of_vector, if_macro. cbn [macro_expansion]. destruct (negb _); reflexivity. Qed.

(** ** Concrete instances used by the examples *)
Lemma good_2d : good_sizes 2 (V3 4 3 1) 1 /\ arith_ok Trap 2 (V3 4 3 1) 1.
Proof.
  split.
  - split; [lia|]. split; [lia|]. split; [intros [| |]; cbn; lia|]. cbn. unfold INT_MAX. lia.
  - right. cbn. unfold INT_MAX. lia.
Qed.
Lemma good_3d : good_sizes 3 (V3 2 3 4) 2 /\ arith_ok Trap 3 (V3 2 3 4) 2.
Proof.
  split.
  - split; [lia|]. split; [lia|]. split; [intros [| |]; cbn; lia|]. cbn. unfold INT_MAX. lia.
  - left. reflexivity.
Qed.
Lemma good_1d : good_sizes 1 (V3 5 1 1) 1 /\ arith_ok Trap 1 (V3 5 1 1) 1.
Proof.
  split.
  - split; [lia|]. split; [lia|]. split; [intros [| |]; cbn; lia|]. cbn. unfold INT_MAX. lia.
  - right. cbn. unfold INT_MAX. lia.
Qed.
Lemma built_2d {T} {NT : Num T} ov (bmin bmax : vec3 T) : exists g, built ov 2 (V3 4 3 1) 1 bmin bmax g.
Proof. apply built_exists; [apply good_2d|]. destruct ov; [apply good_2d|exact I]. Qed.
Lemma built_3d {T} {NT : Num T} ov (bmin bmax : vec3 T) : exists g, built ov 3 (V3 2 3 4) 2 bmin bmax g.
Proof. apply built_exists; [apply good_3d|]. destruct ov; [apply good_3d|exact I]. Qed.
Lemma built_1d {T} {NT : Num T} ov (bmin bmax : vec3 T) : exists g, built ov 1 (V3 5 1 1) 1 bmin bmax g.
Proof. apply built_exists; [apply good_1d|]. destruct ov; [apply good_1d|exact I]. Qed.

(** ** Witnesses of the refutations *)
Lemma big_1d : good_sizes 1 (V3 800000000 1 1) 1 /\ ~ masked_terms_fit 1 (V3 800000000 1 1) 1.
Proof.
  split.
  - split; [lia|]. split; [lia|]. split; [intros [| |]; cbn; lia|]. cbn. unfold INT_MAX. lia.
  - intros [H|H]; [discriminate|]. cbn in H. unfold INT_MAX in H. lia.
Qed.

Lemma big_1d_overflows : exists n pad, good_sizes 1 n pad /\
  forall (T : Type) (NT : Num T) (bmin bmax : vec3 T), make_grid Trap 1 n pad bmin bmax = UB SignedOverflow.
Proof.
  exists (V3 800000000 1 1), 1. split; [apply big_1d|].
  intros T NT bmin bmax. apply make_grid_overflow; apply big_1d.
Qed.

Lemma node_off_centre : exists (g : grid R) p,
  built Trap 1 (V3 5 1 1) 2 (V3 0 0 0)%R (V3 5 1 1)%R g /\
  padded_cell 1 (V3 5 1 1) 2 (0, 0, 0) /\
  node Trap g 0 0 0 = Ok p /\ vx p <> centre 0 5 5 0.
Proof.
  assert (Hg : good_sizes 1 (V3 5 1 1) 2).
  { split; [lia|]. split; [lia|]. split; [intros [| |]; cbn; lia|]. cbn. unfold INT_MAX. lia. }
  destruct (built_exists Trap 1 (V3 5 1 1) 2 (V3 0 0 0)%R (V3 5 1 1)%R Hg) as (g & Hb).
  { right. cbn. unfold INT_MAX. lia. }
  assert (Hc : padded_cell 1 (V3 5 1 1) 2 (0, 0, 0)) by (intros [| |]; cbn; lia).
  destruct (node_position _ _ _ _ _ _ _ _ _ _ Hb Hc) as (p & E & H).
  exists g, p. split; [exact Hb|]. split; [exact Hc|]. split; [exact E|].
  specialize (H AX). cbn [vget used ccoord vx] in H. rewrite H. unfold centre, spacing. lra.
Qed.

Lemma total_cells_unused_axes : exists (g : grid Q),
  make_grid Trap 1 (V3 2 3 1) 1 (V3 0 0 0)%Q (V3 1 1 1)%Q = Ok g /\
  total_cells g = 2 /\ length (interior (num_cells g)) = 6%nat.
Proof. eexists. vm_compute. split; [reflexivity|]. split; reflexivity. Qed.

Lemma unused_axis_alias : exists (g : grid Q),
  make_grid Trap 1 (V3 2 3 1) 1 (V3 0 0 0)%Q (V3 1 1 1)%Q = Ok g /\
  In (0, 0, 0) (interior (num_cells g)) /\ In (0, 1, 0) (interior (num_cells g)) /\
  index Trap g 0 0 0 = index Trap g 0 1 0.
Proof.
  eexists. split; [vm_compute; reflexivity|]. split; [vm_compute; auto 10|]. split; [vm_compute; auto 10|].
  vm_compute; reflexivity.
Qed.

Lemma mdot_laws :
  (forall v : vec3 R, mdot midentity v = v) /\
  (forall (m : mat3 R) u v (s : R) i, (vget (mdot m (vsub u (vscale v s))) i = vget (mdot m u) i - vget (mdot m v) i * s)%R) /\
  (forall (m p : mat3 R) v (s : R) i, (vget (mdot (msub m (mscale p s)) v) i = vget (mdot m v) i - vget (mdot p v) i * s)%R).
Proof.
  split; [|split].
  - intros v. destruct v as [x y z]. unfold mdot, midentity.
    cbn [fold_left vget vset vx vy vz vzero mget mrow row0 row1 row2 nadd nmul nofZ NumR]. f_equal; ring.
  - intros. rewrite !mdot_R. unfold vsub, vscale. cbn [vx vy vz nsub nmul NumR]. ring.
  - intros. rewrite !mdot_R. unfold mget, msub, mscale, vsub, vscale.
    destruct i; cbn [mrow row0 row1 row2 vget vx vy vz nsub nmul NumR]; ring.
Qed.
