(** The reference mains: initial state, time loop, number of steps and of printed blocks. *)
From Coq Require Import ZArith List Permutation Bool Lia String Reals Lra.
From Verif Require Import Base Num ModelVec ModelRefMath ModelRefMem ModelRef SpecRefPar SpecRefRun ProofsBase ProofsGridProps ProofsRefMem ProofsRefPar ProofsRefRun ProofsRefUpd ProofsRefMix ProofsRefSearch ProofsRefStep.
Open Scope Z_scope.

Section Main.
Context {T : Type} {NT : Num T}.
Implicit Types (m : mem T).

Lemma set_loop a (lim d : T) n m : (forall i, 0 <= i < n -> m (a, i, 0) <> None) ->
  exists m', runs (map (set_node a lim d) (range 0 n)) m = Ok m' /\
    forall b i j, m' (b, i, j) = if (arr_eqb a b && ((0 <=? i) && (i <? n)) && (j =? 0))%bool then Some (D (even_nodes lim d i)) else m (b, i, j).
Proof.
  intros P. unfold runs. rewrite forM_map.
  destruct (forM_inv (fun pre m1 => forall b i j, m1 (b, i, j) = if (arr_eqb a b && existsb (Z.eqb i) pre && (j =? 0))%bool then Some (D (even_nodes lim d i)) else m (b, i, j))
    (fun m i => run (set_node a lim d i) m) (range 0 n) m) as (m' & H & H1).
  - intros b i j. cbn [existsb]. rewrite andb_false_r. reflexivity.
  - intros pre k post m1 E I. assert (Hk : 0 <= k < n) by (apply in_range; rewrite E; apply in_or_app; right; left; reflexivity).
    assert (exists v, m1 (a, k, 0) = Some v) as [v V].
    { apply some_of. rewrite I. destruct (_ && _)%bool; [congruence|]. apply P, Hk. }
    unfold set_node. rewrite (run_wr _ _ _ v) by exact V. cbn [run]. eexists; split; [reflexivity|].
    intros b i j. unfold upd, loc_eqb. rewrite I, existsb_app. cbn [existsb]. rewrite orb_false_r.
    destruct (arr_eqb a b); cbn [andb]; [|reflexivity].
    destruct (Z.eqb_spec k i) as [->|Hki]; cbn [andb].
    + rewrite Z.eqb_refl, orb_true_r. cbn [andb]. rewrite (Z.eqb_sym j 0). destruct (0 =? j); [reflexivity|]. rewrite andb_false_r. reflexivity.
    + replace (i =? k) with false by lia. rewrite orb_false_r. reflexivity.
  - exists m'. split; [exact H|]. intros b i j. rewrite H1.
    replace (existsb (Z.eqb i) (range 0 n)) with ((0 <=? i) && (i <? n))%bool; [reflexivity|].
    destruct (existsb (Z.eqb i) (range 0 n)) eqn:E.
    + apply existsb_exists in E as (k & Hk & Ek). apply in_range in Hk. lia.
    + destruct ((0 <=? i) && (i <? n))%bool eqn:E2; [|reflexivity]. exfalso.
      assert (existsb (Z.eqb i) (range 0 n) = true) by (apply existsb_exists; exists i; split; [apply in_range; lia|apply Z.eqb_refl]). congruence.
Qed.

Definition xs_of (s : settings T) : Z -> T := even_nodes (s_xlim1 s) (s_dx s).
Definition ys_of (s : settings T) : Z -> T := even_nodes (s_ylim1 s) (s_dy s).

Lemma setup_ok {TG : Trig T} (s : settings T) :
  let nx := s_nx s in let ny := s_ny s in
  exists m, setup s = Ok m /\ nodes_at nx ny (xs_of s) (ys_of s) m /\ contains nx ny (initial (xs_of s) (ys_of s)) m /\
    (forall i, nx <= i -> m (AX1, i, 0) = None) /\ (forall i, ny <= i -> m (AY1, i, 0) = None).
Proof.
  intros nx ny. unfold setup, gridnodes. fold nx ny.
  set (m0 := alloc AY1 ny 1 (D (nofZ 0)) (alloc AX1 nx 1 (D (nofZ 0)) (fun _ => None : option (val T)))).
  destruct (set_loop AX1 (s_xlim1 s) (s_dx s) nx m0) as (m1 & R1 & V1).
  { intros i Hi. unfold m0. rewrite alloc_other by reflexivity. rewrite alloc_in by lia. congruence. }
  rewrite R1. cbn [bind].
  destruct (set_loop AY1 (s_ylim1 s) (s_dy s) ny m1) as (m2 & R2 & V2).
  { intros i Hi. rewrite V1. cbn [arr_eqb andb]. unfold m0. rewrite alloc_in by lia. congruence. }
  rewrite R2. cbn [bind].
  assert (Hx : forall j, 0 <= j < nx -> m2 (AX1, j, 0) = Some (D (xs_of s j))).
  { intros j Hj. rewrite V2. cbn [arr_eqb andb]. rewrite V1. cbn [arr_eqb andb]. replace ((0 <=? j) && (j <? nx))%bool with true by lia. reflexivity. }
  assert (Hy : forall j, 0 <= j < ny -> m2 (AY1, j, 0) = Some (D (ys_of s j))).
  { intros j Hj. rewrite V2. cbn [arr_eqb andb]. replace ((0 <=? j) && (j <? ny))%bool with true by lia. reflexivity. }
  assert (Ox : forall i, nx <= i -> m2 (AX1, i, 0) = None).
  { intros i Hi. rewrite V2. cbn [arr_eqb andb]. rewrite V1. cbn [arr_eqb andb]. replace ((0 <=? i) && (i <? nx))%bool with false by lia. cbn [andb].
    unfold m0. rewrite alloc_other by reflexivity. cbn [alloc arr_eqb]. replace ((0 <=? i) && (i <? nx))%bool with false by lia. reflexivity. }
  assert (Oy : forall i, ny <= i -> m2 (AY1, i, 0) = None).
  { intros i Hi. rewrite V2. cbn [arr_eqb andb]. replace ((0 <=? i) && (i <? ny))%bool with false by lia. cbn [andb].
    rewrite V1. cbn [arr_eqb andb]. unfold m0. cbn [alloc arr_eqb]. replace ((0 <=? i) && (i <? ny))%bool with false by lia. reflexivity. }
  clear V1 V2 R1 R2. clearbody m0.
  unfold allocate_levelset_matrices. set (m3 := alloc4 MPhi MPsix MPsiy MPsixy ny nx m2).
  assert (P3 : forall a i j, existsb (arr_eqb a) [MPhi; MPsix; MPsiy; MPsixy] = true -> 0 <= i < ny -> 0 <= j < nx -> m3 (a, i, j) = Some (D (nofZ 0))).
  { intros a i j Ha Hi Hj. unfold m3, alloc4. assert (R : ((0 <=? i) && (i <? ny) && (0 <=? j) && (j <? nx))%bool = true) by lia.
    destruct a; try discriminate; cbn [alloc arr_eqb]; rewrite R; reflexivity. }
  assert (O3 : forall a i j, existsb (arr_eqb a) [MPhi; MPsix; MPsiy; MPsixy] = false -> m3 (a, i, j) = m2 (a, i, j)).
  { intros a i j Ha. destruct a; try discriminate; reflexivity. }
  clearbody m3.
  destruct (loop_nodes init_body [AX1; AY1] [MPhi; MPsix; MPsiy; MPsixy] ny 0 nx m3
    (fun l => match l with (a, i, j) => let f := initial (xs_of s) (ys_of s) in
      Some (D (match a with MPhi => f_phi f i j | MPsix => f_x f i j | MPsiy => f_y f i j | _ => f_xy f i j end)) end)) as (m4 & R4 & V4).
  { intros []; cbn; congruence. }
  { intros; apply init_touches. }
  { intros i j Hi Hj. unfold init_body.
    rewrite (run_rd _ _ (xs_of s j)) by (rewrite O3 by reflexivity; apply Hx; lia). rewrite (run_rd _ _ (ys_of s i)) by (rewrite O3 by reflexivity; apply Hy; lia).
    do 4 (erewrite run_wr by (look; apply P3; [reflexivity|lia|lia])). cbn [run]. eexists; split; [reflexivity|].
    intros []; cbn [existsb arr_eqb orb]; try discriminate; intros _; look; reflexivity. }
  rewrite R4. cbn [bind].
  assert (O4 : forall a i j, existsb (arr_eqb a) [MPhi; MPsix; MPsiy; MPsixy] = false -> m4 (a, i, j) = m2 (a, i, j)).
  { intros a i j Ha. rewrite V4, Ha. cbn [andb]. auto. }
  eexists; split; [reflexivity|]. split; [|split; [|split]].
  - split; intros; cbn [assign arr_eqb]; rewrite O4 by reflexivity; auto.
  - unfold contains. repeat split; intros i j Hi Hj; cbn [assign arr_eqb]; rewrite V4; cbn [existsb arr_eqb orb];
      replace ((0 <=? i) && (i <? ny) && (0 <=? j) && (j <? nx))%bool with true by lia; reflexivity.
  - intros; cbn [assign arr_eqb]; rewrite O4 by reflexivity; auto.
  - intros; cbn [assign arr_eqb]; rewrite O4 by reflexivity; auto.
Qed.

(** the time loop, given that every step works *)
Lemma loop_blocks whole (F : flow T) (s : settings T) x y f0 every :
  let nx := s_nx s in let ny := s_ny s in 0 < every ->
  (forall k m, nodes_at nx ny x y m -> contains nx ny (after whole F s x y k f0) m ->
     exists m', step whole F s (Z.of_nat k) m = Ok m' /\ nodes_at nx ny x y m' /\ contains nx ny (after whole F s x y (S k) f0) m') ->
  forall left k m out,
  Z.of_nat k + Z.of_nat left < 4294967296 ->
  nodes_at nx ny x y m -> contains nx ny (after whole F s x y k f0) m ->
  Z.of_nat (length out) = 1 + Z.of_nat k / every ->
  (forall n tm mm, nth_error out n = Some (tm, mm) -> exists q, Z.of_nat q = Z.of_nat n * every /\ tm = time_at (Z.of_nat q) (s_dt s) /\ contains nx ny (after whole F s x y q f0) mm) ->
  exists m' out', time_steps whole F s every (Z.of_nat k) left m out = Ok (m', out') /\
    nodes_at nx ny x y m' /\ contains nx ny (after whole F s x y (k + left) f0) m' /\
    Z.of_nat (length out') = 1 + Z.of_nat (k + left) / every /\
    (forall n tm mm, nth_error out' n = Some (tm, mm) -> exists q, Z.of_nat q = Z.of_nat n * every /\ tm = time_at (Z.of_nat q) (s_dt s) /\ contains nx ny (after whole F s x y q f0) mm).
Proof.
  intros nx ny He Hs. induction left as [|left IH]; intros k m out B Hn Hf Hl Ho.
  - exists m, out. rewrite Nat.add_0_r. cbn [time_steps]. auto.
  - cbn [time_steps]. destruct (Hs k m Hn Hf) as (m1 & R1 & Hn1 & Hf1). rewrite R1. cbn [bind].
    replace (every =? 0) with false by lia. rewrite u32_small by lia.
    replace (Z.of_nat k + 1) with (Z.of_nat (S k)) by lia.
    replace (k + S left)%nat with (S k + left)%nat by lia.
    apply IH; [lia|exact Hn1|exact Hf1| |].
    + destruct (Z.eqb_spec (Z.of_nat (S k) mod every) 0) as [E|E].
      * rewrite app_length. cbn [length].
        assert (Z.of_nat (S k) / every = Z.of_nat k / every + 1).
        { apply Z.mod_divide in E as [q E]; [|lia]. rewrite E. rewrite Z.div_mul by lia.
          replace (Z.of_nat k) with ((q - 1) * every + (every - 1)) by (rewrite Z.mul_sub_distr_r; lia). rewrite Z.div_add_l by lia. rewrite Z.div_small by lia. lia. }
        lia.
      * rewrite Hl. f_equal.
        assert (0 < Z.of_nat (S k) mod every < every) by (pose proof (Z.mod_pos_bound (Z.of_nat (S k)) every He); lia).
        pose proof (Z.div_mod (Z.of_nat (S k)) every ltac:(lia)) as DM.
        symmetry. apply (Z.div_unique_pos (Z.of_nat k) every (Z.of_nat (S k) / every) (Z.of_nat (S k) mod every - 1)) ; lia.
    + destruct (Z.eqb_spec (Z.of_nat (S k) mod every) 0) as [E|E]; [|exact Ho].
      intros n tm mm Hnth. destruct (Nat.lt_ge_cases n (length out)) as [L|L].
      * rewrite nth_error_app1 in Hnth by exact L. eauto.
      * rewrite nth_error_app2 in Hnth by exact L.
        assert (n = length out) as ->.
        { destruct (n - length out)%nat eqn:En; [lia|]. cbn in Hnth. destruct n0; discriminate. }
        rewrite Nat.sub_diag in Hnth. cbn in Hnth. injection Hnth as <- <-.
        exists (S k). split; [|split; [reflexivity|exact Hf1]].
        rewrite Hl. apply Z.mod_divide in E as [q E]; [|lia]. rewrite E.
        replace (Z.of_nat k) with ((q - 1) * every + (every - 1)) by (rewrite Z.mul_sub_distr_r; lia). rewrite Z.div_add_l by lia. rewrite Z.div_small by lia. nia.
Qed.
End Main.
