(** Limiter, ranges, compute loops, linear interpolation, control net. *)
From Coq Require Import ZArith List Lia Bool Reals Lra.
From Verif Require Import Base Num ModelVec ModelGrid ModelArray ModelInterp SpecGrid SpecInterp
  ProofsBase ProofsGrid ProofsArray ProofsGridProps ProofsHermite ProofsHermiteCell ProofsHermiteExact
  ProofsInterp ProofsInterpProps.
Open Scope R_scope.

(** *** C22 *)
Lemma limiter_cp p0 s0 p1 s1 h :
  let cp := get_control_points p0 s0 p1 s1 h true in
  c_30 cp = p0 /\ c_03 cp = p1 /\ (c_21 cp, c_12 cp) = limited p0 s0 p1 s1 h.
Proof.
  cbv zeta. unfold get_control_points, one_third, two_thirds, three_halves.
  cbn [nadd nsub nmul ndiv nofZ nltb nleb NumR].
  set (a := s0 * h - (p1 - p0)). set (b := s1 * h - (p1 - p0)).
  unfold limited. fold a b.
  assert (E1 : (3 * (p0 + s0 * h * (1 / 3) - p0) - 3 / 2 * (p1 - s1 * h * (1 / 3) - p0)) *
     (3 * (p0 + s0 * h * (1 / 3) - p0) - (p1 - p0)) = a * (a + b / 2)) by (unfold a, b; field).
  assert (E2 : (3 * (p1 - (p1 - s1 * h * (1 / 3))) - 3 / 2 * (p1 - (p0 + s0 * h * (1 / 3)))) *
     (3 * (p1 - (p1 - s1 * h * (1 / 3))) - (p1 - p0)) = b * (b + a / 2)) by (unfold a, b; field).
  assert (E3 : (3 * (p0 + s0 * h * (1 / 3) - p0) - (p1 - p0)) * (3 * (p1 - (p1 - s1 * h * (1 / 3))) - (p1 - p0)) = a * b)
    by (unfold a, b; field).
  rewrite E1, E2, E3.
  assert (G : 0 < a * b -> 0 <= a * (a + b / 2) /\ 0 <= b * (b + a / 2)).
  { intros H. pose proof (Rle_0_sqr a). pose proof (Rle_0_sqr b). unfold Rsqr in *. split; lra. }
  destruct (Rltb_spec (a * (a + b / 2)) 0) as [C1|C1'].
  { destruct (Rlt_dec 0 (a * b)); [destruct G; lra|].
    destruct (Rlt_dec (a * (a + b / 2)) 0); [|lra]. cbn. repeat split. f_equal; field. }
  destruct (Rltb_spec (b * (b + a / 2)) 0) as [C2|C2'].
  { destruct (Rlt_dec 0 (a * b)); [destruct G; lra|].
    destruct (Rlt_dec (a * (a + b / 2)) 0); [lra|].
    destruct (Rlt_dec (b * (b + a / 2)) 0); [|lra]. cbn. repeat split. f_equal; field. }
  destruct (Rleb_spec (a * b) 0) as [C3|C3'].
  { destruct (Rlt_dec 0 (a * b)); [lra|].
    destruct (Rlt_dec (a * (a + b / 2)) 0); [lra|].
    destruct (Rlt_dec (b * (b + a / 2)) 0); [lra|]. cbn. repeat split. f_equal; field. }
  destruct (Rlt_dec 0 (a * b)); [|lra]. cbn. repeat split. f_equal; field.
Qed.

Lemma cp_ends p0 s0 p1 s1 h lim : c_30 (get_control_points p0 s0 p1 s1 h lim : control_points R) = p0 /\
  c_03 (get_control_points p0 s0 p1 s1 h lim : control_points R) = p1.
Proof.
  unfold get_control_points. destruct lim; [|split; reflexivity].
  repeat match goal with |- context [if ?b then _ else _] => destruct b end; split; reflexivity.
Qed.

Lemma bern0 : bern (0 : R) = [1; 0; 0; 0].
Proof.
  unfold bern, B0, B1, B2, B3, cube, sqr. cbn [nadd nsub nmul ndiv nofZ NumR].
  repeat (f_equal; [ring|]). f_equal. ring.
Qed.

Lemma wsum_first (w c : list R) (x : R) : wsum (1 :: repeat 0 (length w)) (x :: c) = x.
Proof.
  unfold wsum. cbn [combine fold_left fst snd nadd nmul nofZ NumR].
  replace (0 + 1 * x) with x by ring. revert c. induction w as [|a w IH]; intros c; [reflexivity|].
  cbn [repeat length combine]. destruct c as [|y c]; [reflexivity|]. cbn [combine fold_left fst snd].
  cbn [nadd nmul NumR]. replace (x + 0 * y) with x by ring. apply IH.
Qed.

Lemma herm_node_phi dim Q b h o lim : (1 <= dim <= 3)%nat ->
  f_phi (herm dim Q b (V3 0 0 0) h o lim) = q_phi (Q b).
Proof.
  intros Hd. dim_cases Hd; unfold herm, hermite1, hermite2, hermite3; cbn [f_phi vx vy vz].
  - rewrite (proj1 (cp_ends _ _ _ _ _ _)). unfold B0, B1, B2, B3, cube, sqr.
    cbn [nadd nsub nmul ndiv nofZ NumR]. ring.
  - rewrite bern0.
    assert (E : tens2 [1; 0; 0; 0] [1; 0; 0; 0] = 1 :: repeat 0 (length (repeat 0 15))).
    { unfold tens2. cbn [flat_map map app nmul NumR length repeat]. rewrite !Rmult_0_r, !Rmult_0_l, !Rmult_1_r. reflexivity. }
    rewrite E. unfold control_points_2d at 1. rewrite wsum_first. apply cp_ends.
  - rewrite bern0.
    assert (E : tens3 [1; 0; 0; 0] [1; 0; 0; 0] [1; 0; 0; 0] = 1 :: repeat 0 (length (repeat 0 63))).
    { unfold tens3. cbn [flat_map map app nmul NumR length repeat]. rewrite !Rmult_0_r, !Rmult_0_l, !Rmult_1_r, ?Rmult_0_r, ?Rmult_0_l, ?Rmult_1_r. reflexivity. }
    rewrite E. unfold control_points_3d at 1. cbv zeta. rewrite wsum_first. apply cp_ends.
Qed.

(** node facts shared by several lemmas *)
Section Node.
Variables (ov : ovmode) (dim : nat) (n : vec3 Z) (bmin bmax : vec3 R) (g : grid R) (l : levelset R).
Hypothesis Hb : built ov dim n 1 bmin bmax g.
Hypothesis Hl : levelset_on g l.
Hypothesis Hbox : proper_box dim bmin bmax.
Hypothesis Hdef : interp_defined ov dim.

Lemma node_base i j k p : padded_cell dim n 1 (i, j, k) ->
  (forall a, used dim a = true -> (ccoord (i, j, k) a < vget n a)%Z) ->
  node ov g i j k = Ok p ->
  in_lattice dim n bmin bmax p /\ bcell dim n bmin bmax p = (i, j, k) /\
  loc dim n bmin bmax (i, j, k) p = V3 0 0 0.
Proof.
  intros Hp Hlt Hn. pose proof (built_ok _ _ _ _ _ _ _ Hb) as F.
  destruct (node_at_centre_pad1 _ _ _ _ _ _ _ _ _ Hb Hp) as (p' & E' & Vp).
  rewrite Hn in E'. inversion E'; subst p'. clear E'.
  assert (EL : forall a, used dim a = true -> lc n bmin bmax a (vget p a) = IZR (ccoord (i, j, k) a)).
  { intros a Hu. rewrite Vp, Hu. unfold lc, lattice_coord, centre.
    pose proof (h_pos ov dim n 1 bmin bmax g Hb Hbox a Hu). set (h := spacing _ _ _) in *. field. lra. }
  split; [|split].
  - eapply in_lattice_lc; eauto. intros a Hu. rewrite EL by auto. specialize (Hp a). rewrite Hu in Hp.
    specialize (Hlt a Hu). split; [apply IZR_le; lia|apply IZR_lt; lia].
  - assert (A : forall a, bcoord dim n bmin bmax p a = ccoord (i, j, k) a).
    { intros a. unfold bcoord. destruct (used dim a) eqn:Hu.
      - apply Rfloor_unique. rewrite EL by auto. lra.
      - specialize (Hp a). rewrite Hu in Hp. auto. }
    unfold ProofsInterp.bcell. rewrite !A. reflexivity.
  - apply vec_ext. intros a. rewrite loc_get. destruct (used dim a) eqn:Hu.
    + rewrite EL by auto. destruct a; cbn; ring.
    + destruct a; reflexivity.
Qed.

Lemma interp_node_limited i j k p lim : padded_cell dim n 1 (i, j, k) ->
  (forall a, used dim a = true -> (ccoord (i, j, k) a < vget n a)%Z) ->
  node ov g i j k = Ok p ->
  exists f, interpolate ov g p l lim = Ok f /\ aget ov g (ls_phi_prev l) i j k = Ok (f_phi f).
Proof.
  intros Hp Hlt Hn. destruct (node_base i j k p Hp Hlt Hn) as (Hx & EB & EL).
  rewrite (interp_eval _ _ _ _ _ _ _ p lim Hb Hl Hbox Hdef Hx). rewrite EB, EL.
  eexists. split; [reflexivity|]. rewrite herm_node_phi by apply Hb.
  pose proof (built_ok _ _ _ _ _ _ _ Hb) as F.
  assert (Hg : gcell g (i, j, k)) by (apply (built_gcell _ _ _ _ _ _ _ _ Hb); exact Hp).
  pose proof (proj1 (array_on_shaped _ _ _ _ _ _ _ _ Hb) (on_phi_prev _ _ Hl)) as S1.
  rewrite (aget_peek_c ov) by (auto; apply F).
  destruct (peek_ok ov g _ _ (bf_ok _ _ _ _ _ _ _ F) S1 Hg) as (phi & P1).
  unfold cell_data. cbn [q_phi]. rewrite P1. reflexivity.
Qed.

(** *** C26 *)
Lemma bern_convex e d0 d1 d2 d3 M : 0 <= e <= 1 -> d0 <= M -> d1 <= M -> d2 <= M -> d3 <= M ->
  d0 * B0 e + d1 * B1 e + d2 * B2 e + d3 * B3 e <= M.
Proof.
  intros He H0 H1 H2 H3.
  assert (P : B0 e + B1 e + B2 e + B3 e = 1).
  { unfold B0, B1, B2, B3, cube, sqr. cbn [nadd nsub nmul ndiv nofZ NumR]. ring. }
  assert (N0 : 0 <= B0 e) by (unfold B0, cube; cbn [nadd nsub nmul ndiv nofZ NumR]; repeat apply Rmult_le_pos; lra).
  assert (N1 : 0 <= B1 e) by (unfold B1, sqr; cbn [nadd nsub nmul ndiv nofZ NumR]; repeat apply Rmult_le_pos; lra).
  assert (N2 : 0 <= B2 e) by (unfold B2, sqr; cbn [nadd nsub nmul ndiv nofZ NumR]; repeat apply Rmult_le_pos; lra).
  assert (N3 : 0 <= B3 e) by (unfold B3, cube; cbn [nadd nsub nmul ndiv nofZ NumR]; repeat apply Rmult_le_pos; lra).
  apply Rmult_le_compat_r with (r := B0 e) in H0; auto. apply Rmult_le_compat_r with (r := B1 e) in H1; auto.
  apply Rmult_le_compat_r with (r := B2 e) in H2; auto. apply Rmult_le_compat_r with (r := B3 e) in H3; auto.
  assert (M = M * B0 e + M * B1 e + M * B2 e + M * B3 e) by (rewrite <- !Rmult_plus_distr_l, P; ring). lra.
Qed.

Lemma Hw_bez e p0 s0 p1 s1 h : Hw (bern e) p0 s0 p1 s1 h =
  bez 0 p0 s0 p1 s1 h * B0 e + bez 1 p0 s0 p1 s1 h * B1 e + bez 2 p0 s0 p1 s1 h * B2 e + bez 3 p0 s0 p1 s1 h * B3 e.
Proof. reflexivity. Qed.

Lemma Hw_upper e p0 s0 p1 s1 h M : 0 <= e <= 1 -> (forall i, bez i p0 s0 p1 s1 h <= M) ->
  Hw (bern e) p0 s0 p1 s1 h <= M.
Proof. intros He H. rewrite Hw_bez. apply bern_convex; auto. Qed.
Lemma bez_neg i p0 s0 p1 s1 h : bez i (- p0) (- s0) (- p1) (- s1) h = - bez i p0 s0 p1 s1 h.
Proof. destruct i as [|[|[|i]]]; cbn; field. Qed.
Lemma Hw_lower e p0 s0 p1 s1 h M : 0 <= e <= 1 -> (forall i, M <= bez i p0 s0 p1 s1 h) ->
  M <= Hw (bern e) p0 s0 p1 s1 h.
Proof.
  intros He H. assert (A : Hw (bern e) (- p0) (- s0) (- p1) (- s1) h <= - M).
  { apply Hw_upper; auto. intros i. rewrite bez_neg. specialize (H i). lra. }
  assert (E : Hw (bern e) (- p0) (- s0) (- p1) (- s1) h = - Hw (bern e) p0 s0 p1 s1 h).
  { rewrite !Hw_bez, !bez_neg. ring. }
  lra.
Qed.
Lemma bez_Hw i w h k a0 a1 a2 a3 b0 b1 b2 b3 c0 c1 c2 c3 d0 d1 d2 d3 : four w ->
  bez i (Hw w a0 a1 a2 a3 h) (Hw w b0 b1 b2 b3 h) (Hw w c0 c1 c2 c3 h) (Hw w d0 d1 d2 d3 h) k =
  Hw w (bez i a0 b0 c0 d0 k) (bez i a1 b1 c1 d1 k) (bez i a2 b2 c2 d2 k) (bez i a3 b3 c3 d3 k) h.
Proof. intros (x0 & x1 & x2 & x3 & ->). unfold Hw. destruct i as [|[|[|i]]]; cbn [bez]; field. Qed.

Definition toQ (s : cell_values) : nodal R :=
  mkNodal (cv s) (V3 (cv_x s) (cv_y s) (cv_z s)) (cv_xy s) (cv_yz s) (cv_zx s) (cv_xyz s).

Lemma bez_swap i j h k a0 a1 a2 a3 b0 b1 b2 b3 c0 c1 c2 c3 d0 d1 d2 d3 :
  bez i (bez j a0 a1 a2 a3 h) (bez j b0 b1 b2 b3 h) (bez j c0 c1 c2 c3 h) (bez j d0 d1 d2 d3 h) k =
  bez j (bez i a0 b0 c0 d0 k) (bez i a1 b1 c1 d1 k) (bez i a2 b2 c2 d2 k) (bez i a3 b3 c3 d3 k) h.
Proof. destruct i as [|[|[|i]]], j as [|[|[|j]]]; cbn [bez]; field. Qed.

Lemma HD_hull (P : R -> Prop) e (S : cell -> cell_values) b h :
  (1 <= dim <= 3)%nat ->
  (forall e p0 s0 p1 s1 h, 0 <= e <= 1 -> (forall i, P (bez i p0 s0 p1 s1 h)) -> P (Hw (bern e) p0 s0 p1 s1 h)) ->
  (forall a, 0 <= vget e a <= 1) ->
  (forall p q r, P (net dim S h b p q r)) ->
  P (HD dim (Wt None e) (fun c => toQ (S c)) b h).
Proof.
  intros Hd HP He HN. pose proof (He AX) as EX. pose proof (He AY) as EY. pose proof (He AZ) as EZ.
  destruct b as [[i j] k]. unfold net in HN.
  assert (D : dim = 1%nat \/ dim = 2%nat \/ dim = 3%nat) by lia.
  destruct D as [D|[D|D]]; rewrite D in HN; cbn [used Nat.leb] in HN; unfold HD; rewrite D; unfold H2w, corners3, H3w, Wt, wts;
   cbn [flag cstep toQ q_phi q_psi q_m0 q_m1 q_m2 q_m3 vx vy vz].
  - apply HP; [assumption|]. intros p. exact (HN p 0%nat 0%nat).
  - apply HP; [assumption|]. intros p. rewrite bez_Hw by apply four_bern. apply HP; [assumption|]. intros q.
    rewrite <- bez_swap. exact (HN p q 0%nat).
  - apply HP; [assumption|]. intros p. rewrite bez_Hw by apply four_bern. apply HP; [assumption|]. intros q.
    rewrite <- bez_swap. rewrite !(bez_Hw q) by apply four_bern. rewrite bez_Hw by apply four_bern.
    apply HP; [assumption|]. intros r. specialize (HN p q r).
    rewrite !(bez_swap q r) in HN. rewrite (bez_swap r). exact HN.
Qed.

Lemma stores_data S b : stores ov dim n 1 g l S -> padded_cell dim n 1 b ->
  let q := cell_data g l b in let s := S b in
  q_phi q = cv s /\ q_psi q = V3 (cv_x s) (cv_y s) (cv_z s) /\
  ((2 <= dim)%nat -> q_m0 q = cv_xy s) /\ ((3 <= dim)%nat -> q_m1 q = cv_yz s /\ q_m2 q = cv_zx s /\ q_m3 q = cv_xyz s).
Proof.
  intros HS Hp. destruct b as [[i j] k]. specialize (HS i j k Hp). cbv zeta in *.
  pose proof (built_ok _ _ _ _ _ _ _ Hb) as F.
  assert (Hg : gcell g (i, j, k)) by (apply (built_gcell _ _ _ _ _ _ _ _ Hb); exact Hp).
  destruct HS as (H1 & H2 & H3).
  rewrite (aget_peek_c ov) in H1 by (auto; apply F). rewrite (aget_peek_c ov) in H2 by (auto; apply F).
  rewrite (aget_peek_c ov) in H3 by (auto; apply F).
  unfold cell_data. rewrite H1, H2, H3. cbn [val q_phi q_psi q_m0 q_m1 q_m2 q_m3].
  split; [reflexivity|]. split; [reflexivity|].
  pose proof (proj1 (proj1 Hb)) as Hd. clear - Hd.
  dim_cases Hd; cbn [nth]; repeat split; auto; lia.
Qed.

Lemma HD_ext W Q Q' b h : (1 <= dim <= 3)%nat ->
  (forall b', is_corner dim b b' -> q_phi (Q b') = q_phi (Q' b') /\
     (forall a, used dim a = true -> vget (q_psi (Q b')) a = vget (q_psi (Q' b')) a) /\
     ((2 <= dim)%nat -> q_m0 (Q b') = q_m0 (Q' b')) /\
     ((3 <= dim)%nat -> q_m1 (Q b') = q_m1 (Q' b') /\ q_m2 (Q b') = q_m2 (Q' b') /\ q_m3 (Q b') = q_m3 (Q' b'))) ->
  HD dim W Q b h = HD dim W Q' b h.
Proof.
  intros Hd H.
  assert (D : dim = 1%nat \/ dim = 2%nat \/ dim = 3%nat) by lia.
  destruct D as [D|[D|D]]; unfold HD; rewrite D; unfold H2w, corners3, H3w; rewrite D in H.
  - destruct (H b (corner_refl _ _)) as (A & B & _). destruct (H _ (corner_x _ b)) as (A' & B' & _).
    specialize (B AX eq_refl). specialize (B' AX eq_refl). cbn [vget] in *. congruence.
  - assert (K : forall b', is_corner 2 b b' -> q_phi (Q b') = q_phi (Q' b') /\ vx (q_psi (Q b')) = vx (q_psi (Q' b')) /\
        vy (q_psi (Q b')) = vy (q_psi (Q' b')) /\ q_m0 (Q b') = q_m0 (Q' b')).
    { intros b' Hc. destruct (H b' Hc) as (A & B & C & _). repeat split; auto; [apply (B AX)|apply (B AY)]; reflexivity. }
    assert (C1 : is_corner 2 b (cstep b AX)) by apply corner_x.
    assert (C2 : is_corner 2 b (cstep b AY)) by (apply corner_step; auto; apply corner_refl).
    assert (C3 : is_corner 2 b (cstep (cstep b AX) AY)) by (apply corner_step; auto; destruct b as [[? ?] ?]; reflexivity).
    destruct (K b (corner_refl _ _)) as (-> & -> & -> & ->). destruct (K _ C1) as (-> & -> & -> & ->).
    destruct (K _ C2) as (-> & -> & -> & ->). destruct (K _ C3) as (-> & -> & -> & ->). reflexivity.
  - assert (K : forall b', is_corner 3 b b' -> q_phi (Q b') = q_phi (Q' b') /\ vx (q_psi (Q b')) = vx (q_psi (Q' b')) /\
        vy (q_psi (Q b')) = vy (q_psi (Q' b')) /\ vz (q_psi (Q b')) = vz (q_psi (Q' b')) /\
        q_m0 (Q b') = q_m0 (Q' b') /\ q_m1 (Q b') = q_m1 (Q' b') /\ q_m2 (Q b') = q_m2 (Q' b') /\ q_m3 (Q b') = q_m3 (Q' b')).
    { intros b' Hc. destruct (H b' Hc) as (A & B & C & D'). destruct D' as (D1 & D2 & D3); [lia|].
      repeat split; auto; [apply (B AX)|apply (B AY)|apply (B AZ)]; reflexivity. }
    assert (C1 : is_corner 3 b (cstep b AX)) by apply corner_x.
    assert (C2 : is_corner 3 b (cstep b AY)) by (apply corner_step; auto; apply corner_refl).
    assert (C3 : is_corner 3 b (cstep b AZ)) by (apply corner_step; auto; apply corner_refl).
    assert (C4 : is_corner 3 b (cstep (cstep b AX) AY)) by (apply corner_step; auto; destruct b as [[? ?] ?]; reflexivity).
    assert (C5 : is_corner 3 b (cstep (cstep b AY) AZ)) by (apply corner_step; auto; destruct b as [[? ?] ?]; reflexivity).
    assert (C6 : is_corner 3 b (cstep (cstep b AX) AZ)) by (apply corner_step; auto; destruct b as [[? ?] ?]; reflexivity).
    assert (C7 : is_corner 3 b (cstep (cstep (cstep b AX) AY) AZ)) by (apply corner_step; auto; destruct b as [[? ?] ?]; reflexivity).
    destruct (K b (corner_refl _ _)) as (-> & -> & -> & -> & -> & -> & -> & ->).
    destruct (K _ C1) as (-> & -> & -> & -> & -> & -> & -> & ->). destruct (K _ C2) as (-> & -> & -> & -> & -> & -> & -> & ->).
    destruct (K _ C3) as (-> & -> & -> & -> & -> & -> & -> & ->). destruct (K _ C4) as (-> & -> & -> & -> & -> & -> & -> & ->).
    destruct (K _ C5) as (-> & -> & -> & -> & -> & -> & -> & ->). destruct (K _ C6) as (-> & -> & -> & -> & -> & -> & -> & ->).
    destruct (K _ C7) as (-> & -> & -> & -> & -> & -> & -> & ->). reflexivity.
Qed.

Lemma base_encl x : encloses dim n bmin bmax x (bcell dim n bmin bmax x).
Proof.
  intros a. rewrite bcell_coord. unfold bcoord. destruct (used dim a) eqn:Hu; [|reflexivity].
  pose proof (Rfloor_spec (lc n bmin bmax a (vget x a))) as S. unfold lc, lattice_coord in *.
  pose proof (h_pos ov dim n 1 bmin bmax g Hb Hbox a Hu) as Hh. unfold centre. rewrite plus_IZR.
  set (z := IZR _) in *. set (h := spacing _ _ _) in *.
  assert (E : (vget x a - vget bmin a) / h * h = vget x a - vget bmin a) by (field; lra).
  set (q := (vget x a - vget bmin a) / h) in *. destruct S as [S1 S2].
  apply Rmult_le_compat_r with (r := h) in S1; [|lra]. apply Rmult_lt_compat_r with (r := h) in S2; [|lra]. lra.
Qed.
Lemma encl_unique x c : encloses dim n bmin bmax x c -> c = bcell dim n bmin bmax x.
Proof.
  intros H.
  assert (A : forall a, ccoord c a = bcoord dim n bmin bmax x a).
  { intros a. specialize (H a). unfold bcoord. destruct (used dim a) eqn:Hu; [|exact H].
    symmetry. apply Rfloor_unique. unfold lc, lattice_coord.
    pose proof (h_pos ov dim n 1 bmin bmax g Hb Hbox a Hu) as Hh. unfold centre in H. rewrite plus_IZR in H.
    set (z := IZR _) in *. set (h := spacing _ _ _) in *.
    assert (E : (vget x a - vget bmin a) / h * h = vget x a - vget bmin a) by (field; lra).
    set (q := (vget x a - vget bmin a) / h) in *. split.
    - apply Rmult_le_reg_r with h; lra.
    - apply Rmult_lt_reg_r with h; lra. }
  destruct c as [[i j] k]. pose proof (A AX); pose proof (A AY); pose proof (A AZ). cbn [ccoord] in *.
  unfold bcell. congruence.
Qed.

Lemma interp_hull S x c lo hi : stores ov dim n 1 g l S -> in_lattice dim n bmin bmax x ->
  encloses dim n bmin bmax x c ->
  (forall p q r, lo <= net dim S (spacings n bmin bmax) c p q r <= hi) ->
  exists f, interpolate ov g x l false = Ok f /\ lo <= f_phi f <= hi.
Proof.
  intros HS Hx Hc HN. rewrite (encl_unique x c Hc) in HN. clear c Hc.
  destruct (interp_HD ov dim n bmin bmax g l Hb Hl Hbox Hdef x Hx) as (f & E & E1 & _).
  exists f. split; [exact E|]. rewrite E1.
  rewrite (HD_ext _ (cell_data g l) (fun c => toQ (S c))) by
    (try apply Hb; intros b' Hb';
     destruct (stores_data S b' HS (corner_padded ov dim n bmin bmax g Hb Hbox x b' Hx Hb')) as (A & B & C & D);
     cbn [toQ q_phi q_psi q_m0 q_m1 q_m2 q_m3]; rewrite B; auto).
  assert (He : forall a, 0 <= vget (loc dim n bmin bmax (bcell dim n bmin bmax x) x) a <= 1).
  { intros a. pose proof (base_in_cell dim n bmin bmax x a) as H. rewrite loc_get.
    destruct (used dim a); lra. }
  change (hs n bmin bmax) with (spacings n bmin bmax).
  split.
  - apply HD_hull; [apply Hb| |exact He|apply HN]. intros. apply Hw_lower; auto.
  - apply HD_hull; [apply Hb| |exact He|apply HN]. intros. apply Hw_upper; auto.
Qed.
End Node.

(** *** C23 *)
Lemma interp_total ov dim n pad bmin bmax g l x lim : built ov dim n pad bmin bmax g -> (1 <= pad)%Z ->
  levelset_on g l -> proper_box dim bmin bmax -> interp_defined ov dim -> in_lattice dim n bmin bmax x ->
  exists f, interpolate ov g x l lim = Ok f.
Proof.
  intros Hb Hpad Hl Hbox Hdef Hx. rewrite (interp_eval_pad ov dim n pad bmin bmax g l Hb Hpad Hl Hbox Hdef x lim Hx). eauto.
Qed.

Lemma chk_Wrap z : exists w, chk Wrap z = Ok w.
Proof. unfold chk. destruct (_ && _); eauto. Qed.
Lemma chk_fit ov z : (INT_MIN <= z <= INT_MAX)%Z -> chk ov z = Ok z.
Proof.
  intros H. unfold chk. destruct (Z.leb_spec INT_MIN z); [|lia]. destruct (Z.leb_spec z INT_MAX); [|lia]. reflexivity.
Qed.

(** slot of a 1-D position under wrap-around arithmetic *)
Lemma index_1d (g : grid R) i j k : g_dim g = 1%nat -> g_pad g = 1%Z -> (INT_MIN <= i <= INT_MAX - 1)%Z ->
  index Wrap g i j k = Ok (to_size_t (i + 1)).
Proof.
  intros Hd Hp Hi. assert (HM : INT_MAX = 2147483647%Z) by reflexivity.
  assert (Hm : INT_MIN = (-2147483648)%Z) by reflexivity.
  unfold index, iadd, imul. rewrite Hd, Hp. cbn [mask vx vy vz].
  destruct (chk_Wrap (k + 1)) as (kp & ->). cbn [bind]. rewrite (chk_fit Wrap (2 * 1)) by lia. cbn [bind].
  destruct (chk_Wrap (vx (g_n g) + 2 * 1)) as (sx & ->). cbn [bind].
  destruct (chk_Wrap (vy (g_n g) + 2 * 1)) as (sy & ->). cbn [bind].
  destruct (chk_Wrap (kp * sx)) as (k1 & ->). cbn [bind]. destruct (chk_Wrap (k1 * sy)) as (k2 & ->). cbn [bind].
  rewrite (chk_fit Wrap (k2 * 0)) by lia. cbn [bind].
  destruct (chk_Wrap (j + 1)) as (jp & ->). cbn [bind]. destruct (chk_Wrap (jp * sx)) as (j1 & ->). cbn [bind].
  rewrite (chk_fit Wrap (j1 * 0)) by lia. cbn [bind]. rewrite (chk_fit Wrap (k2 * 0 + j1 * 0)) by lia. cbn [bind].
  rewrite (chk_fit Wrap (i + 1)) by lia. cbn [bind]. rewrite (chk_fit Wrap ((i + 1) * 1)) by lia. cbn [bind].
  replace (k2 * 0 + j1 * 0 + (i + 1) * 1)%Z with (i + 1)%Z by lia. rewrite (chk_fit Wrap (i + 1)) by lia. reflexivity.
Qed.

Lemma vread_oob {A} (l : list A) i : (i < 0 \/ Z.of_nat (length l) <= i)%Z -> vread l i = UB OutOfBounds.
Proof.
  intros H. unfold vread. destruct (Z.leb_spec 0 i); [|reflexivity].
  rewrite (proj2 (nth_error_None _ _)); [reflexivity|]. lia.
Qed.

Lemma interp_oob n bmin bmax g l x lim : built Wrap 1 n 1 bmin bmax g ->
  levelset_on g l -> proper_box 1 bmin bmax ->
  IZR INT_MIN <= lattice_coord (vx bmin) (vx bmax) (vx n) (vx x) < IZR INT_MAX - 1 ->
  ~ in_lattice 1 n bmin bmax x ->
  interpolate Wrap g x l lim = UB OutOfBounds.
Proof.
  intros Hb Hl Hbox Hf Hx. pose proof (built_ok _ _ _ _ _ _ _ Hb) as F.
  assert (Hf' : lat_fits 1 n bmin bmax x) by (intros [] Ha; try discriminate; cbn [vget]; lra).
  pose proof (base_ok _ _ _ _ _ _ _ x Hb Hf') as Ebase.
  pose proof (h_pos Wrap 1 n 1 bmin bmax g Hb Hbox AX eq_refl) as Hh. cbn [vget] in Hh.
  unfold base_of in Ebase; cbn [used Nat.leb vget] in Ebase.
  set (L := lattice_coord (vx bmin) (vx bmax) (vx n) (vx x)) in *.
  pose proof (Rfloor_spec L) as S. set (b := Rfloor L) in *. clearbody b.
  pose proof (good_int _ _ _ AX (proj1 Hb)) as (_ & G & Gx). cbn [vget] in G.
  unfold extent in Gx. cbn [used vget] in Gx.
  assert (EM : vx bmax = vx bmin + IZR (vx n) * spacing (vx bmin) (vx bmax) (vx n)).
  { unfold spacing. field. apply not_0_IZR. lia. }
  set (h := spacing (vx bmin) (vx bmax) (vx n)) in *.
  assert (EX : vx x = vx bmin + (L + / 2) * h) by (unfold L, lattice_coord; fold h; field; lra).
  assert (HL : L < -1 \/ IZR (vx n) <= L).
  { destruct (Rlt_le_dec L (-1)) as [|H1]; [auto|]. right. destruct (Rle_lt_dec (IZR (vx n)) L) as [|H2]; [auto|].
    exfalso. apply Hx. intros a Hu. destruct a; try discriminate. cbn [vget]. cbv zeta. fold h.
    assert (0 <= (L + 1) * h) by (apply Rmult_le_pos; lra).
    assert (0 < (IZR (vx n) - L) * h) by (apply Rmult_lt_0_compat; lra). split; lra. }
  assert (HB : (INT_MIN <= b <= -2 \/ vx n <= b <= INT_MAX - 2)%Z).
  { assert (INT_MIN <= b)%Z.
    { assert (A : IZR INT_MIN < IZR (b + 1)) by (rewrite plus_IZR; lra). apply lt_IZR in A. lia. }
    destruct HL as [HL|HL].
    - left. split; [lia|]. assert (A : IZR b < -1) by lra. apply (lt_IZR b (-1)) in A. lia.
    - right. split.
      + assert (A : IZR (vx n) < IZR (b + 1)) by (rewrite plus_IZR; lra). apply lt_IZR in A. lia.
      + assert (A : IZR b < IZR (INT_MAX - 1)) by (rewrite minus_IZR; lra). apply lt_IZR in A. lia. }
  assert (HM : INT_MAX = 2147483647%Z) by reflexivity.
  assert (Hm : INT_MIN = (-2147483648)%Z) by reflexivity.
  pose proof (bf_dim _ _ _ _ _ _ _ F) as Ed. pose proof (bf_pad _ _ _ _ _ _ _ F) as Ep.
  unfold interpolate. rewrite Ed. unfold interpolate1. rewrite Ebase. cbn [bind vx].
  unfold succ_id, iadd. rewrite (chk_fit Wrap (b + 1)) by lia. cbn [bind].
  unfold node_v, node. cbn [vx vy vz]. rewrite (index_1d g b _ _ Ed Ep) by lia. cbn [bind].
  assert (LN : Z.of_nat (length (g_nodes g)) = (vx n + 2)%Z).
  { rewrite (bf_len _ _ _ _ _ _ _ F). unfold gcount. rewrite Ed, Ep, (bf_n _ _ _ _ _ _ _ F).
    unfold padded_count, extent; cbn [used Nat.leb vget]. lia. }
  assert (LA : forall A (a : array A), array_on g a -> Z.of_nat (length (a_data a)) = (vx n + 2)%Z).
  { intros A a Ha. rewrite (proj2 (proj1 (array_on_shaped _ _ _ _ _ _ _ _ Hb) Ha)).
    unfold gcount. rewrite Ed, Ep, (bf_n _ _ _ _ _ _ _ F). unfold padded_count, extent; cbn [used Nat.leb vget]. lia. }
  assert (SZ : forall i, (INT_MIN <= i <= INT_MAX)%Z ->
     (0 <= i -> to_size_t i = i)%Z /\ (i < 0 -> to_size_t i = i + 18446744073709551616)%Z).
  { intros i Hi. unfold to_size_t. split; intros Hs; [apply Z.mod_small; lia|].
    symmetry. apply Z.mod_unique with (-1)%Z; lia. }
  assert (OOB : forall A (m : list A) i, Z.of_nat (length m) = (vx n + 2)%Z -> (INT_MIN <= i <= INT_MAX)%Z ->
     (i < 0 \/ vx n + 2 <= i)%Z -> vread m (to_size_t i) = UB OutOfBounds).
  { intros A m i Hm' Hi Hr. apply vread_oob. destruct (SZ i Hi) as [S1 S2]. destruct Hr as [Hr|Hr].
    - rewrite S2 by lia. lia.
    - rewrite S1 by lia. lia. }
  destruct HB as [HB|HB].
  - rewrite (OOB _ _ (b + 1)%Z LN) by lia. reflexivity.
  - destruct (Z.eq_dec b (vx n)) as [E|E]; [|rewrite (OOB _ _ (b + 1)%Z LN) by lia; reflexivity].
    assert (RD : forall A (m : list A), Z.of_nat (length m) = (vx n + 2)%Z -> exists v, vread m (to_size_t (b + 1)) = Ok v).
    { intros A m Hm'. rewrite (proj1 (SZ (b + 1)%Z ltac:(lia))) by lia. unfold vread.
      destruct (Z.leb_spec 0 (b + 1)); [|lia].
      destruct (nth_error m (Z.to_nat (b + 1))) eqn:E1; [eauto|]. apply nth_error_None in E1. lia. }
    destruct (RD _ _ LN) as (xb & ->). cbn [bind]. unfold read_node, aget_v, aget. cbn [vx vy vz]. rewrite Ed.
    rewrite (index_1d g b _ _ Ed Ep) by lia. cbn [bind].
    destruct (RD _ _ (LA _ _ (on_phi_prev _ _ Hl))) as (p0 & ->). cbn [bind].
    destruct (RD _ _ (LA _ _ (on_psi_prev _ _ Hl))) as (s0 & ->). cbn [bind read_mix].
    rewrite (index_1d g (b + 1) _ _ Ed Ep) by lia. cbn [bind].
    rewrite (OOB _ _ (b + 1 + 1)%Z (LA _ _ (on_phi_prev _ _ Hl))) by lia. reflexivity.
Qed.
