(** Lemmas behind the properties of the interpolation. *)
From Coq Require Import ZArith List Lia Bool Reals Lra Lra.
From Verif Require Import Base Num ModelVec ModelGrid ModelArray ModelInterp SpecGrid SpecInterp
  ProofsBase ProofsGrid ProofsArray ProofsGridProps ProofsHermite ProofsHermiteCell ProofsHermiteExact ProofsInterp.
Open Scope R_scope.

Section Ctx.
Variables (ov : ovmode) (dim : nat) (n : vec3 Z) (bmin bmax : vec3 R) (g : grid R) (l : levelset R).
Hypothesis Hb : built ov dim n 1 bmin bmax g.
Hypothesis Hl : levelset_on g l.
Hypothesis Hbox : proper_box dim bmin bmax.
Hypothesis Hdef : interp_defined ov dim.

Notation bcell := (bcell dim n bmin bmax).
Notation loc := (loc dim n bmin bmax).
Notation lc := (lc n bmin bmax).
Notation hs := (hs n bmin bmax).
Notation os := (os n bmin bmax).
Notation Q := (cell_data g l).
Let Hd := dim_range ov dim n 1 bmin bmax g Hb.

Lemma hs_pos a : used dim a = true -> 0 < vget hs a.
Proof. intros Hu. rewrite hs_get. eapply h_pos; eauto. Qed.

(** *** C16-C18 *)
Lemma centre_coord b a : vget (centre_pos dim n bmin bmax b) a =
  if used dim a then centre (vget bmin a) (vget bmax a) (vget n a) (ccoord b a) else 0.
Proof. destruct a; reflexivity. Qed.

Lemma vec_ext (u v : vec3 R) : (forall a, vget u a = vget v a) -> u = v.
Proof.
  intros H. destruct u, v. pose proof (H AX); pose proof (H AY); pose proof (H AZ).
  cbn in *. subst. reflexivity.
Qed.

Lemma corner_pos b b' : (forall a, used dim a = false -> ccoord b a = 0%Z) -> is_corner dim b b' ->
  centre_pos dim n bmin bmax b' = lpos (centre_pos dim n bmin bmax b) hs b b'.
Proof.
  intros H0 Hc. apply vec_ext. intros a.
  assert (E : vget (lpos (centre_pos dim n bmin bmax b) hs b b') a =
    vget (centre_pos dim n bmin bmax b) a + IZR (ccoord b' a - ccoord b a) * vget hs a) by (destruct a; reflexivity).
  rewrite E, !centre_coord, hs_get. destruct (used dim a) eqn:Hu.
  - unfold centre. rewrite minus_IZR. ring.
  - destruct (Hc a) as [-> | [? _]]; [|congruence]. rewrite Z.sub_diag. ring.
Qed.

Lemma corner_padded x b' : in_lattice dim n bmin bmax x -> is_corner dim (bcell x) b' -> padded_cell dim n 1 b'.
Proof.
  intros Hx Hc a. specialize (Hc a). rewrite bcell_coord in Hc.
  destruct (used dim a) eqn:Hu.
  - pose proof (bcoord_range ov dim n 1 bmin bmax g Hb Hbox x a Hx Hu). lia.
  - destruct Hc as [-> | [? _]]; [|congruence]. unfold bcoord. rewrite Hu. reflexivity.
Qed.

Lemma sampled_data c b : sampled ov dim n 1 bmin bmax g l c -> padded_cell dim n 1 b ->
  node_samples dim c (Q b) (centre_pos dim n bmin bmax b).
Proof.
  intros HS Hp. destruct b as [[i j] k]. specialize (HS i j k Hp). cbv zeta in HS.
  pose proof (built_ok _ _ _ _ _ _ _ Hb) as F.
  assert (Hg : gcell g (i, j, k)) by (apply (built_gcell _ _ _ _ _ _ _ _ Hb); exact Hp).
  destruct HS as (H1 & (s & H2 & H2') & H3).
  rewrite (aget_peek_c ov) in H1 by (auto; apply F). rewrite (aget_peek_c ov) in H2 by (auto; apply F).
  rewrite (aget_peek_c ov) in H3 by (auto; apply F).
  unfold cell_data. rewrite H1, H2, H3. cbn [val q_phi q_psi q_m0 q_m1 q_m2 q_m3].
  split; [reflexivity|]. split; [exact H2'|]. clear - Hd.
  dim_cases Hd; cbn [nth]; repeat split; auto; lia.
Qed.

Lemma base_unused0 x a : used dim a = false -> ccoord (bcell x) a = 0%Z.
Proof. intros Hu. rewrite bcell_coord. unfold bcoord. rewrite Hu. reflexivity. Qed.

Lemma interp_HD x : in_lattice dim n bmin bmax x ->
  exists f, interpolate ov g x l false = Ok f /\
   f_phi f = HD dim (Wt None (loc (bcell x) x)) Q (bcell x) hs /\
   forall a, vget (f_psi f) a = hpsi dim Q (bcell x) (loc (bcell x) x) hs os a.
Proof.
  intros Hx. rewrite (interp_eval _ _ _ _ _ _ _ x false Hb Hl Hbox Hdef Hx).
  rewrite herm_HD by exact Hd. eexists. split; [reflexivity|]. split; [reflexivity|].
  intros [| |]; reflexivity.
Qed.

Lemma interp_exact c x : sampled ov dim n 1 bmin bmax g l c -> in_lattice dim n bmin bmax x ->
  exists f, interpolate ov g x l false = Ok f /\ f_phi f = poly c (flat dim x) /\
    forall a, vget (f_psi f) a = if used dim a then dpoly a c (flat dim x) else 0.
Proof.
  intros HS Hx. destruct (interp_HD x Hx) as (f & E & E1 & E2).
  exists f. split; [exact E|].
  set (b := bcell x) in *. set (p0 := centre_pos dim n bmin bmax b).
  assert (HQ : forall b', is_corner dim b b' -> node_samples dim c (Q b') (lpos p0 hs b b')).
  { intros b' Hc. unfold p0. rewrite <- corner_pos by (auto; apply base_unused0).
    apply sampled_data; auto. apply (corner_padded x); auto. }
  assert (EP : V3 (vx p0 + vx (loc b x) * vx hs) (if used dim AY then vy p0 + vy (loc b x) * vy hs else vy p0)
        (if used dim AZ then vz p0 + vz (loc b x) * vz hs else vz p0) = flat dim x).
  { assert (K : forall a, used dim a = true -> vget p0 a + vget (loc b x) a * vget hs a = vget x a).
    { intros a Hu. unfold p0. rewrite centre_coord, loc_get, Hu, hs_get. unfold lc, lattice_coord, centre.
      pose proof (h_pos ov dim n 1 bmin bmax g Hb Hbox a Hu). set (h := spacing _ _ _) in *. field. lra. }
    apply vec_ext. intros [| |]; cbn [vget vx vy vz flat].
    - apply (K AX). reflexivity.
    - destruct (used dim AY) eqn:Hu; [apply (K AY Hu)|]. unfold p0, centre_pos. cbn [vy]. rewrite Hu. reflexivity.
    - destruct (used dim AZ) eqn:Hu; [apply (K AZ Hu)|]. unfold p0, centre_pos. cbn [vz]. rewrite Hu. reflexivity. }
  split.
  - rewrite E1, (HD_exact dim None c Q b p0 hs) by (auto; discriminate). rewrite EP. cbn [flag]. unfold poly. ring.
  - intros a. rewrite E2. unfold hpsi. destruct (used dim a) eqn:Hu; [|reflexivity].
    rewrite (HD_exact dim (Some a) c Q b p0 hs); auto; [|intros a' [= <-]; exact Hu].
    rewrite EP, os_get. pose proof (hs_pos a Hu).
    destruct a; cbn [flag axis_eqb dpoly]; field; lra.
Qed.

(** *** C19 *)
Lemma interp_node i j k p : padded_cell dim n 1 (i, j, k) ->
  (forall a, used dim a = true -> (ccoord (i, j, k) a < vget n a)%Z) ->
  node ov g i j k = Ok p ->
  exists f phi psi, interpolate ov g p l false = Ok f /\
    aget ov g (ls_phi_prev l) i j k = Ok phi /\ aget ov g (ls_psi_prev l) i j k = Ok psi /\
    f_phi f = phi /\ forall a, vget (f_psi f) a = if used dim a then vget psi a else 0.
Proof.
  intros Hp Hlt Hn. pose proof (built_ok _ _ _ _ _ _ _ Hb) as F.
  destruct (node_at_centre_pad1 _ _ _ _ _ _ _ _ _ Hb Hp) as (p' & E' & Vp).
  rewrite Hn in E'. inversion E'; subst p'. clear E'.
  assert (EL : forall a, used dim a = true -> lc a (vget p a) = IZR (ccoord (i, j, k) a)).
  { intros a Hu. rewrite Vp, Hu. unfold lc, lattice_coord, centre.
    pose proof (h_pos ov dim n 1 bmin bmax g Hb Hbox a Hu). set (h := spacing _ _ _) in *. field. lra. }
  assert (Hx : in_lattice dim n bmin bmax p).
  { intros a Hu. cbv zeta. pose proof (h_pos ov dim n 1 bmin bmax g Hb Hbox a Hu) as Hh. rewrite Vp, Hu.
    pose proof (Hp a) as Ha. rewrite Hu in Ha. specialize (Hlt a Hu).
    pose proof (good_used _ _ _ a (proj1 Hb) Hu) as Hn1.
    assert (E : vget bmax a = vget bmin a + IZR (vget n a) * spacing (vget bmin a) (vget bmax a) (vget n a)).
    { unfold spacing. field. apply not_0_IZR. lia. }
    unfold centre. set (h := spacing _ _ _) in *. rewrite E.
    assert (-1 <= IZR (ccoord (i, j, k) a)) by (apply IZR_le; lia).
    assert (IZR (ccoord (i, j, k) a) <= IZR (vget n a) - 1) by (rewrite <- minus_IZR; apply IZR_le; lia).
    set (z := IZR (ccoord (i, j, k) a)) in *. set (m := IZR (vget n a)) in *.
    assert (0 <= (z + 1) * h) by (apply Rmult_le_pos; lra).
    assert (0 <= (m - 1 - z) * h) by (apply Rmult_le_pos; lra). split; lra. }
  assert (EB : bcell p = (i, j, k)).
  { assert (A : forall a, bcoord dim n bmin bmax p a = ccoord (i, j, k) a).
    { intros a. unfold bcoord. destruct (used dim a) eqn:Hu.
      - apply Rfloor_unique. rewrite EL by auto. lra.
      - specialize (Hp a). rewrite Hu in Hp. auto. }
    unfold ProofsInterp.bcell. rewrite !A. reflexivity. }
  assert (ELoc : loc (bcell p) p = V3 0 0 0).
  { apply vec_ext. intros a. rewrite loc_get, EB. destruct (used dim a) eqn:Hu.
    - rewrite EL by auto. destruct a; cbn; ring.
    - destruct a; reflexivity. }
  destruct (interp_HD p Hx) as (f & E & E1 & E2). rewrite ELoc, EB in *.
  assert (Hg : gcell g (i, j, k)) by (apply (built_gcell _ _ _ _ _ _ _ _ Hb); exact Hp).
  assert (Hok : okgrid ov g) by apply F.
  pose proof (proj1 (array_on_shaped _ _ _ _ _ _ _ _ Hb) (on_phi_prev _ _ Hl)) as S1.
  pose proof (proj1 (array_on_shaped _ _ _ _ _ _ _ _ Hb) (on_psi_prev _ _ Hl)) as S2.
  destruct (peek_ok ov g _ _ Hok S1 Hg) as (phi & P1). destruct (peek_ok ov g _ _ Hok S2 Hg) as (psi & P2).
  exists f, phi, psi. rewrite !(aget_peek_c ov) by auto. repeat split; auto.
  - rewrite E1, node_value by exact Hd. unfold cell_data. rewrite P1. reflexivity.
  - intros a. rewrite E2. unfold hpsi. destruct (used dim a) eqn:Hu; [|reflexivity].
    rewrite node_slope by auto. rewrite os_get. pose proof (hs_pos a Hu).
    unfold cell_data. cbn [q_psi]. rewrite P2. cbn [val]. field. lra.
Qed.

(** *** Any closed cell that contains x gives the value at x *)
Definition in_cell (b : cell) (x : vec3 R) : Prop :=
  forall a, if used dim a then 0 <= lc a (vget x a) - IZR (ccoord b a) <= 1 else ccoord b a = 0%Z.

Lemma loc_shift b x a : used dim a = true ->
  loc (cstep b a) x = vset (loc b x) a (vget (loc b x) a - 1).
Proof.
  intros Hu. apply vec_ext. intros a'. rewrite loc_get.
  destruct b as [[i j] k].
  destruct a, a'; cbn [vget vset ProofsInterp.loc vx vy vz cstep ccoord]; try reflexivity; rewrite Hu, plus_IZR; ring.
Qed.

Definition cback (b : cell) (a : axis) : cell :=
  match b with (i, j, k) =>
    match a with AX => (i - 1, j, k) | AY => (i, j - 1, k) | AZ => (i, j, k - 1) end%Z end.
Lemma cstep_cback b a : cstep (cback b a) a = b.
Proof. destruct b as [[i j] k], a; cbn; rewrite Z.sub_add; reflexivity. Qed.

(** moving one axis of the cell to the base cell *)
Lemma HD_move s b x a : in_cell b x -> used dim a = true ->
  exists b', ccoord b' a = bcoord dim n bmin bmax x a /\
    (forall a', a' <> a -> ccoord b' a' = ccoord b a') /\
    HD dim (Wt s (loc b x)) Q b hs = HD dim (Wt s (loc b' x)) Q b' hs.
Proof.
  intros Hin Hu. specialize (Hin a). rewrite Hu in Hin.
  pose proof (Rfloor_spec (lc a (vget x a))) as HF.
  assert (Eb : bcoord dim n bmin bmax x a = Rfloor (lc a (vget x a))) by (unfold bcoord; rewrite Hu; reflexivity).
  rewrite Eb. set (z := Rfloor (lc a (vget x a))) in *.
  destruct (Rle_lt_or_eq_dec _ _ (proj2 Hin)) as [Hlt|Heq].
  - assert (z = ccoord b a). { symmetry. apply eq_sym, Rfloor_unique. lra. }
    exists b. auto.
  - assert (z = (ccoord b a + 1)%Z). { apply Rfloor_unique. rewrite plus_IZR. lra. }
    exists (cstep b a). split; [rewrite H; destruct b as [[i j] k], a; reflexivity|].
    split; [destruct b as [[i j] k], a; intros [| |]; cbn; congruence|].
    rewrite (face_agree dim s Q b (loc b x) hs a) by (auto; rewrite loc_get, Hu; exact Heq).
    rewrite (loc_shift b x a Hu). do 3 f_equal. rewrite loc_get, Hu. lra.
Qed.

Lemma HD_any s b x : in_cell b x ->
  HD dim (Wt s (loc b x)) Q b hs = HD dim (Wt s (loc (bcell x) x)) Q (bcell x) hs.
Proof.
  intros Hin.
  assert (M : forall a b, in_cell b x -> exists b', in_cell b' x /\ ccoord b' a = bcoord dim n bmin bmax x a /\
     (forall a', a' <> a -> ccoord b' a' = ccoord b a') /\
     HD dim (Wt s (loc b x)) Q b hs = HD dim (Wt s (loc b' x)) Q b' hs).
  { intros a c Hc. destruct (used dim a) eqn:Hu.
    - destruct (HD_move s c x a Hc Hu) as (b' & A & B & C). exists b'. split; [|auto].
      intros a'. specialize (Hc a'). destruct (axis_eqb a' a) eqn:Ea.
      + assert (a' = a) by (destruct a', a; auto; discriminate). subst a'. rewrite Hu in *.
        rewrite A. unfold bcoord. rewrite Hu. pose proof (Rfloor_spec (lc a (vget x a))). lra.
      + rewrite B; [exact Hc|]. intros ->. destruct a; discriminate.
    - exists c. split; auto. split; auto. specialize (Hc a). rewrite Hu in Hc. rewrite Hc. unfold bcoord. rewrite Hu. reflexivity. }
  destruct (M AX b Hin) as (b1 & I1 & A1 & B1 & C1).
  destruct (M AY b1 I1) as (b2 & I2 & A2 & B2 & C2).
  destruct (M AZ b2 I2) as (b3 & I3 & A3 & B3 & C3).
  rewrite C1, C2, C3.
  assert (b3 = bcell x); [|subst; reflexivity].
  destruct b3 as [[i j] k]. unfold ProofsInterp.bcell.
  assert (EX : ccoord (i, j, k) AX = bcoord dim n bmin bmax x AX) by (rewrite B3, B2 by discriminate; exact A1).
  assert (EY : ccoord (i, j, k) AY = bcoord dim n bmin bmax x AY) by (rewrite B3 by discriminate; exact A2).
  cbn [ccoord] in EX, EY, A3. congruence.
Qed.

Lemma interp_any b x : in_lattice dim n bmin bmax x -> in_cell b x ->
  exists f, interpolate ov g x l false = Ok f /\
   f_phi f = HD dim (Wt None (loc b x)) Q b hs /\
   forall a, vget (f_psi f) a = hpsi dim Q b (loc b x) hs os a.
Proof.
  intros Hx Hin. destruct (interp_HD x Hx) as (f & E & E1 & E2). exists f. split; [exact E|].
  split; [rewrite HD_any by auto; exact E1|]. intros a. rewrite E2. unfold hpsi.
  destruct (used dim a); [|reflexivity]. rewrite (HD_any (Some a) b x) by auto. reflexivity.
Qed.

(** *** C20 *)
Definition Fld (x : vec3 R) : fields R := val (mkFields 0 (V3 0 0 0)) (interpolate ov g x l false).
Lemma Fld_ok x : in_lattice dim n bmin bmax x -> interpolate ov g x l false = Ok (Fld x).
Proof. intros Hx. destruct (interp_HD x Hx) as (f & E & _). unfold Fld. rewrite E. reflexivity. Qed.
Lemma Fld_any b x : in_lattice dim n bmin bmax x -> in_cell b x ->
  f_phi (Fld x) = HD dim (Wt None (loc b x)) Q b hs /\
  forall a, vget (f_psi (Fld x)) a = hpsi dim Q b (loc b x) hs os a.
Proof.
  intros Hx Hi. destruct (interp_any b x Hx Hi) as (f & E & H). unfold Fld. rewrite E. exact H.
Qed.

Lemma lc_step a x t : used dim a = true -> lc a t = lc a x + (t - x) * / vget hs a.
Proof.
  intros Hu. pose proof (hs_pos a Hu). rewrite hs_get in *. unfold lc, ProofsInterp.lc, lattice_coord.
  field. lra.
Qed.
Lemma loc_vset b x a t : used dim a = true ->
  loc b (vset x a t) = vset (loc b x) a (lc a t - IZR (ccoord b a)).
Proof.
  intros Hu. apply vec_ext. intros a'. rewrite loc_get.
  destruct a, a'; cbn [vget vset ProofsInterp.loc vx vy vz ccoord]; try reflexivity; rewrite Hu; reflexivity.
Qed.
Lemma vget_vset (x : vec3 R) a a' t : vget (vset x a t) a' = if axis_eqb a' a then t else vget x a'.
Proof. destruct a, a'; reflexivity. Qed.

Lemma affine_derive c k x : derivable_pt_lim (fun t => c + k * t) x k.
Proof.
  assert (E : k = 0 + k * 1) by ring. pattern k at 2. rewrite E.
  apply (derivable_pt_lim_plus (fct_cte c) (mult_real_fct k id)).
  - apply derivable_pt_lim_const.
  - apply derivable_pt_lim_scal. apply derivable_pt_lim_id.
Qed.

Lemma cell_derive b x a : used dim a = true ->
  derivable_pt_lim (fun t => HD dim (Wt None (loc b (vset x a t))) Q b hs) (vget x a)
    (HD dim (Wt (Some a) (loc b x)) Q b hs * vget os a).
Proof.
  intros Hu.
  apply derivable_pt_lim_ext with
    (f := fun t => HD dim (Wt None (vset (loc b x) a (lc a t - IZR (ccoord b a)))) Q b hs).
  { intros t. rewrite loc_vset by auto. reflexivity. }
  apply (derivable_pt_lim_comp (fun t => lc a t - IZR (ccoord b a))
           (fun e => HD dim (Wt None (vset (loc b x) a e)) Q b hs)).
  - apply derivable_pt_lim_ext with
      (f := fun t => (lc a (vget x a) - IZR (ccoord b a) - vget x a * / vget hs a) + / vget hs a * t).
    { intros t. rewrite (lc_step a (vget x a) t Hu). ring. }
    rewrite os_get. apply affine_derive.
  - replace (lc a (vget x a) - IZR (ccoord b a)) with (vget (loc b x) a) by (rewrite loc_get, Hu; reflexivity).
    apply HD_derive; auto.
Qed.

Lemma glue f fL fR x0 m d : 0 < d -> derivable_pt_lim fL x0 m -> derivable_pt_lim fR x0 m ->
  (forall t, x0 - d < t <= x0 -> f t = fL t) -> (forall t, x0 <= t < x0 + d -> f t = fR t) ->
  derivable_pt_lim f x0 m.
Proof.
  intros Hd0 HL HR EL ER eps Heps.
  destruct (HL eps Heps) as (d1 & H1). destruct (HR eps Heps) as (d2 & H2).
  assert (Hm : 0 < Rmin d (Rmin d1 d2)).
  { apply Rmin_glb_lt; [auto|]. apply Rmin_glb_lt; [apply (cond_pos d1)|apply (cond_pos d2)]. }
  exists (mkposreal _ Hm). intros h Hh Hlt. cbn in Hlt.
  pose proof (Rmin_l d (Rmin d1 d2)). pose proof (Rmin_r d (Rmin d1 d2)).
  pose proof (Rmin_l d1 d2). pose proof (Rmin_r d1 d2).
  unfold Rabs in Hlt. destruct (Rcase_abs h).
  - rewrite EL, (EL x0) by lra. apply H1; auto. rewrite Rabs_left; lra.
  - rewrite ER, (ER x0) by lra. apply H2; auto. rewrite Rabs_right; lra.
Qed.

Lemma in_lattice_lc x : (forall a, used dim a = true -> -1 <= lc a (vget x a) < IZR (vget n a)) ->
  in_lattice dim n bmin bmax x.
Proof.
  intros H a Hu. specialize (H a Hu). cbv zeta.
  pose proof (hs_pos a Hu) as Hp. rewrite hs_get in Hp.
  unfold lc, ProofsInterp.lc, lattice_coord in H. pose proof (good_used _ _ _ a (proj1 Hb) Hu) as Hn.
  assert (E : vget bmax a = vget bmin a + IZR (vget n a) * spacing (vget bmin a) (vget bmax a) (vget n a)).
  { unfold spacing. field. apply not_0_IZR. lia. }
  set (h := spacing _ _ _) in *. rewrite E. set (xa := vget x a) in *. set (lo := vget bmin a) in *.
  assert (E2 : (xa - lo) / h * h = xa - lo) by (field; lra).
  set (q := (xa - lo) / h) in *. destruct H as [H1 H2].
  apply Rmult_le_compat_r with (r := h) in H1; [|lra]. apply Rmult_lt_compat_r with (r := h) in H2; [|lra]. lra.
Qed.
Lemma lc_lattice x a : in_lattice dim n bmin bmax x -> used dim a = true -> -1 <= lc a (vget x a) < IZR (vget n a).
Proof. intros H Hu. eapply lattice_lc; eauto. Qed.

Lemma base_in_cell x : in_cell (bcell x) x.
Proof.
  intros a. destruct (used dim a) eqn:Hu; [|apply base_unused0; auto].
  rewrite bcell_coord. unfold bcoord. rewrite Hu. pose proof (Rfloor_spec (lc a (vget x a))). lra.
Qed.

Lemma interp_gradient x a : in_lattice dim n bmin bmax x -> used dim a = true ->
  vget bmin a - spacing (vget bmin a) (vget bmax a) (vget n a) / 2 < vget x a ->
  derivable_pt_lim (fun t => f_phi (Fld (vset x a t))) (vget x a) (vget (f_psi (Fld x)) a).
Proof.
  intros Hx Hu Hleft.
  pose proof (hs_pos a Hu) as Hh.
  set (b := bcell x). pose proof (base_in_cell x) as Hib. fold b in Hib.
  destruct (Fld_any b x Hx Hib) as (_ & Epsi). rewrite Epsi. unfold hpsi. rewrite Hu.
  pose proof (lc_lattice x a Hx Hu) as HL.
  assert (HL1 : -1 < lc a (vget x a)).
  { unfold lc, ProofsInterp.lc, lattice_coord. rewrite hs_get in Hh. set (h := spacing _ _ _) in *.
    assert (E2 : (vget x a - vget bmin a) / h * h = vget x a - vget bmin a) by (field; lra).
    set (q := (vget x a - vget bmin a) / h) in *.
    apply Rmult_lt_reg_r with h; lra. }
  assert (Ez : ccoord b a = Rfloor (lc a (vget x a))) by (unfold b; rewrite bcell_coord; unfold bcoord; rewrite Hu; reflexivity).
  pose proof (Rfloor_spec (lc a (vget x a))) as HF. rewrite <- Ez in HF.
  pose proof (bcoord_range ov dim n 1 bmin bmax g Hb Hbox x a Hx Hu) as HR.
  rewrite <- bcell_coord in HR. fold b in HR. set (z := ccoord b a) in *.
  set (L := lc a (vget x a)) in *.
  (* positions reached by moving along a *)
  assert (Hlat : forall t, -1 <= lc a t < IZR (vget n a) -> in_lattice dim n bmin bmax (vset x a t)).
  { intros t Ht. apply in_lattice_lc. intros a' Hu'. rewrite vget_vset. destruct (axis_eqb a' a) eqn:E.
    - assert (a' = a) by (destruct a', a; auto; discriminate). subst. exact Ht.
    - apply lc_lattice; auto. }
  assert (Hcell : forall b' t, (forall a', a' <> a -> ccoord b' a' = ccoord b a') ->
     0 <= lc a t - IZR (ccoord b' a) <= 1 -> in_cell b' (vset x a t)).
  { intros b' t Hs Ht a'. rewrite vget_vset. destruct (axis_eqb a' a) eqn:E.
    - assert (a' = a) by (destruct a', a; auto; discriminate). subst. rewrite Hu. exact Ht.
    - assert (a' <> a) by (intros ->; destruct a; discriminate). rewrite Hs by auto. apply Hib. }
  assert (Hn1 : IZR z + 1 <= IZR (vget n a)) by (rewrite <- plus_IZR; apply IZR_le; lia).
  assert (Hz1 : -1 <= IZR z) by (apply IZR_le; lia).
  assert (Hstep : forall t d, Rabs (t - vget x a) < d * vget hs a -> Rabs (lc a t - L) < d).
  { intros t d Ht. rewrite (lc_step a (vget x a) t Hu). fold L.
    replace (L + (t - vget x a) * / vget hs a - L) with ((t - vget x a) * / vget hs a) by ring.
    rewrite Rabs_mult, (Rabs_right (/ vget hs a)) by (left; apply Rinv_0_lt_compat; auto).
    apply Rmult_lt_reg_r with (vget hs a); auto. rewrite Rmult_assoc, Rinv_l by lra. lra. }
  assert (Hmono : forall t, (t <= vget x a -> lc a t <= L) /\ (vget x a <= t -> L <= lc a t)).
  { intros t. rewrite (lc_step a (vget x a) t Hu). fold L.
    assert (0 < / vget hs a) by (apply Rinv_0_lt_compat; auto). split; intros Ht.
    - assert (0 <= (vget x a - t) * / vget hs a) by (apply Rmult_le_pos; lra). lra.
    - assert (0 <= (t - vget x a) * / vget hs a) by (apply Rmult_le_pos; lra). lra. }
  destruct (Rle_lt_or_eq_dec _ _ (proj1 HF)) as [Hin|Hface].
  - (* inside a cell *)
    set (d := Rmin (L - IZR z) (IZR z + 1 - L)).
    assert (Hd0 : 0 < d) by (apply Rmin_glb_lt; lra).
    pose proof (Rmin_l (L - IZR z) (IZR z + 1 - L)) as M1. pose proof (Rmin_r (L - IZR z) (IZR z + 1 - L)) as M2. fold d in M1, M2.
    assert (K : forall t, Rabs (t - vget x a) < d * vget hs a ->
        f_phi (Fld (vset x a t)) = HD dim (Wt None (loc b (vset x a t))) Q b hs).
    { intros t Ht. apply Hstep in Ht. apply Rabs_def2 in Ht. apply Fld_any; [apply Hlat; lra|].
      apply Hcell; auto. fold z. lra. }
    apply glue with (fL := fun t => HD dim (Wt None (loc b (vset x a t))) Q b hs)
      (fR := fun t => HD dim (Wt None (loc b (vset x a t))) Q b hs) (d := d * vget hs a).
    + apply Rmult_lt_0_compat; auto.
    + apply cell_derive; auto.
    + apply cell_derive; auto.
    + intros t Ht. apply K. apply Rabs_def1; lra.
    + intros t Ht. apply K. apply Rabs_def1; lra.
  - (* on a face *)
    set (bL := cback b a).
    assert (HbL : ccoord bL a = (z - 1)%Z) by (unfold bL, z; destruct b as [[i j] k], a; reflexivity).
    assert (HbL' : forall a', a' <> a -> ccoord bL a' = ccoord b a')
      by (unfold bL; destruct b as [[i j] k], a; intros [| |]; cbn; congruence).
    assert (HiL : in_cell bL x).
    { intros a'. destruct (axis_eqb a' a) eqn:E.
      - assert (a' = a) by (destruct a', a; auto; discriminate). subst. rewrite Hu, HbL, minus_IZR. fold L. lra.
      - assert (a' <> a) by (intros ->; destruct a; discriminate). rewrite HbL' by auto. apply Hib. }
    apply glue with (fL := fun t => HD dim (Wt None (loc bL (vset x a t))) Q bL hs)
      (fR := fun t => HD dim (Wt None (loc b (vset x a t))) Q b hs) (d := 1 * vget hs a).
    + lra.
    + assert (E : HD dim (Wt (Some a) (loc b x)) Q b hs = HD dim (Wt (Some a) (loc bL x)) Q bL hs)
        by (rewrite (HD_any (Some a) b x Hib), (HD_any (Some a) bL x HiL); reflexivity).
      rewrite E. apply cell_derive; auto.
    + apply cell_derive; auto.
    + intros t Ht. assert (Ha : Rabs (t - vget x a) < 1 * vget hs a) by (apply Rabs_def1; lra).
      apply Hstep in Ha. apply Rabs_def2 in Ha. pose proof (proj1 (Hmono t) (proj2 Ht)).
      assert (0 <= IZR z). { assert (-1 < IZR z) by lra. apply lt_IZR in H0. apply IZR_le. lia. }
      apply Fld_any; [apply Hlat; lra|].
      apply Hcell; auto. rewrite HbL, minus_IZR. lra.
    + intros t Ht. assert (Ha : Rabs (t - vget x a) < 1 * vget hs a) by (apply Rabs_def1; lra).
      apply Hstep in Ha. apply Rabs_def2 in Ha. pose proof (proj2 (Hmono t) (proj1 Ht)).
      apply Fld_any; [apply Hlat; lra|].
      apply Hcell; auto. fold z. lra.
Qed.

Lemma psi_unused x a : in_lattice dim n bmin bmax x -> used dim a = false -> vget (f_psi (Fld x)) a = 0.
Proof.
  intros Hx Hu. destruct (Fld_any (bcell x) x Hx (base_in_cell x)) as (_ & E). rewrite E.
  unfold hpsi. rewrite Hu. reflexivity.
Qed.

(** *** C21: joint continuity *)
Definition near (d : R) (x y : vec3 R) : Prop := forall a, used dim a = true -> Rabs (vget y a - vget x a) < d.
Definition jc (f : vec3 R -> R) (x : vec3 R) : Prop :=
  forall eps, 0 < eps -> exists d, 0 < d /\ forall y, near d x y -> Rabs (f y - f x) < eps.

Lemma near_le d d' x y : d <= d' -> near d x y -> near d' x y.
Proof. intros H Hn a Hu. specialize (Hn a Hu). lra. Qed.
Lemma jc_const c x : jc (fun _ => c) x.
Proof. intros eps He. exists 1. split; [lra|]. intros y _. rewrite Rminus_diag_eq, Rabs_R0; auto. Qed.
Lemma jc_ext f h x : (forall y, f y = h y) -> jc f x -> jc h x.
Proof. intros E H eps He. destruct (H eps He) as (d & Hd0 & K). exists d. split; auto. intros y Hy. rewrite <- !E. auto. Qed.
Lemma jc_plus f h x : jc f x -> jc h x -> jc (fun y => f y + h y) x.
Proof.
  intros Hf Hh eps He. destruct (Hf (eps / 2)) as (d1 & P1 & K1); [lra|].
  destruct (Hh (eps / 2)) as (d2 & P2 & K2); [lra|].
  exists (Rmin d1 d2). split; [apply Rmin_glb_lt; auto|]. intros y Hy.
  specialize (K1 y (near_le _ _ _ _ (Rmin_l _ _) Hy)). specialize (K2 y (near_le _ _ _ _ (Rmin_r _ _) Hy)).
  replace (f y + h y - (f x + h x)) with ((f y - f x) + (h y - h x)) by ring.
  eapply Rle_lt_trans; [apply Rabs_triang|]. lra.
Qed.
Lemma jc_mult f h x : jc f x -> jc h x -> jc (fun y => f y * h y) x.
Proof.
  intros Hf Hh eps He.
  set (A := Rabs (f x) + 1). set (B := Rabs (h x) + 1).
  assert (HA : 0 < A) by (pose proof (Rabs_pos (f x)); unfold A; lra).
  assert (HB : 0 < B) by (pose proof (Rabs_pos (h x)); unfold B; lra).
  destruct (Hf (Rmin 1 (eps / (2 * B)))) as (d1 & P1 & K1).
  { apply Rmin_glb_lt; [lra|]. apply Rdiv_lt_0_compat; lra. }
  destruct (Hh (eps / (2 * A))) as (d2 & P2 & K2); [apply Rdiv_lt_0_compat; lra|].
  exists (Rmin d1 d2). split; [apply Rmin_glb_lt; auto|]. intros y Hy.
  specialize (K1 y (near_le _ _ _ _ (Rmin_l _ _) Hy)). specialize (K2 y (near_le _ _ _ _ (Rmin_r _ _) Hy)).
  pose proof (Rmin_l 1 (eps / (2 * B))). pose proof (Rmin_r 1 (eps / (2 * B))).
  replace (f y * h y - f x * h x) with (f y * (h y - h x) + (f y - f x) * h x) by ring.
  eapply Rle_lt_trans; [apply Rabs_triang|]. rewrite !Rabs_mult.
  assert (Hfy : Rabs (f y) <= A).
  { replace (f y) with ((f y - f x) + f x) by ring. eapply Rle_trans; [apply Rabs_triang|]. unfold A. lra. }
  assert (T1 : Rabs (f y) * Rabs (h y - h x) <= A * Rabs (h y - h x)) by (apply Rmult_le_compat_r; [apply Rabs_pos|auto]).
  assert (T2 : A * Rabs (h y - h x) < A * (eps / (2 * A))) by (apply Rmult_lt_compat_l; auto).
  assert (T3 : A * (eps / (2 * A)) = eps / 2) by (field; lra).
  assert (T4 : Rabs (f y - f x) * Rabs (h x) <= (eps / (2 * B)) * B).
  { apply Rmult_le_compat; try apply Rabs_pos; [lra|unfold B; lra]. }
  assert (T5 : (eps / (2 * B)) * B = eps / 2) by (field; lra). lra.
Qed.
Lemma jc_scal k f x : jc f x -> jc (fun y => k * f y) x.
Proof. intros H. apply jc_mult; [apply jc_const|exact H]. Qed.
Lemma jc_minus f h x : jc f x -> jc h x -> jc (fun y => f y - h y) x.
Proof.
  intros Hf Hh. apply jc_ext with (f := fun y => f y + (-1) * h y); [intros; ring|].
  apply jc_plus; auto. apply jc_scal; auto.
Qed.
Lemma jc_loc b a x : jc (fun y => vget (loc b y) a) x.
Proof.
  destruct (used dim a) eqn:Hu.
  2:{ apply jc_ext with (f := fun _ => 0); [intros; rewrite loc_get, Hu; reflexivity|apply jc_const]. }
  pose proof (hs_pos a Hu) as Hp.
  intros eps He. exists (eps * vget hs a). split; [apply Rmult_lt_0_compat; auto|].
  intros y Hy. specialize (Hy a Hu). rewrite !loc_get, Hu, (lc_step a (vget x a) (vget y a) Hu).
  replace (lc a (vget x a) + (vget y a - vget x a) * / vget hs a - IZR (ccoord b a) - (lc a (vget x a) - IZR (ccoord b a)))
    with ((vget y a - vget x a) * / vget hs a) by ring.
  rewrite Rabs_mult, (Rabs_right (/ vget hs a)) by (left; apply Rinv_0_lt_compat; auto).
  apply Rmult_lt_reg_r with (vget hs a); auto. rewrite Rmult_assoc, Rinv_l by lra. lra.
Qed.
Lemma jc_Hw d e p0 s0 p1 s1 h x : jc e x -> jc p0 x -> jc s0 x -> jc p1 x -> jc s1 x ->
  jc (fun y => Hw (wts d (e y)) (p0 y) (s0 y) (p1 y) (s1 y) h) x.
Proof.
  intros He H0 H1 H2 H3. unfold Hw, wts.
  destruct d; unfold bern, bern', B0, B1, B2, B3, B0_Prime, B1_Prime, B2_Prime, B3_Prime, cube, sqr;
   cbn [nadd nsub nmul ndiv nofZ NumR]; unfold Rdiv;
   repeat first [exact He|exact H0|exact H1|exact H2|exact H3|apply jc_const|apply jc_minus|apply jc_plus|apply jc_mult].
Qed.
Lemma jc_HD s b x : jc (fun y => HD dim (Wt s (loc b y)) Q b hs) x.
Proof.
  pose proof (jc_loc b AX x). pose proof (jc_loc b AY x). pose proof (jc_loc b AZ x).
  assert (D : dim = 1%nat \/ dim = 2%nat \/ dim = 3%nat) by lia.
  destruct D as [D|[D|D]]; (eapply jc_ext; [intros y; symmetry; unfold HD; rewrite D at 1; reflexivity|]);
   unfold Wt, corners3, H2w, H3w;
   repeat first [assumption|apply jc_const|apply jc_Hw].
Qed.

Definition nbr (b : cell) (o : cell) : cell :=
  match b, o with (i, j, k), (p, q, r) => (i - p, j - q, k - r)%Z end.
Definition offs : list cell := cells3 [0; 1]%Z [0; 1]%Z [0; 1]%Z.

Lemma jc_list (L : list (vec3 R -> R)) x : (forall f, In f L -> jc f x) ->
  forall eps, 0 < eps -> exists d, 0 < d /\ forall f, In f L -> forall y, near d x y -> Rabs (f y - f x) < eps.
Proof.
  induction L as [|f L IH]; intros H eps He.
  - exists 1. split; [lra|]. intros f [].
  - destruct IH with (eps := eps) as (d1 & P1 & K1); auto. { intros; apply H; right; auto. }
    destruct (H f (or_introl eq_refl) eps He) as (d2 & P2 & K2).
    exists (Rmin d1 d2). split; [apply Rmin_glb_lt; auto|]. intros f' [<-|Hf] y Hy.
    + apply K2. eapply near_le; [apply Rmin_r|exact Hy].
    + apply K1; auto. eapply near_le; [apply Rmin_l|exact Hy].
Qed.

(** slack before x crosses a face along a *)
Lemma floor_near L : exists m, 0 < m <= 1 /\ forall L', Rabs (L' - L) < m ->
  (Rfloor L' = Rfloor L \/ (L = IZR (Rfloor L) /\ Rfloor L' = Rfloor L - 1)%Z).
Proof.
  pose proof (Rfloor_spec L) as S. destruct (Rle_lt_or_eq_dec _ _ (proj1 S)) as [Hin|Hf].
  - exists (Rmin (L - IZR (Rfloor L)) (IZR (Rfloor L) + 1 - L)).
    pose proof (Rmin_l (L - IZR (Rfloor L)) (IZR (Rfloor L) + 1 - L)).
    pose proof (Rmin_r (L - IZR (Rfloor L)) (IZR (Rfloor L) + 1 - L)).
    split; [split; [apply Rmin_glb_lt; lra|lra]|]. intros L' HL. left. apply Rabs_def2 in HL.
    apply Rfloor_unique. lra.
  - exists 1. split; [lra|]. intros L' HL. apply Rabs_def2 in HL.
    destruct (Rlt_le_dec L' L) as [Hlt|Hge].
    + right. split; [auto|]. apply Rfloor_unique. rewrite minus_IZR. lra.
    + left. apply Rfloor_unique. lra.
Qed.

Lemma interp_continuous x eps : in_lattice dim n bmin bmax x -> 0 < eps ->
  exists d, 0 < d /\ forall y, in_lattice dim n bmin bmax y -> near d x y ->
    Rabs (f_phi (Fld y) - f_phi (Fld x)) < eps /\
    forall a, Rabs (vget (f_psi (Fld y)) a - vget (f_psi (Fld x)) a) < eps.
Proof.
  intros Hx He.
  set (B := map (nbr (bcell x)) offs).
  set (fphi := fun b (y : vec3 R) => HD dim (Wt None (loc b y)) Q b hs).
  set (fpsi := fun a b (y : vec3 R) => hpsi dim Q b (loc b y) hs os a).
  set (L := map fphi B ++ map (fpsi AX) B ++ map (fpsi AY) B ++ map (fpsi AZ) B).
  destruct (jc_list L x) with (eps := eps) as (d0 & P0 & K0); auto.
  { intros f Hf. unfold L in Hf. rewrite !in_app_iff in Hf.
    assert (Jpsi : forall a b, jc (fpsi a b) x).
    { intros a b. unfold fpsi, hpsi. destruct (used dim a); [|apply jc_const].
      apply jc_mult; [apply jc_HD|apply jc_const]. }
    destruct Hf as [Hf|[Hf|[Hf|Hf]]]; apply in_map_iff in Hf; destruct Hf as (b & <- & _); auto.
    unfold fphi. apply jc_HD. }
  assert (Hm : exists m, 0 < m /\ forall y, near m x y -> forall a, used dim a = true ->
     (Rfloor (lc a (vget y a)) = Rfloor (lc a (vget x a)) \/
      (lc a (vget x a) = IZR (Rfloor (lc a (vget x a))) /\ Rfloor (lc a (vget y a)) = Rfloor (lc a (vget x a)) - 1)%Z)).
  { assert (H1 : forall a, exists m, 0 < m /\ forall y, near m x y -> used dim a = true ->
      (Rfloor (lc a (vget y a)) = Rfloor (lc a (vget x a)) \/
      (lc a (vget x a) = IZR (Rfloor (lc a (vget x a))) /\ Rfloor (lc a (vget y a)) = Rfloor (lc a (vget x a)) - 1)%Z)).
    { intros a. destruct (used dim a) eqn:Hu; [|exists 1; split; [lra|discriminate]].
      destruct (floor_near (lc a (vget x a))) as (m & Pm & Km).
      pose proof (hs_pos a Hu) as Hh.
      exists (m * vget hs a). split; [apply Rmult_lt_0_compat; lra|]. intros y Hy _. apply Km.
      specialize (Hy a Hu). rewrite (lc_step a (vget x a) (vget y a) Hu).
      replace (lc a (vget x a) + (vget y a - vget x a) * / vget hs a - lc a (vget x a))
        with ((vget y a - vget x a) * / vget hs a) by ring.
      rewrite Rabs_mult, (Rabs_right (/ vget hs a)) by (left; apply Rinv_0_lt_compat; auto).
      apply Rmult_lt_reg_r with (vget hs a); auto. rewrite Rmult_assoc, Rinv_l by lra. lra. }
    destruct (H1 AX) as (m1 & P1 & K1). destruct (H1 AY) as (m2 & P2 & K2). destruct (H1 AZ) as (m3 & P3 & K3).
    exists (Rmin m1 (Rmin m2 m3)). split; [repeat apply Rmin_glb_lt; auto|].
    pose proof (Rmin_l m1 (Rmin m2 m3)). pose proof (Rmin_r m1 (Rmin m2 m3)).
    pose proof (Rmin_l m2 m3). pose proof (Rmin_r m2 m3).
    intros y Hy [| |] Hu; [apply K1|apply K2|apply K3]; auto; eapply near_le; [|exact Hy|  |exact Hy| |exact Hy]; lra. }
  destruct Hm as (m & Pm & Km).
  exists (Rmin d0 m). split; [apply Rmin_glb_lt; auto|]. intros y Hy Hn.
  specialize (Km y (near_le _ _ _ _ (Rmin_r _ _) Hn)).
  assert (Hn0 : near d0 x y) by (eapply near_le; [apply Rmin_l|exact Hn]).
  set (b := bcell y).
  assert (Hbin : In b B).
  { assert (A : forall a, ccoord b a = ccoord (bcell x) a \/ ccoord b a = (ccoord (bcell x) a - 1)%Z).
    { intros a. unfold b. rewrite !bcell_coord. unfold bcoord. destruct (used dim a) eqn:Hu; [|auto].
      destruct (Km a Hu) as [-> | [_ ->]]; auto. }
    pose proof (A AX) as AX_. pose proof (A AY) as AY_. pose proof (A AZ) as AZ_.
    unfold B. apply in_map_iff. destruct b as [[i j] k], (bcell x) as [[i' j'] k']. cbn [ccoord] in *.
    exists (i' - i, j' - j, k' - k)%Z. split; [unfold nbr; f_equal; [f_equal|]; lia|].
    unfold offs. apply in_cells3. cbn [In]. lia. }
  assert (Hix : in_cell b x).
  { intros a. destruct (used dim a) eqn:Hu; [|apply base_unused0; auto].
    unfold b. rewrite bcell_coord. unfold bcoord. rewrite Hu.
    pose proof (Rfloor_spec (lc a (vget x a))).
    destruct (Km a Hu) as [-> | [E ->]]; [lra|]. rewrite minus_IZR. rewrite <- E. lra. }
  destruct (Fld_any b y Hy (base_in_cell y)) as (E1 & E2).
  destruct (Fld_any b x Hx Hix) as (E3 & E4).
  split.
  - rewrite E1, E3. apply (K0 (fphi b)); auto. unfold L. rewrite !in_app_iff. left. apply in_map; auto.
  - intros a. rewrite E2, E4. apply (K0 (fpsi a b)); auto. unfold L. rewrite !in_app_iff.
    destruct a; [right; left|right; right; left|right; right; right]; apply in_map; auto.
Qed.
End Ctx.
