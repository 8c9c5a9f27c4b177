From Coq Require Import ZArith List Lia Bool Reals Lra.
From Verif Require Import Base Num ModelVec ModelGrid ModelArray ModelInterp SpecGrid SpecInterp SpecPatch SpecLimited
  ProofsBase ProofsGrid ProofsArray ProofsGridProps ProofsHermite ProofsHermiteCell ProofsHermiteExact
  ProofsInterp ProofsInterpProps ProofsInterpMore ProofsLoops ProofsInterpApi ProofsInterpCases ProofsPatch ProofsLimited.
Open Scope R_scope.

Section Ctx.
Context (ov : ovmode) (dim : nat) (n : vec3 Z) (bmin bmax : vec3 R) (g : grid R) (l : levelset R) (S : cell -> cell_values).
Hypothesis Hb : built ov dim n 1 bmin bmax g.
Hypothesis Hl : levelset_on g l.
Hypothesis Hbox : proper_box dim bmin bmax.
Hypothesis Hdef : interp_defined ov dim.
Hypothesis HS : stores ov dim n 1 g l S.

Notation bcell := (bcell dim n bmin bmax).
Notation loc := (loc dim n bmin bmax).
Notation lc := (lc n bmin bmax).
Notation hs := (hs n bmin bmax).
Notation in_cell := (in_cell dim n bmin bmax).
Let Hd := dim_range ov dim n 1 bmin bmax g Hb.

Definition LF (x : vec3 R) : fields R := val (mkFields 0 (V3 0 0 0)) (interpolate ov g x l true).
Definition GC (b : cell) (x : vec3 R) : R := patch None dim (loc b x) (lim_net dim S hs b).

Lemma loc_centre x a : used dim a = true ->
  vget (loc (bcell x) x) a = (vget x a - centre (vget bmin a) (vget bmax a) (vget n a) (ccoord (bcell x) a)) / vget hs a - (IZR 1 - 1).
Proof.
  intros Hu. rewrite loc_get, Hu, hs_get. unfold lc, lattice_coord, centre.
  pose proof (h_pos ov dim n 1 bmin bmax g Hb Hbox a Hu) as Hh. set (h := spacing _ _ _) in *. field. lra.
Qed.
Lemma LF_ok x : in_lattice dim n bmin bmax x -> interpolate ov g x l true = Ok (LF x) /\ f_phi (LF x) = GC (bcell x) x.
Proof.
  intros Hx.
  destruct (interp_limited ov dim n 1 bmin bmax g l Hb (Z.le_refl 1) Hl Hbox Hdef S x (bcell x) (loc (bcell x) x) HS Hx
    (base_encl ov dim n bmin bmax g Hb Hbox x)) as (f & E & P & _).
  { intros a Hu. apply loc_centre; auto. }
  unfold LF. rewrite E. split; [reflexivity|exact P].
Qed.

Lemma plane_lc x a : used dim a = true -> (on_plane n bmin bmax x a <-> exists m, lc a (vget x a) = IZR m).
Proof.
  intros Hu. pose proof (h_pos ov dim n 1 bmin bmax g Hb Hbox a Hu) as Hh. unfold on_plane, lc, lattice_coord, centre.
  set (h := spacing _ _ _) in *. set (lo := vget bmin a). set (u := vget x a). clearbody h lo u. split; intros (m & E); exists m.
  - rewrite E. field. lra.
  - assert (E2 : (u - lo) / h * h = u - lo) by (field; lra). set (q := (u - lo) / h) in *.
    assert (q = IZR m + / 2) by lra. rewrite H in E2. lra.
Qed.

(** positions where the cells around them agree *)
Definition settled (x : vec3 R) : Prop :=
  dim = 3%nat -> on_plane n bmin bmax x AY -> on_plane n bmin bmax x AX \/ on_plane n bmin bmax x AZ.

Lemma local_01 b x a : in_cell b x -> used dim a = true -> on_plane n bmin bmax x a ->
  vget (loc b x) a = 0 \/ vget (loc b x) a = 1.
Proof.
  intros Hin Hu Hp. apply plane_lc in Hp; auto. destruct Hp as (m & E). specialize (Hin a). rewrite Hu in Hin.
  rewrite loc_get, Hu, E in *. rewrite <- minus_IZR in *.
  assert (0 <= m - ccoord b a)%Z by (apply le_IZR; lra). assert (m - ccoord b a <= 1)%Z by (apply le_IZR; lra).
  assert (m - ccoord b a = 0 \/ m - ccoord b a = 1)%Z as [-> | ->] by lia; auto.
Qed.

Lemma GC_move b x a : settled x -> in_cell b x -> used dim a = true ->
  exists b', ccoord b' a = bcoord dim n bmin bmax x a /\
    (forall a', a' <> a -> ccoord b' a' = ccoord b a') /\ GC b x = GC b' x.
Proof.
  intros Hs Hin Hu. pose proof (Hin a) as Hia. rewrite Hu in Hia.
  pose proof (Rfloor_spec (lc a (vget x a))) as HF.
  assert (Eb : bcoord dim n bmin bmax x a = Rfloor (lc a (vget x a))) by (unfold bcoord; rewrite Hu; reflexivity).
  rewrite Eb. set (z := Rfloor (lc a (vget x a))) in *.
  destruct (Rle_lt_or_eq_dec _ _ (proj2 Hia)) as [Hlt|Heq].
  - assert (z = ccoord b a). { symmetry. apply eq_sym, Rfloor_unique. lra. }
    exists b. auto.
  - assert (z = (ccoord b a + 1)%Z). { apply Rfloor_unique. rewrite plus_IZR. lra. }
    exists (cstep b a). split; [rewrite H; destruct b as [[i j] k], a; reflexivity|].
    split; [destruct b as [[i j] k], a; intros [| |]; cbn; congruence|].
    unfold GC. rewrite (face_lim dim S hs b (loc b x) a); auto; [|rewrite loc_get, Hu; exact Heq|].
    + rewrite (loc_shift dim n bmin bmax b x a Hu). do 2 f_equal. rewrite loc_get, Hu. lra.
    + intros D ->. assert (Hy : on_plane n bmin bmax x AY).
      { apply plane_lc; auto. exists (ccoord b AY + 1)%Z. rewrite plus_IZR. lra. }
      destruct (Hs D Hy) as [Hp|Hp].
      * destruct (local_01 b x AX Hin eq_refl Hp) as [E|E]; cbn [vget] in E; auto.
      * destruct (local_01 b x AZ Hin ltac:(rewrite D; reflexivity) Hp) as [E|E]; cbn [vget] in E; auto.
Qed.

Lemma GC_any b x : settled x -> in_cell b x -> GC b x = GC (bcell x) x.
Proof.
  intros Hs Hin.
  assert (M : forall a b, in_cell b x -> exists b', in_cell b' x /\ ccoord b' a = bcoord dim n bmin bmax x a /\
     (forall a', a' <> a -> ccoord b' a' = ccoord b a') /\ GC b x = GC b' x).
  { intros a c Hc. destruct (used dim a) eqn:Hu.
    - destruct (GC_move c x a Hs Hc Hu) as (b' & A & B & C). exists b'. split; [|auto].
      intros a'. specialize (Hc a'). destruct (axis_eqb a' a) eqn:Ea.
      + assert (a' = a) by (destruct a', a; auto; discriminate). subst a'. rewrite Hu in *.
        rewrite A. unfold bcoord. rewrite Hu. pose proof (Rfloor_spec (lc a (vget x a))). lra.
      + rewrite B; [exact Hc|]. intros ->. destruct a; discriminate.
    - exists c. split; auto. split; auto. specialize (Hc a). rewrite Hu in Hc. rewrite Hc. unfold bcoord. rewrite Hu. reflexivity. }
  destruct (M AX b Hin) as (b1 & I1 & A1 & B1 & C1).
  destruct (M AY b1 I1) as (b2 & I2 & A2 & B2 & C2).
  destruct (M AZ b2 I2) as (b3 & I3 & A3 & B3 & C3).
  rewrite C1, C2, C3.
  assert (b3 = bcell x); [|subst; reflexivity].
  destruct b3 as [[i j] k]. unfold ProofsInterp.bcell.
  assert (EX : ccoord (i, j, k) AX = bcoord dim n bmin bmax x AX) by (rewrite B3, B2 by discriminate; exact A1).
  assert (EY : ccoord (i, j, k) AY = bcoord dim n bmin bmax x AY) by (rewrite B3 by discriminate; exact A2).
  cbn [ccoord] in EX, EY, A3. congruence.
Qed.

(** joint continuity in one cell *)
Lemma jc_pow f m x : jc dim f x -> jc dim (fun y => f y ^ m) x.
Proof. intros H. induction m; cbn [pow]; [apply jc_const|apply jc_mult; auto]. Qed.
Lemma jc_blend e (f : nat -> vec3 R -> R) x : jc dim e x -> (forall i, jc dim (f i) x) ->
  jc dim (fun y => blend false (e y) (fun i => f i y)) x.
Proof.
  intros He Hf. unfold blend, bezier.
  repeat first [exact He|apply Hf|apply jc_const|apply jc_pow|apply jc_minus|apply jc_plus|apply jc_mult].
Qed.
Lemma jc_GC b x : jc dim (GC b) x.
Proof.
  pose proof (jc_loc ov dim n bmin bmax g Hb Hbox b AX x) as JX. pose proof (jc_loc ov dim n bmin bmax g Hb Hbox b AY x) as JY.
  pose proof (jc_loc ov dim n bmin bmax g Hb Hbox b AZ x) as JZ. cbn [vget] in JX, JY, JZ.
  unfold GC, patch. cbn [along].
  apply (jc_blend (fun y => vx (loc b y)) (fun p y => _)); [exact JX|]. intros p.
  destruct (used dim AY); [|apply jc_const].
  apply (jc_blend (fun y => vy (loc b y)) (fun q y => _)); [exact JY|]. intros q.
  destruct (used dim AZ); [|apply jc_const].
  apply (jc_blend (fun y => vz (loc b y)) (fun r y => _)); [exact JZ|]. intros r. apply jc_const.
Qed.

Lemma lim_continuous x eps : settled x -> in_lattice dim n bmin bmax x -> 0 < eps ->
  exists d, 0 < d /\ forall y, in_lattice dim n bmin bmax y -> near dim d x y ->
    Rabs (f_phi (LF y) - f_phi (LF x)) < eps.
Proof.
  intros Hs Hx He.
  set (B := map (nbr (bcell x)) offs).
  destruct (jc_list dim (map GC B) x) with (eps := eps) as (d0 & P0 & K0); auto.
  { intros f Hf. apply in_map_iff in Hf; destruct Hf as (b & <- & _). apply jc_GC. }
  assert (Hm : exists m, 0 < m /\ forall y, near dim m x y -> forall a, used dim a = true ->
     (Rfloor (lc a (vget y a)) = Rfloor (lc a (vget x a)) \/
      (lc a (vget x a) = IZR (Rfloor (lc a (vget x a))) /\ Rfloor (lc a (vget y a)) = Rfloor (lc a (vget x a)) - 1)%Z)).
  { assert (H1 : forall a, exists m, 0 < m /\ forall y, near dim m x y -> used dim a = true ->
      (Rfloor (lc a (vget y a)) = Rfloor (lc a (vget x a)) \/
      (lc a (vget x a) = IZR (Rfloor (lc a (vget x a))) /\ Rfloor (lc a (vget y a)) = Rfloor (lc a (vget x a)) - 1)%Z)).
    { intros a. destruct (used dim a) eqn:Hu; [|exists 1; split; [lra|discriminate]].
      destruct (floor_near (lc a (vget x a))) as (m & Pm & Km).
      pose proof (hs_pos ov dim n bmin bmax g Hb Hbox a Hu) as Hh.
      exists (m * vget hs a). split; [apply Rmult_lt_0_compat; lra|]. intros y Hy _. apply Km.
      specialize (Hy a Hu). rewrite (lc_step ov dim n bmin bmax g Hb Hbox a (vget x a) (vget y a) Hu).
      replace (lc a (vget x a) + (vget y a - vget x a) * / vget hs a - lc a (vget x a))
        with ((vget y a - vget x a) * / vget hs a) by ring.
      rewrite Rabs_mult, (Rabs_right (/ vget hs a)) by (left; apply Rinv_0_lt_compat; auto).
      apply Rmult_lt_reg_r with (vget hs a); auto. rewrite Rmult_assoc, Rinv_l by lra. lra. }
    destruct (H1 AX) as (m1 & P1 & K1). destruct (H1 AY) as (m2 & P2 & K2). destruct (H1 AZ) as (m3 & P3 & K3).
    exists (Rmin m1 (Rmin m2 m3)). split; [repeat apply Rmin_glb_lt; auto|].
    pose proof (Rmin_l m1 (Rmin m2 m3)). pose proof (Rmin_r m1 (Rmin m2 m3)).
    pose proof (Rmin_l m2 m3). pose proof (Rmin_r m2 m3).
    intros y Hy [| |] Hu; [apply K1|apply K2|apply K3]; auto; eapply near_le; [|exact Hy|  |exact Hy| |exact Hy]; lra. }
  destruct Hm as (m & Pm & Km).
  exists (Rmin d0 m). split; [apply Rmin_glb_lt; auto|]. intros y Hy Hn.
  specialize (Km y (near_le _ _ _ _ _ (Rmin_r _ _) Hn)).
  assert (Hn0 : near dim d0 x y) by (eapply near_le; [apply Rmin_l|exact Hn]).
  set (b := bcell y).
  assert (Hbin : In b B).
  { assert (A : forall a, ccoord b a = ccoord (bcell x) a \/ ccoord b a = (ccoord (bcell x) a - 1)%Z).
    { intros a. unfold b. rewrite !bcell_coord. unfold bcoord. destruct (used dim a) eqn:Hu; [|auto].
      destruct (Km a Hu) as [-> | [_ ->]]; auto. }
    pose proof (A AX) as AX_. pose proof (A AY) as AY_. pose proof (A AZ) as AZ_.
    unfold B. apply in_map_iff. destruct b as [[i j] k], (bcell x) as [[i' j'] k']. cbn [ccoord] in *.
    exists (i' - i, j' - j, k' - k)%Z. split; [unfold nbr; f_equal; [f_equal|]; lia|].
    unfold offs. apply in_cells3. cbn [In]. lia. }
  assert (Hix : in_cell b x).
  { intros a. destruct (used dim a) eqn:Hu; [|apply base_unused0; auto].
    unfold b. rewrite bcell_coord. unfold bcoord. rewrite Hu.
    pose proof (Rfloor_spec (lc a (vget x a))).
    destruct (Km a Hu) as [-> | [E ->]]; [lra|]. rewrite minus_IZR. rewrite <- E. lra. }
  rewrite (proj2 (LF_ok y Hy)), (proj2 (LF_ok x Hx)). fold b. rewrite <- (GC_any b x Hs Hix).
  apply (K0 (GC b)); auto. apply in_map; auto.
Qed.

(** across a face in y, from below *)
Lemma lim_left x c e eps : dim = 3%nat -> in_lattice dim n bmin bmax x -> encloses dim n bmin bmax x c ->
  vy x = centre (vy bmin) (vy bmax) (vy n) (ccoord c AY) -> vy bmin - spacing (vy bmin) (vy bmax) (vy n) / 2 < vy x ->
  (forall a, vget e a = (vget x a - centre (vget bmin a) (vget bmax a) (vget n a) (ccoord c a)) / vget hs a) ->
  0 < eps ->
  exists d, 0 < d /\ forall t, vy x - d < t < vy x ->
    in_lattice dim n bmin bmax (vset x AY t) /\
    Rabs (f_phi (LF (vset x AY t)) - (f_phi (LF x) - jump S hs c (vx e) (vz e))) < eps.
Proof.
  intros D Hx Hc Hy Hlow He Heps.
  rewrite (encl_unique_pad ov dim n 1 bmin bmax g Hb Hbox x c Hc) in *. clear c Hc.
  assert (UY : used dim AY = true) by (rewrite D; reflexivity).
  assert (UZ : used dim AZ = true) by (rewrite D; reflexivity).
  set (c := bcell x) in *. set (b := cback c AY).
  assert (Ebc : cstep b AY = c) by apply cstep_cback.
  pose proof (hs_pos ov dim n bmin bmax g Hb Hbox AY UY) as Hh.
  assert (Eloc : loc c x = V3 (vx e) 0 (vz e)).
  { apply vec_ext. intros a. assert (Hu : used dim a = true) by (rewrite D; destruct a; reflexivity).
    unfold c. rewrite loc_centre by auto. fold c. rewrite (Rminus_diag_eq 1 1 eq_refl), Rminus_0_r. rewrite <- He.
    destruct a; try reflexivity. cbn [vget vy vx vz]. specialize (He AY). cbn [vget] in He. rewrite He, Hy.
    unfold Rdiv, Rminus. rewrite Rplus_opp_r. ring. }
  assert (Elb : loc b x = V3 (vx e) 1 (vz e)).
  { pose proof (loc_shift dim n bmin bmax b x AY UY) as L. rewrite Ebc, Eloc in L.
    destruct (loc b x) as [lx ly lz]. cbn [vset vget vx vy vz] in L. inversion L as [[L1 L2 L3]]. f_equal; lra. }
  assert (EG : GC b x = f_phi (LF x) - jump S hs c (vx e) (vz e)).
  { rewrite (proj2 (LF_ok x Hx)). fold c. unfold GC. rewrite Eloc, Elb, D.
    pose proof (face_jump S hs b (vx e) (vz e)) as J. rewrite Ebc in J. lra. }
  rewrite <- EG.
  destruct (jc_GC b x eps Heps) as (d0 & P0 & K0).
  exists (Rmin d0 (vget hs AY)). split; [apply Rmin_glb_lt; auto|]. intros t Ht.
  pose proof (Rmin_l d0 (vget hs AY)). pose proof (Rmin_r d0 (vget hs AY)).
  assert (LY : lc AY (vy x) = IZR (ccoord c AY)).
  { unfold lc, lattice_coord. rewrite hs_get in Hh. cbn [vget]. cbn [vget] in Hh. rewrite Hy. unfold centre.
    set (h := spacing _ _ _) in *. field. lra. }
  assert (Lt : -1 <= lc AY t - IZR (ccoord c AY) < 0).
  { rewrite (lc_step ov dim n bmin bmax g Hb Hbox AY (vy x) t UY), LY.
    assert (E2 : (t - vy x) * / vget hs AY * vget hs AY = t - vy x) by (field; lra).
    set (q := (t - vy x) * / vget hs AY) in *. set (w := vget hs AY) in *. clearbody q w.
    assert (-1 <= q) by (apply Rmult_le_reg_r with w; lra). assert (q < 0) by (apply Rmult_lt_reg_r with w; lra). lra. }
  assert (Hcy : (0 <= ccoord c AY)%Z).
  { assert (IZR (-1) < IZR (ccoord c AY)); [|apply lt_IZR in H1; lia]. rewrite <- LY. unfold lc, lattice_coord. rewrite hs_get in Hh.
    cbn [vget] in *. set (h := spacing _ _ _) in *.
    assert (E2 : (vy x - vy bmin) / h * h = vy x - vy bmin) by (field; lra). set (q := (vy x - vy bmin) / h) in *.
    apply Rmult_lt_reg_r with h; lra. }
  assert (Hlat : in_lattice dim n bmin bmax (vset x AY t)).
  { apply (in_lattice_lc ov dim n bmin bmax g Hb Hbox). intros a Hu. rewrite vget_vset. destruct (axis_eqb a AY) eqn:E.
    - assert (a = AY) by (destruct a; auto; discriminate). subst.
      pose proof (lc_lattice ov dim n bmin bmax g Hb Hbox x AY Hx UY) as K. cbn [vget] in K. rewrite LY in K.
      assert (0 <= IZR (ccoord c AY)) by (apply (IZR_le 0); lia). cbn [vget]. lra.
    - apply (lc_lattice ov dim n bmin bmax g Hb Hbox); auto. }
  split; [exact Hlat|]. rewrite (proj2 (LF_ok _ Hlat)).
  assert (EB : bcell (vset x AY t) = b).
  { assert (A : forall a, bcoord dim n bmin bmax (vset x AY t) a = ccoord b a).
    { intros a. assert (Hu : used dim a = true) by (rewrite D; destruct a; reflexivity).
      assert (EA : a <> AY -> ccoord b a = bcoord dim n bmin bmax x a).
      { intros N. rewrite <- bcell_coord. fold c. unfold b. destruct c as [[? ?] ?], a; try reflexivity. congruence. }
      destruct (axis_eqb a AY) eqn:E.
      - assert (a = AY) by (destruct a; auto; discriminate). subst. unfold bcoord. rewrite UY, vget_vset. cbn [axis_eqb].
        apply Rfloor_unique. assert (Eb : ccoord b AY = (ccoord c AY - 1)%Z) by (unfold b; destruct c as [[? ?] ?]; reflexivity).
        rewrite Eb, minus_IZR. lra.
      - rewrite EA by (intros ->; discriminate). unfold bcoord. rewrite vget_vset, E. reflexivity. }
    assert (EB : forall m, bcell m = (bcoord dim n bmin bmax m AX, bcoord dim n bmin bmax m AY, bcoord dim n bmin bmax m AZ)) by reflexivity.
    rewrite EB, !A. destruct b as [[? ?] ?]. reflexivity. }
  rewrite EB. apply K0. intros a Hu. rewrite vget_vset. destruct (axis_eqb a AY) eqn:E.
  - assert (a = AY) by (destruct a; auto; discriminate). subst. cbn [vget]. rewrite Rabs_left; lra.
  - rewrite Rminus_diag_eq, Rabs_R0; auto.
Qed.
End Ctx.

Lemma lim_field ov dim n bmin bmax g l : built ov dim n 1 bmin bmax g -> levelset_on g l ->
  proper_box dim bmin bmax -> interp_defined ov dim ->
  exists F, (forall y, in_lattice dim n bmin bmax y -> interpolate ov g y l true = Ok (F y)) /\
   (forall x eps, in_lattice dim n bmin bmax x -> 0 < eps ->
      (dim = 3%nat -> on_plane n bmin bmax x AY -> on_plane n bmin bmax x AX \/ on_plane n bmin bmax x AZ) ->
      exists d, 0 < d /\ forall y, in_lattice dim n bmin bmax y ->
        (forall a, used dim a = true -> Rabs (vget y a - vget x a) < d) ->
        Rabs (f_phi (F y) - f_phi (F x)) < eps).
Proof.
  intros Hb Hl Hbox Hdef. pose proof (stores_any _ _ _ _ _ _ _ _ Hb Hl) as HS. exists (LF ov g l). split.
  - intros y Hy. eapply LF_ok; eauto.
  - intros x eps Hx He Hs. eapply lim_continuous; eauto.
Qed.

Lemma lim_across ov n bmin bmax (g : grid R) (l : levelset R) S x c (e : vec3 R) :
  built ov 3 n 1 bmin bmax g -> levelset_on g l -> proper_box 3 bmin bmax -> stores ov 3 n 1 g l S ->
  in_lattice 3 n bmin bmax x -> encloses 3 n bmin bmax x c ->
  vy x = centre (vy bmin) (vy bmax) (vy n) (ccoord c AY) -> vy bmin - spacing (vy bmin) (vy bmax) (vy n) / 2 < vy x ->
  let h := spacings n bmin bmax in
  (forall a, vget e a = (vget x a - centre (vget bmin a) (vget bmax a) (vget n a) (ccoord c a)) / vget h a) ->
  exists f, interpolate ov g x l true = Ok f /\
    forall eps, 0 < eps -> exists d, 0 < d /\ forall t, vy x - d < t < vy x ->
      exists f', interpolate ov g (vset x AY t) l true = Ok f' /\
        Rabs (f_phi f' - (f_phi f - jump S h c (vx e) (vz e))) < eps.
Proof.
  intros Hb Hl Hbox HS Hx Hc Hy Hlow h He. assert (Hdef : interp_defined ov 3) by (right; reflexivity).
  exists (LF ov g l x). split; [eapply LF_ok; eauto|]. intros eps Heps.
  destruct (lim_left ov 3 n bmin bmax g l S Hb Hl Hbox Hdef HS x c e eps eq_refl Hx Hc Hy Hlow He Heps) as (d & Pd & K).
  exists d. split; auto. intros t Ht. destruct (K t Ht) as (K1 & K2). exists (LF ov g l (vset x AY t)).
  split; [eapply LF_ok; eauto|exact K2].
Qed.

(** x^2 *)
Lemma limited_const p h : limited p 0 p 0 h = (p, p).
Proof.
  unfold limited. replace (0 * h - (p - p)) with 0 by ring.
  destruct (Rlt_dec 0 (0 * 0)); [lra|]. destruct (Rlt_dec (0 * (0 + 0 / 2)) 0); [lra|]. f_equal; lra.
Qed.
Lemma limited_square x h : 0 < h -> fst (limited (x ^ 2) (2 * x) ((x + h) ^ 2) (2 * (x + h)) h) = x ^ 2 + (2 * x * h + h ^ 2) / 3.
Proof.
  intros Hh. unfold limited.
  replace (2 * x * h - ((x + h) ^ 2 - x ^ 2)) with (- h ^ 2) by ring.
  replace (2 * (x + h) * h - ((x + h) ^ 2 - x ^ 2)) with (h ^ 2) by ring.
  assert (0 < h ^ 2) by (apply pow_lt; auto). set (q := h ^ 2) in *.
  assert (0 < q * q) by (apply Rmult_lt_0_compat; auto).
  destruct (Rlt_dec 0 (- q * q)); [lra|]. destruct (Rlt_dec (- q * (- q + q / 2)) 0); [lra|].
  destruct (Rlt_dec (q * (q + - q / 2)) 0); [lra|]. cbn [fst]. unfold q. field.
Qed.
Lemma square_jump n bmin bmax c ex ez : 0 < spacing (vx bmin) (vx bmax) (vx n) ->
  jump (square_data n bmin bmax) (spacings n bmin bmax) c ex ez
  = - 3 * spacing (vx bmin) (vx bmax) (vx n) ^ 2 * (ex * (1 - ex) ^ 2) * (ez * (1 - ez)).
Proof.
  intros Hh. destruct c as [[i j] k].
  assert (M : forall r, (r = 1 \/ r = 2)%nat -> mismatch (square_data n bmin bmax) (spacings n bmin bmax) (i, j, k) r
    = - spacing (vx bmin) (vx bmax) (vx n) ^ 2 / 3).
  { intros r Hr. unfold mismatch, square_data, spacings. cbn [ccoord cv cv_x cv_z cv_zx vx vy vz].
    replace (centre (vx bmin) (vx bmax) (vx n) (i + 1)) with (centre (vx bmin) (vx bmax) (vx n) i + spacing (vx bmin) (vx bmax) (vx n))
      by (unfold centre; rewrite plus_IZR; ring).
    set (x0 := centre _ _ _ _) in *. set (h := spacing (vx bmin) _ _) in *. set (hz := spacing (vz bmin) _ _).
    destruct Hr as [-> | ->]; unfold lim_bez; rewrite !limited_const, limited_square by auto; cbn [fst snd]; field. }
  unfold jump. rewrite !M by auto. field.
Qed.

Lemma square_breaks ov n bmin bmax (g : grid R) (l : levelset R) x :
  built ov 3 n 1 bmin bmax g -> levelset_on g l -> proper_box 3 bmin bmax ->
  stores ov 3 n 1 g l (square_data n bmin bmax) -> in_lattice 3 n bmin bmax x ->
  on_plane n bmin bmax x AY -> ~ on_plane n bmin bmax x AX -> ~ on_plane n bmin bmax x AZ ->
  vy bmin - spacing (vy bmin) (vy bmax) (vy n) / 2 < vy x ->
  exists f gap, 0 < gap /\ interpolate ov g x l true = Ok f /\
    forall d, 0 < d -> exists t f', vy x - d < t < vy x /\
      interpolate ov g (vset x AY t) l true = Ok f' /\ f_phi f + gap < f_phi f'.
Proof.
  intros Hb Hl Hbox HS Hx (m & Hm) NX NZ Hlow. set (c := bcell 3 n bmin bmax x).
  pose proof (base_encl ov 3 n bmin bmax g Hb Hbox x) as Hc. fold c in Hc.
  set (h := spacings n bmin bmax).
  set (ec := fun a => (vget x a - centre (vget bmin a) (vget bmax a) (vget n a) (ccoord c a)) / vget h a).
  assert (Hp : forall a, 0 < vget h a).
  { intros a. apply (hs_pos ov 3 n bmin bmax g Hb Hbox a). destruct a; reflexivity. }
  assert (Hh : forall a, vget h a = spacing (vget bmin a) (vget bmax a) (vget n a)) by (intros a; destruct a; reflexivity).
  assert (Ey : vy x = centre (vy bmin) (vy bmax) (vy n) (ccoord c AY)).
  { cbn [vget] in Hm. specialize (Hc AY). specialize (Hp AY). rewrite Hh in Hp. cbn [used Nat.leb vget] in *. rewrite Hm in *.
    revert Hc Hp. unfold centre. rewrite plus_IZR. set (w := spacing _ _ _). intros Hc Hp.
    assert (A1 : IZR (ccoord c AY) <= IZR m) by (apply Rmult_le_reg_r with w; lra).
    assert (A2 : IZR m < IZR (ccoord c AY) + 1) by (apply Rmult_lt_reg_r with w; lra).
    rewrite <- plus_IZR in A2. apply le_IZR in A1. apply lt_IZR in A2. assert (m = ccoord c AY) by lia. subst m. reflexivity. }
  assert (In : forall a, ~ on_plane n bmin bmax x a -> 0 < ec a < 1).
  { intros a Na. specialize (Hc a). replace (used 3 a) with true in Hc by (destruct a; reflexivity).
    assert (Ne : centre (vget bmin a) (vget bmax a) (vget n a) (ccoord c a) <> vget x a) by (intros E; apply Na; eexists; symmetry; exact E).
    specialize (Hp a). unfold ec. rewrite Hh in *.
    assert (E1 : centre (vget bmin a) (vget bmax a) (vget n a) (ccoord c a + 1) =
       centre (vget bmin a) (vget bmax a) (vget n a) (ccoord c a) + spacing (vget bmin a) (vget bmax a) (vget n a))
      by (unfold centre; rewrite plus_IZR; ring).
    rewrite E1 in Hc. set (u := centre (vget bmin a) (vget bmax a) (vget n a) (ccoord c a)) in *.
    set (w := spacing (vget bmin a) (vget bmax a) (vget n a)) in *. clearbody u w.
    split; [apply Rdiv_lt_0_compat; lra|]. apply Rmult_lt_reg_r with w; [exact Hp|]. unfold Rdiv. rewrite Rmult_assoc, Rinv_l by lra. lra. }
  destruct (lim_across ov n bmin bmax g l _ x c (V3 (ec AX) (ec AY) (ec AZ)) Hb Hl Hbox HS Hx Hc Ey Hlow) as (f & E & K).
  { intros a. destruct a; reflexivity. }
  cbn [vx vz] in K. rewrite square_jump in K by (specialize (Hp AX); rewrite Hh in Hp; exact Hp).
  pose proof (In AX NX) as (X0 & X1). pose proof (In AZ NZ) as (Z0 & Z1).
  assert (P : 0 < 3 * spacing (vx bmin) (vx bmax) (vx n) ^ 2 * (ec AX * (1 - ec AX) ^ 2) * (ec AZ * (1 - ec AZ))).
  { specialize (Hp AX). rewrite Hh in Hp. cbn [vget] in Hp. set (w := spacing (vx bmin) (vx bmax) (vx n)) in *. clearbody w.
    assert (0 < w ^ 2) by (apply pow_lt; lra). assert (0 < (1 - ec AX) ^ 2) by (apply pow_lt; lra).
    apply Rmult_lt_0_compat; [|apply Rmult_lt_0_compat; lra]. apply Rmult_lt_0_compat; [lra|apply Rmult_lt_0_compat; lra]. }
  set (J := 3 * spacing (vx bmin) (vx bmax) (vx n) ^ 2 * (ec AX * (1 - ec AX) ^ 2) * (ec AZ * (1 - ec AZ))) in *.
  exists f, (J / 2). split; [lra|]. split; [exact E|]. intros d Pd.
  destruct (K (J / 2)) as (d' & Pd' & K'); [lra|].
  set (w := Rmin d d'). assert (0 < w) by (apply Rmin_glb_lt; auto). pose proof (Rmin_l d d'). pose proof (Rmin_r d d'). fold w in H0, H1.
  destruct (K' (vy x - w / 2)) as (f' & E' & V); [lra|].
  exists (vy x - w / 2), f'. split; [lra|]. split; [exact E'|].
  replace (f_phi f - -3 * spacing (vx bmin) (vx bmax) (vx n) ^ 2 * (ec AX * (1 - ec AX) ^ 2) * (ec AZ * (1 - ec AZ))) with (f_phi f + J) in V
    by (unfold J; ring).
  apply Rabs_def2 in V. lra.
Qed.

Lemma square_example : exists (g : grid R) (l : levelset R), let x := V3 (1/7) 0 (1/7) in
  built Trap 3 (V3 2 3 4)%Z 1 lo1 hi1 g /\ levelset_on g l /\ proper_box 3 lo1 hi1 /\
  stores Trap 3 (V3 2 3 4)%Z 1 g l (square_data (V3 2 3 4)%Z lo1 hi1) /\ in_lattice 3 (V3 2 3 4)%Z lo1 hi1 x /\
  on_plane (V3 2 3 4)%Z lo1 hi1 x AY /\ ~ on_plane (V3 2 3 4)%Z lo1 hi1 x AX /\ ~ on_plane (V3 2 3 4)%Z lo1 hi1 x AZ /\
  encloses 3 (V3 2 3 4)%Z lo1 hi1 x (0, 1, 1)%Z /\
  vy lo1 - spacing (vy lo1) (vy hi1) 3 / 2 < vy x.
Proof.
  destruct (stored_case Trap 3 (V3 2 3 4)%Z 1 (square_data (V3 2 3 4)%Z lo1 hi1) good_3d1 (or_introl eq_refl) (or_intror eq_refl))
    as (g & l & x0 & Hb & Hl & Hbox & HS & _).
  exists g, l. cbv zeta. repeat (split; [assumption|]).
  assert (NoZ : forall (m : Z) (a b : Z), (0 < b)%Z -> (a mod b <> 0)%Z -> IZR m * IZR b = IZR a -> False).
  { intros m a b H1 H2 E. rewrite <- mult_IZR in E. apply eq_IZR in E. apply H2. rewrite <- E. apply Z.mod_mul. lia. }
  split; [|split; [|split; [|split; [|split]]]].
  - intros a _. cbv zeta. destruct a; unfold spacing; cbn [vget vx vy vz lo1 hi1]; lra.
  - exists 1%Z. unfold centre, spacing. cbn [vget vx vy vz lo1 hi1]. lra.
  - intros (m & E). unfold centre, spacing in E. cbn [vget vx vy vz lo1 hi1] in E. apply (NoZ m 9 14)%Z; [lia|discriminate|lra].
  - intros (m & E). unfold centre, spacing in E. cbn [vget vx vy vz lo1 hi1] in E. apply (NoZ m 25 14)%Z; [lia|discriminate|lra].
  - intros a. destruct a; unfold centre, spacing; cbn [used Nat.leb vget vx vy vz ccoord lo1 hi1 Z.add Pos.add Pos.succ]; lra.
  - unfold spacing. cbn [vy lo1 hi1]. lra.
Qed.
