From Coq Require Import ZArith List Lia Bool Reals Lra.
From Verif Require Import Base Num ModelVec ModelGrid ModelArray ModelInterp SpecGrid SpecInterp SpecPatch
  ProofsBase ProofsGrid ProofsArray ProofsGridProps ProofsHermite ProofsHermiteCell ProofsHermiteExact
  ProofsInterp ProofsInterpProps ProofsInterpMore ProofsLoops ProofsInterpApi ProofsInterpCases.
Open Scope R_scope.

Lemma blend_ext d t f f' : (forall i, f i = f' i) -> blend d t f = blend d t f'.
Proof. intros H. unfold blend. rewrite !H. reflexivity. Qed.
Lemma Hw_blend d t p0 s0 p1 s1 h : Hw (wts d t) p0 s0 p1 s1 h = blend d t (fun i => bez i p0 s0 p1 s1 h).
Proof. destruct d; unfold blend, bezier; cbn [bez]; unfold_bern; field. Qed.

Lemma HD_patch dim s e (S : cell -> cell_values) b h : (1 <= dim <= 3)%nat ->
  HD dim (Wt s e) (fun c => toQ (S c)) b h = patch s dim e (net dim S h b).
Proof.
  intros Hd. destruct b as [[i j] k]. unfold patch, net.
  assert (D : dim = 1%nat \/ dim = 2%nat \/ dim = 3%nat) by lia.
  change (along s) with (flag s).
  destruct D as [D|[D|D]]; subst dim; cbn [used Nat.leb]; unfold HD, H2w, corners3, H3w, Wt;
   cbn [cstep toQ q_phi q_psi q_m0 q_m1 q_m2 q_m3 vx vy vz vget].
  - rewrite Hw_blend. apply blend_ext. intros p. reflexivity.
  - rewrite Hw_blend. apply blend_ext. intros p. rewrite bez_Hw by apply four_wts. rewrite Hw_blend. apply blend_ext. intros q.
    rewrite <- bez_swap. reflexivity.
  - rewrite Hw_blend. apply blend_ext. intros p. rewrite bez_Hw by apply four_wts. rewrite Hw_blend. apply blend_ext. intros q.
    rewrite <- bez_swap. rewrite !(bez_Hw q) by apply four_wts. rewrite bez_Hw by apply four_wts.
    rewrite Hw_blend. apply blend_ext. intros r.
    rewrite !(bez_swap q r). rewrite (bez_swap r). reflexivity.
Qed.

Section Pad.
Context (ov : ovmode) (dim : nat) (n : vec3 Z) (pad : Z) (bmin bmax : vec3 R) (g : grid R) (l : levelset R).
Hypothesis Hb : built ov dim n pad bmin bmax g.
Hypothesis Hpad : (1 <= pad)%Z.
Hypothesis Hl : levelset_on g l.
Hypothesis Hbox : proper_box dim bmin bmax.
Hypothesis Hdef : interp_defined ov dim.

Lemma stores_data_pad S b : stores ov dim n pad g l S -> padded_cell dim n pad b ->
  let q := cell_data g l b in let s := S b in
  q_phi q = cv s /\ q_psi q = V3 (cv_x s) (cv_y s) (cv_z s) /\
  ((2 <= dim)%nat -> q_m0 q = cv_xy s) /\ ((3 <= dim)%nat -> q_m1 q = cv_yz s /\ q_m2 q = cv_zx s /\ q_m3 q = cv_xyz s).
Proof.
  intros HS Hp. destruct b as [[i j] k]. specialize (HS i j k Hp). cbv zeta in *.
  pose proof (built_ok _ _ _ _ _ _ _ Hb) as F.
  assert (Hg : gcell g (i, j, k)) by (apply (built_gcell _ _ _ _ _ _ _ _ Hb); exact Hp).
  destruct HS as (H1 & H2 & H3).
  rewrite (aget_peek_c ov) in H1 by (auto; apply F). rewrite (aget_peek_c ov) in H2 by (auto; apply F).
  rewrite (aget_peek_c ov) in H3 by (auto; apply F).
  unfold cell_data. rewrite H1, H2, H3. cbn [val q_phi q_psi q_m0 q_m1 q_m2 q_m3].
  split; [reflexivity|]. split; [reflexivity|].
  pose proof (proj1 (proj1 Hb)) as Hd. clear - Hd.
  dim_cases Hd; cbn [nth]; repeat split; auto; lia.
Qed.

Lemma encl_unique_pad x c : encloses dim n bmin bmax x c -> c = bcell dim n bmin bmax x.
Proof.
  intros H.
  assert (A : forall a, ccoord c a = bcoord dim n bmin bmax x a).
  { intros a. specialize (H a). unfold bcoord. destruct (used dim a) eqn:Hu; [|exact H].
    symmetry. apply Rfloor_unique. unfold lc, lattice_coord.
    pose proof (h_pos ov dim n pad bmin bmax g Hb Hbox a Hu) as Hh. unfold centre in H. rewrite plus_IZR in H.
    set (z := IZR _) in *. set (h := spacing _ _ _) in *.
    assert (E : (vget x a - vget bmin a) / h * h = vget x a - vget bmin a) by (field; lra).
    set (q := (vget x a - vget bmin a) / h) in *. split.
    - apply Rmult_le_reg_r with h; lra.
    - apply Rmult_lt_reg_r with h; lra. }
  destruct c as [[i j] k]. pose proof (A AX); pose proof (A AY); pose proof (A AZ). cbn [ccoord] in *.
  unfold bcell. congruence.
Qed.

Lemma interp_patch S x c (e : vec3 R) : stores ov dim n pad g l S -> in_lattice dim n bmin bmax x ->
  encloses dim n bmin bmax x c ->
  (forall a, used dim a = true -> vget e a =
     (vget x a - centre (vget bmin a) (vget bmax a) (vget n a) (ccoord c a)) / vget (spacings n bmin bmax) a - (IZR pad - 1)) ->
  exists f, interpolate ov g x l false = Ok f /\
    f_phi f = patch None dim e (net dim S (spacings n bmin bmax) c) /\
    forall a, vget (f_psi f) a =
      if used dim a then patch (Some a) dim e (net dim S (spacings n bmin bmax) c) / vget (spacings n bmin bmax) a else 0.
Proof.
  intros HS Hx Hc He. rewrite (encl_unique_pad x c Hc) in *. clear c Hc. pose proof (proj1 (proj1 Hb)) as Hd.
  rewrite (interp_eval_pad ov dim n pad bmin bmax g l Hb Hpad Hl Hbox Hdef x false Hx).
  rewrite herm_HD by exact Hd. eexists. split; [reflexivity|]. cbn [f_phi f_psi].
  set (b := bcell dim n bmin bmax x) in *. change (spacings n bmin bmax) with (hs n bmin bmax) in *.
  assert (EE : forall a, used dim a = true -> vget (locp dim n pad bmin bmax b x) a = vget e a).
  { intros a Hu. rewrite He by exact Hu. rewrite locp_get, loc_get, Hu, hs_get. unfold lc, lattice_coord, centre.
    pose proof (h_pos ov dim n pad bmin bmax g Hb Hbox a Hu) as Hh. set (h := spacing _ _ _) in *. field. lra. }
  assert (W : forall s, HD dim (Wt s (locp dim n pad bmin bmax b x)) (cell_data g l) b (hs n bmin bmax)
                      = patch s dim e (net dim S (hs n bmin bmax) b)).
  { intros s.
    rewrite (HD_ext dim _ (cell_data g l) (fun c => toQ (S c))) by
      (auto; intros b' Hb';
       destruct (stores_data_pad S b' HS (corner_padded_pad ov dim n pad bmin bmax g Hb Hpad Hbox x b' Hx Hb')) as (A & B & C & D);
       cbn [toQ q_phi q_psi q_m0 q_m1 q_m2 q_m3]; rewrite B; auto).
    rewrite <- HD_patch by exact Hd.
    clear - EE Hd. unfold HD, Wt.
    assert (D : dim = 1%nat \/ dim = 2%nat \/ dim = 3%nat) by lia.
    destruct D as [D|[D|D]]; subst dim.
    - rewrite (EE AX eq_refl). reflexivity.
    - rewrite (EE AX eq_refl), (EE AY eq_refl). reflexivity.
    - rewrite (EE AX eq_refl), (EE AY eq_refl), (EE AZ eq_refl). reflexivity. }
  split; [apply W|]. intros a.
  assert (EH : forall F : axis -> R, vget (V3 (F AX) (F AY) (F AZ)) a = F a) by (intros F; destruct a; reflexivity).
  rewrite (EH (hpsi dim (cell_data g l) b (locp dim n pad bmin bmax b x) (hs n bmin bmax) (os n bmin bmax))).
  unfold hpsi. destruct (used dim a); [|reflexivity]. rewrite W, os_get. reflexivity.
Qed.

(** a node whose shifted cell lies in the lattice *)
Lemma node_patch S i j k p : stores ov dim n pad g l S ->
  (forall a, used dim a = true -> (- pad <= ccoord (i, j, k) a <= vget n a - pad)%Z) ->
  (forall a, used dim a = false -> ccoord (i, j, k) a = 0%Z) ->
  node ov g i j k = Ok p ->
  let m := (i + (pad - 1), (if used dim AY then j + (pad - 1) else 0), (if used dim AZ then k + (pad - 1) else 0))%Z in
  let t := 1 - IZR pad in
  exists f, interpolate ov g p l false = Ok f /\
    f_phi f = patch None dim (V3 t t t) (net dim S (spacings n bmin bmax) m).
Proof.
  intros HS Hi H0 Hn m t.
  assert (Hp : padded_cell dim n pad (i, j, k)).
  { intros a. specialize (Hi a). specialize (H0 a). destruct (used dim a) eqn:Hu; [|auto].
    specialize (Hi eq_refl). pose proof (good_used _ _ _ a (proj1 Hb) Hu). lia. }
  destruct (node_position _ _ _ _ _ _ _ _ _ _ Hb Hp) as (p' & Np & Vp). rewrite Hn in Np. inversion Np; subst p'. clear Np.
  assert (Em : forall a, ccoord m a = if used dim a then (ccoord (i, j, k) a + (pad - 1))%Z else 0%Z) by (intros [| |]; reflexivity).
  assert (Ec : forall a, used dim a = true -> vget p a = centre (vget bmin a) (vget bmax a) (vget n a) (ccoord m a)).
  { intros a Hu. rewrite Vp, Em, Hu. unfold centre. rewrite plus_IZR, minus_IZR. set (h := spacing _ _ _). lra. }
  destruct (interp_patch S p m (V3 t t t) HS) as (f & E & V & _).
  - intros a Hu. cbv zeta. rewrite Ec by exact Hu. unfold centre. rewrite Em, Hu.
    pose proof (h_pos ov dim n pad bmin bmax g Hb Hbox a Hu) as Hh. specialize (Hi a Hu).
    pose proof (good_used _ _ _ a (proj1 Hb) Hu) as Hn1.
    assert (Ebox : vget bmax a = vget bmin a + IZR (vget n a) * spacing (vget bmin a) (vget bmax a) (vget n a)).
    { unfold spacing. field. apply not_0_IZR. lia. }
    set (h := spacing _ _ _) in *. rewrite Ebox. clear Ebox.
    assert (H1 : IZR (-1) <= IZR (ccoord (i, j, k) a + (pad - 1))) by (apply IZR_le; lia).
    assert (H2 : IZR (ccoord (i, j, k) a + (pad - 1)) + 1 <= IZR (vget n a)) by (rewrite <- plus_IZR; apply IZR_le; lia).
    clearbody h. apply Rmult_le_compat_r with (r := h) in H1; [|lra]. apply Rmult_le_compat_r with (r := h) in H2; [|lra]. lra.
  - intros a. destruct (used dim a) eqn:Hu; [|rewrite Em, Hu; reflexivity]. rewrite Ec by exact Hu.
    pose proof (h_pos ov dim n pad bmin bmax g Hb Hbox a Hu) as Hh. unfold centre. rewrite (plus_IZR (ccoord m a)).
    set (h := spacing _ _ _) in *. lra.
  - intros a Hu. rewrite Ec by exact Hu. unfold Rminus at 2. rewrite Rplus_opp_r. unfold Rdiv. rewrite Rmult_0_l.
    unfold t. destruct a; cbn [vget vx vy vz]; ring.
  - exists f. split; [exact E|exact V].
Qed.
End Pad.

Lemma interp_patch_1 ov dim n bmin bmax (g : grid R) (l : levelset R) S x c (e : vec3 R) :
  built ov dim n 1 bmin bmax g -> levelset_on g l -> proper_box dim bmin bmax -> interp_defined ov dim ->
  stores ov dim n 1 g l S -> in_lattice dim n bmin bmax x -> encloses dim n bmin bmax x c ->
  let h := spacings n bmin bmax in
  (forall a, used dim a = true ->
     vget e a = (vget x a - centre (vget bmin a) (vget bmax a) (vget n a) (ccoord c a)) / vget h a) ->
  exists f, interpolate ov g x l false = Ok f /\
    f_phi f = patch None dim e (net dim S h c) /\
    forall a, vget (f_psi f) a = if used dim a then patch (Some a) dim e (net dim S h c) / vget h a else 0.
Proof.
  intros Hb Hl Hbox Hd HS Hx Hc h He.
  apply (interp_patch ov dim n 1 bmin bmax g l Hb (Z.le_refl 1) Hl Hbox Hd S x c e HS Hx Hc).
  intros a Hu. rewrite (He a Hu). fold h. lra.
Qed.

Lemma patch_example S : exists g l p, built Trap 3 (V3 2 3 4)%Z 2 lo1 hi1 g /\ levelset_on g l /\ proper_box 3 lo1 hi1 /\ stores Trap 3 (V3 2 3 4)%Z 2 g l S /\ node Trap g 0 (-1) 1 = Ok p /\ in_lattice 3 (V3 2 3 4)%Z lo1 hi1 p /\ encloses 3 (V3 2 3 4)%Z lo1 hi1 p (1, 0, 2)%Z.
Proof.
  destruct (stored_case Trap 3 (V3 2 3 4)%Z 2 S (proj1 good_3d) (proj2 good_3d) (or_intror eq_refl)) as (g & l & x & Hb & Hl & Hbox & HS & _).
  assert (Hp : padded_cell 3 (V3 2 3 4)%Z 2 (0, -1, 1)%Z) by (intros [| |]; cbn; lia).
  destruct (node_position _ _ _ _ _ _ _ _ _ _ Hb Hp) as (p & Np & Vp).
  exists g, l, p. repeat (split; [assumption|]).
  split; intros a; specialize (Vp a); revert Vp; destruct a; unfold centre, spacing;
    cbn [used Nat.leb vget vx vy vz ccoord lo1 hi1 Z.add Pos.add Pos.succ]; intros ->; [intros _ ..| | |]; cbv zeta; lra.
Qed.

From Coquelicot Require Import Coquelicot.
Lemma blend_derive (F : nat -> R) t : derivable_pt_lim (fun t => blend false t F) t (blend true t F).
Proof. apply is_derive_Reals. unfold blend, bezier. auto_derive; [trivial|]. ring. Qed.
Lemma blend_through s (F : nat -> R -> R) F' t : (forall i, derivable_pt_lim (F i) t (F' i)) ->
  derivable_pt_lim (fun t => blend false s (fun i => F i t)) t (blend false s F').
Proof.
  intros H. apply is_derive_Reals.
  assert (H' : forall i, is_derive (F i) t (F' i)) by (intros i; apply is_derive_Reals, H).
  unfold blend, bezier.
  repeat apply @is_derive_plus;
    (eapply is_derive_ext; [intros u; apply Rmult_comm|]; match goal with |- is_derive _ _ (?a * ?b) => rewrite (Rmult_comm a b) end; apply is_derive_scal, H').
Qed.

Lemma patch_derive dim a (e : vec3 R) f : used dim a = true -> (2 <= dim <= 3 \/ dim = 1)%nat ->
  derivable_pt_lim (fun t => patch None dim (vset e a t) f) (vget e a) (patch (Some a) dim e f).
Proof.
  intros Hu Hd. destruct e as [x y z]. destruct a; cbn [vget vset vx vy vz]; unfold patch;
    cbn [along axis_eqb vx vy vz].
  - apply blend_derive.
  - rewrite Hu. apply (blend_through x (fun p t => blend false t _)). intros p. apply blend_derive.
  - assert (HY : used dim AY = true) by (destruct dim as [|[|[|]]]; cbn in *; congruence || reflexivity).
    rewrite Hu, HY. apply (blend_through x (fun p t => blend false y (fun q => blend false t _))). intros p.
    apply (blend_through y (fun q t => blend false t _)). intros q. apply blend_derive.
Qed.
