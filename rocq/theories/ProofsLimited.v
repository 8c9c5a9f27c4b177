From Coq Require Import ZArith List Lia Bool Reals Lra.
From Verif Require Import Base Num ModelVec ModelGrid ModelArray ModelInterp SpecGrid SpecInterp SpecPatch SpecLimited
  ProofsBase ProofsGrid ProofsArray ProofsGridProps ProofsHermite ProofsHermiteCell ProofsHermiteExact
  ProofsInterp ProofsInterpProps ProofsInterpMore ProofsLoops ProofsInterpApi ProofsInterpCases ProofsPatch.
Open Scope R_scope.

(** *** One segment *)
Lemma cp_lim p0 s0 p1 s1 h : get_control_points p0 s0 p1 s1 h true =
  mkCP p0 (lim_bez 1 p0 s0 p1 s1 h) (lim_bez 2 p0 s0 p1 s1 h) p1.
Proof.
  pose proof (limiter_cp p0 s0 p1 s1 h) as H. cbv zeta in H. destruct (get_control_points p0 s0 p1 s1 h true) as [a b c d].
  cbn [c_30 c_21 c_12 c_03] in H. destruct H as (-> & -> & H). unfold lim_bez. rewrite <- H. reflexivity.
Qed.

(** *** The sums of products are the patch of the control values *)
Definition list2 (f : nat -> nat -> R) : list R :=
  flat_map (fun p => map (f p) [0; 1; 2; 3]%nat) [0; 1; 2; 3]%nat.
Definition list3 (f : nat -> nat -> nat -> R) : list R :=
  flat_map (fun p => flat_map (fun q => map (f p q) [0; 1; 2; 3]%nat) [0; 1; 2; 3]%nat) [0; 1; 2; 3]%nat.

Definition wdot (w : list R) (f : nat -> R) : R :=
  match w with [a; b; c; d] => a * f 0%nat + b * f 1%nat + c * f 2%nat + d * f 3%nat | _ => 0 end.
Lemma wdot_blend d t f : wdot (wts d t) f = blend d t f.
Proof. destruct d; unfold wdot, blend, bezier; unfold_bern; ring. Qed.
Lemma wsum_list2 wx wy f : four wx -> four wy ->
  wsum (tens2 wx wy) (list2 f) = wdot wx (fun p => wdot wy (f p)).
Proof.
  intros (x0 & x1 & x2 & x3 & ->) (y0 & y1 & y2 & y3 & ->). unfold wsum, tens2, list2, wdot.
  cbn [combine flat_map map app fold_left fst snd nadd nsub nmul ndiv nofZ NumR]. ring.
Qed.
Lemma wsum_list3 wx wy wz f : four wx -> four wy -> four wz ->
  wsum (tens3 wx wy wz) (list3 f) = wdot wx (fun p => wdot wy (fun q => wdot wz (f p q))).
Proof.
  intros (x0 & x1 & x2 & x3 & ->) (y0 & y1 & y2 & y3 & ->) (z0 & z1 & z2 & z3 & ->). unfold wsum, tens3, list3, wdot.
  cbn [combine flat_map map app fold_left fst snd nadd nsub nmul ndiv nofZ NumR].
  repeat match goal with |- context [f ?a ?b ?c] => let v := fresh "v" in set (v := f a b c); clearbody v end. ring.
Qed.

Ltac fin := cbn [nadd nsub nmul ndiv nofZ NumR]; (reflexivity || field).
Lemma cp2_lim S i j k h :
  control_points_2d (toQ (S (i, j, k))) (toQ (S (i + 1, j, k)%Z)) (toQ (S (i, j + 1, k)%Z)) (toQ (S (i + 1, j + 1, k)%Z)) h true
  = list2 (fun p q => lim_net 2 S h (i, j, k) p q 0).
Proof.
  unfold control_points_2d. rewrite !cp_lim. cbn [c_30 c_21 c_12 c_03].
  unfold list2, lim_net, nearest, side. cbn [flat_map map app outer Nat.eqb andb toQ q_phi q_psi q_m0 q_m1 q_m2 q_m3 vx vy vz lim_bez].
  unfold one_third. repeat (apply (f_equal2 (@cons R)); [fin|]). reflexivity.
Qed.
Lemma cp3_lim S i j k h :
  control_points_3d (toQ (S (i, j, k))) (toQ (S (i + 1, j, k)%Z)) (toQ (S (i, j + 1, k)%Z)) (toQ (S (i, j, k + 1)%Z))
    (toQ (S (i + 1, j + 1, k)%Z)) (toQ (S (i, j + 1, k + 1)%Z)) (toQ (S (i + 1, j, k + 1)%Z)) (toQ (S (i + 1, j + 1, k + 1)%Z)) h true
  = list3 (fun p q r => lim_net 3 S h (i, j, k) p q r).
Proof.
  unfold control_points_3d. rewrite !cp_lim. cbn [c_30 c_21 c_12 c_03].
  unfold list3, lim_net, nearest, side. cbn [flat_map map app outer Nat.eqb andb toQ q_phi q_psi q_m0 q_m1 q_m2 q_m3 vx vy vz lim_bez].
  unfold one_third. repeat (apply (f_equal2 (@cons R)); [fin|]). reflexivity.
Qed.

Definition lpsi dim S h b e (o : vec3 R) (a : axis) : R :=
  if used dim a then patch (Some a) dim e (lim_net dim S h b) * vget o a else 0.
Lemma herm_lim dim S b e h o : (1 <= dim <= 3)%nat ->
  herm dim (fun c => toQ (S c)) b e h o true =
  mkFields (patch None dim e (lim_net dim S h b)) (V3 (lpsi dim S h b e o AX) (lpsi dim S h b e o AY) (lpsi dim S h b e o AZ)).
Proof.
  intros Hd. destruct b as [[i j] k]. unfold herm, lpsi, patch.
  dim_cases Hd; cbn [used Nat.leb cstep along axis_eqb vget].
  - unfold hermite1. rewrite cp_lim. cbn [c_30 c_21 c_12 c_03 toQ q_phi q_psi vx vy vz].
    rewrite <- !(wdot_blend false), <- !(wdot_blend true). unfold vset, vzero, wdot, lim_net. cbn [vx vy vz lim_bez nofZ NumR].
    unfold wts, bern, bern'. cbn [nadd nsub nmul ndiv nofZ NumR]. f_equal; [ring|f_equal; ring].
  - unfold hermite2. rewrite cp2_lim. rewrite !wsum_list2 by (apply four_bern || apply four_bern').
    change (@bern R NumR) with (wts false). change (@bern' R NumR) with (wts true).
    assert (E : forall d d', wdot (wts d (vx e)) (fun p => wdot (wts d' (vy e)) (fun q => lim_net 2 S h (i, j, k) p q 0))
       = blend d (vx e) (fun p => blend d' (vy e) (fun q => lim_net 2 S h (i, j, k) p q 0))).
    { intros d d'. rewrite wdot_blend. apply blend_ext. intros p. apply wdot_blend. }
    rewrite !E. reflexivity.
  - unfold hermite3. rewrite cp3_lim. rewrite !wsum_list3 by (apply four_bern || apply four_bern').
    change (@bern R NumR) with (wts false). change (@bern' R NumR) with (wts true).
    assert (E : forall d d' d'', wdot (wts d (vx e)) (fun p => wdot (wts d' (vy e)) (fun q => wdot (wts d'' (vz e)) (fun r => lim_net 3 S h (i, j, k) p q r)))
       = blend d (vx e) (fun p => blend d' (vy e) (fun q => blend d'' (vz e) (fun r => lim_net 3 S h (i, j, k) p q r)))).
    { intros d d' d''. rewrite wdot_blend. apply blend_ext. intros p. rewrite wdot_blend. apply blend_ext. intros q. apply wdot_blend. }
    rewrite !E. reflexivity.
Qed.

Lemma herm_ext dim Q Q' b e h o lim : (1 <= dim <= 3)%nat ->
  (forall b', is_corner dim b b' -> q_phi (Q b') = q_phi (Q' b') /\ q_psi (Q b') = q_psi (Q' b') /\
     ((2 <= dim)%nat -> q_m0 (Q b') = q_m0 (Q' b')) /\
     ((3 <= dim)%nat -> q_m1 (Q b') = q_m1 (Q' b') /\ q_m2 (Q b') = q_m2 (Q' b') /\ q_m3 (Q b') = q_m3 (Q' b'))) ->
  herm dim Q b e h o lim = herm dim Q' b e h o lim.
Proof.
  intros Hd H.
  assert (C0 : is_corner dim b b) by apply corner_refl.
  assert (C1 : is_corner dim b (cstep b AX)) by apply corner_x.
  dim_cases Hd; unfold herm.
  - destruct (H _ C0) as (A & B & _), (H _ C1) as (A' & B' & _). unfold hermite1. rewrite A, B, A', B'. reflexivity.
  - assert (C2 : is_corner 2 b (cstep b AY)) by (apply corner_step; auto).
    assert (C3 : is_corner 2 b (cstep (cstep b AX) AY)) by (apply corner_step; auto; destruct b as [[? ?] ?]; reflexivity).
    unfold hermite2, control_points_2d.
    destruct (H _ C0) as (-> & -> & E & _); rewrite (E (le_n 2)); clear E. destruct (H _ C1) as (-> & -> & E & _); rewrite (E (le_n 2)); clear E.
    destruct (H _ C2) as (-> & -> & E & _); rewrite (E (le_n 2)); clear E. destruct (H _ C3) as (-> & -> & E & _); rewrite (E (le_n 2)); clear E.
    reflexivity.
  - assert (K : forall b', is_corner 3 b b' -> Q b' = Q' b').
    { intros b' Hc. destruct (H b' Hc) as (A & B & C & D). specialize (C ltac:(lia)). destruct (D ltac:(lia)) as (D1 & D2 & D3).
      destruct (Q b'), (Q' b'). cbn in *. congruence. }
    assert (N : forall c, cstep (cstep b AX) AY = c -> True) by auto.
    rewrite !K; auto; repeat (apply corner_step; [reflexivity| |]); auto; destruct b as [[? ?] ?]; reflexivity.
Qed.

Section Pad.
Context (ov : ovmode) (dim : nat) (n : vec3 Z) (pad : Z) (bmin bmax : vec3 R) (g : grid R) (l : levelset R).
Hypothesis Hb : built ov dim n pad bmin bmax g.
Hypothesis Hpad : (1 <= pad)%Z.
Hypothesis Hl : levelset_on g l.
Hypothesis Hbox : proper_box dim bmin bmax.
Hypothesis Hdef : interp_defined ov dim.

Lemma patch_coords s (e e' : vec3 R) f : (1 <= dim <= 3)%nat -> (forall a, used dim a = true -> vget e a = vget e' a) ->
  patch s dim e f = patch s dim e' f.
Proof.
  intros Hd H. unfold patch. pose proof (H AX eq_refl) as HX. cbn [vget] in HX. rewrite HX.
  destruct (used dim AY) eqn:UY; [|reflexivity]. pose proof (H AY UY) as HY. cbn [vget] in HY. rewrite HY.
  destruct (used dim AZ) eqn:UZ; [|reflexivity]. pose proof (H AZ UZ) as HZ. cbn [vget] in HZ. rewrite HZ. reflexivity.
Qed.

Lemma interp_limited S x c (e : vec3 R) : stores ov dim n pad g l S -> in_lattice dim n bmin bmax x ->
  encloses dim n bmin bmax x c ->
  (forall a, used dim a = true -> vget e a =
     (vget x a - centre (vget bmin a) (vget bmax a) (vget n a) (ccoord c a)) / vget (spacings n bmin bmax) a - (IZR pad - 1)) ->
  exists f, interpolate ov g x l true = Ok f /\
    f_phi f = patch None dim e (lim_net dim S (spacings n bmin bmax) c) /\
    forall a, vget (f_psi f) a =
      if used dim a then patch (Some a) dim e (lim_net dim S (spacings n bmin bmax) c) / vget (spacings n bmin bmax) a else 0.
Proof.
  intros HS Hx Hc He. rewrite (encl_unique_pad ov dim n pad bmin bmax g Hb Hbox x c Hc) in *. clear c Hc. pose proof (proj1 (proj1 Hb)) as Hd.
  rewrite (interp_eval_pad ov dim n pad bmin bmax g l Hb Hpad Hl Hbox Hdef x true Hx).
  set (b := bcell dim n bmin bmax x) in *. change (spacings n bmin bmax) with (hs n bmin bmax) in *.
  assert (EE : forall a, used dim a = true -> vget (locp dim n pad bmin bmax b x) a = vget e a).
  { intros a Hu. rewrite He by exact Hu. rewrite locp_get, loc_get, Hu, hs_get. unfold lc, lattice_coord, centre.
    pose proof (h_pos ov dim n pad bmin bmax g Hb Hbox a Hu) as Hh. set (h := spacing _ _ _) in *. field. lra. }
  rewrite (herm_ext dim (cell_data g l) (fun c => toQ (S c))) by
      (auto; intros b' Hb';
       destruct (stores_data_pad ov dim n pad bmin bmax g l Hb S b' HS (corner_padded_pad ov dim n pad bmin bmax g Hb Hpad Hbox x b' Hx Hb')) as (A & B & C & D);
       cbn [toQ q_phi q_psi q_m0 q_m1 q_m2 q_m3]; auto).
  rewrite herm_lim by exact Hd. eexists. split; [reflexivity|]. cbn [f_phi f_psi].
  split; [apply patch_coords; auto|]. intros a.
  assert (EH : forall F : axis -> R, vget (V3 (F AX) (F AY) (F AZ)) a = F a) by (intros F; destruct a; reflexivity).
  rewrite (EH (lpsi dim S (hs n bmin bmax) b (locp dim n pad bmin bmax b x) (os n bmin bmax))).
  unfold lpsi. destruct (used dim a); [|reflexivity].
  rewrite (patch_coords (Some a) _ e) by auto. rewrite os_get. reflexivity.
Qed.
End Pad.

(** *** Faces *)
Lemma blend_0 f : blend false 0 f = f 0%nat.
Proof. unfold blend, bezier. ring. Qed.
Lemma blend_1 f : blend false 1 f = f 3%nat.
Proof. unfold blend, bezier. ring. Qed.
Lemma blend_four d t f f' : f 0%nat = f' 0%nat -> f 1%nat = f' 1%nat -> f 2%nat = f' 2%nat -> f 3%nat = f' 3%nat ->
  blend d t f = blend d t f'.
Proof. intros A B C D. unfold blend. rewrite A, B, C, D. reflexivity. Qed.

Definition agrees_there (dim : nat) (e : vec3 R) (a : axis) : Prop :=
  (dim = 3%nat -> a = AY -> vx e = 0 \/ vx e = 1 \/ vz e = 0 \/ vz e = 1).
Lemma face_lim dim S h b e a : (1 <= dim <= 3)%nat -> used dim a = true -> vget e a = 1 -> agrees_there dim e a ->
  patch None dim e (lim_net dim S h b) = patch None dim (vset e a 0) (lim_net dim S h (cstep b a)).
Proof.
  intros Hd Hu He Ha. destruct b as [[i j] k], e as [ex ey ez]. unfold patch.
  dim_cases Hd; destruct a; try discriminate; cbn [vget vset vx vy vz used Nat.leb along cstep] in *; subst.
  - rewrite blend_0, blend_1. reflexivity.
  - rewrite blend_0, blend_1. apply blend_four; reflexivity.
  - apply blend_four; rewrite blend_0, blend_1; reflexivity.
  - rewrite blend_0, blend_1. apply blend_four; apply blend_four; reflexivity.
  - destruct (Ha eq_refl eq_refl) as [E|[E|[E|E]]]; cbn [vx vz] in E; subst.
    + repeat (rewrite blend_0 || rewrite blend_1). apply blend_four; reflexivity.
    + repeat (rewrite blend_0 || rewrite blend_1). apply blend_four; reflexivity.
    + apply blend_four; repeat (rewrite blend_0 || rewrite blend_1); reflexivity.
    + apply blend_four; repeat (rewrite blend_0 || rewrite blend_1); reflexivity.
  - apply blend_four; apply blend_four; rewrite blend_0, blend_1; reflexivity.
Qed.
Lemma face_jump S h b ex ez :
  patch None 3 (V3 ex 0 ez) (lim_net 3 S h (cstep b AY)) - patch None 3 (V3 ex 1 ez) (lim_net 3 S h b)
  = jump S h (cstep b AY) ex ez.
Proof.
  destruct b as [[i j] k]. unfold patch. cbn [used Nat.leb along cstep vx vy vz].
  set (f := lim_net 3 S h (i, (j + 1)%Z, k)). set (f' := lim_net 3 S h (i, j, k)).
  assert (E : forall p r, (p, r) <> (1, 1)%nat -> (p, r) <> (1, 2)%nat -> (p <= 3)%nat -> (r <= 3)%nat -> f' p 3%nat r = f p 0%nat r).
  { intros p r N1 N2 Hp Hr. do 4 (destruct p as [|p]; [do 4 (destruct r as [|r]; [first [reflexivity|congruence]|]); lia|]). lia. }
  assert (M : forall r, (r = 1 \/ r = 2)%nat -> mismatch S h (i, (j + 1)%Z, k) r = f 1%nat 0%nat r - f' 1%nat 3%nat r).
  { intros r [-> | ->]; unfold mismatch, f, f', lim_net, nearest, side; cbn [outer Nat.eqb andb lim_bez]; unfold Rdiv; ring. }
  unfold jump. rewrite !M by auto.
  assert (B0 : forall F ez, blend false 0 (fun q => blend false ez (fun r => F q r)) = blend false ez (fun r => F 0%nat r)) by (intros; apply blend_0).
  assert (B1 : forall F ez, blend false 1 (fun q => blend false ez (fun r => F q r)) = blend false ez (fun r => F 3%nat r)) by (intros; apply blend_1).
  etransitivity; [apply f_equal2; apply blend_ext; intros p; [apply (B0 (fun q r => f p q r))|apply (B1 (fun q r => f' p q r))]|].
  unfold blend, bezier.
  rewrite !(E 0%nat), !(E 2%nat), !(E 3%nat), (E 1%nat 0%nat), (E 1%nat 3%nat) by (lia || congruence).
  clearbody f f'. ring.
Qed.
