(** The reference interpolant is the library's 2-D interpolant. *)
From Coq Require Import ZArith List Reals Lra Lia.
From Verif Require Import Base Num ModelVec ModelGrid ModelArray ModelInterp SpecGrid SpecInterp
  ProofsBase ProofsArray ProofsGridProps ProofsHermite ProofsHermiteCell ProofsInterp ProofsInterpProps ProofsInterpMore ProofsInterpApi
  ModelRefMath SpecRef ProofsRefHermite.
Open Scope R_scope.

Definition cell_quad (S : cell -> cell_values) (f : cell_values -> R) (i j : Z) : quad R :=
  mkQuad (f (S (i, j, 0)%Z)) (f (S (i + 1, j, 0)%Z)) (f (S (i, j + 1, 0)%Z)) (f (S (i + 1, j + 1, 0)%Z)).

Lemma lib_agrees ov n bmin bmax g l S x i j : built ov 2 n 1 bmin bmax g -> levelset_on g l ->
  proper_box 2 bmin bmax -> interp_defined ov 2 -> stores ov 2 n 1 g l S -> in_lattice 2 n bmin bmax x ->
  encloses 2 n bmin bmax x (i, j, 0)%Z ->
  let Q f := mkQuad (f (S (i, j, 0)%Z)) (f (S (i + 1, j, 0)%Z)) (f (S (i, j + 1, 0)%Z)) (f (S (i + 1, j + 1, 0)%Z)) in
  let x0 := centre (vx bmin) (vx bmax) (vx n) i in let y0 := centre (vy bmin) (vy bmax) (vy n) j in
  let hx := spacing (vx bmin) (vx bmax) (vx n) in let hy := spacing (vy bmin) (vy bmax) (vy n) in
  exists f, interpolate ov g x l false = Ok f /\
    f_phi f = hp (Q cv) (Q cv_x) (Q cv_y) (Q cv_xy) (vx x) (vy x) x0 y0 hx hy /\
    vx (f_psi f) = hermx (Q cv) (Q cv_x) (Q cv_y) (Q cv_xy) (vx x) (vy x) x0 y0 hx hy /\
    vy (f_psi f) = hermy (Q cv) (Q cv_x) (Q cv_y) (Q cv_xy) (vx x) (vy x) x0 y0 hx hy.
Proof.
  intros Hb Hl Hbox Hdef HS Hx Hc Q x0 y0 hx hy.
  pose proof (encl_unique ov 2 n bmin bmax g Hb Hbox x _ Hc) as EB.
  destruct (interp_HD ov 2 n bmin bmax g l Hb Hl Hbox Hdef x Hx) as (f & E & E1 & E2).
  exists f. split; [exact E|].
  assert (HE : forall W, HD 2 W (cell_data g l) (bcell 2 n bmin bmax x) (hs n bmin bmax) = HD 2 W (fun c => toQ (S c)) (i, j, 0)%Z (hs n bmin bmax)).
  { intros W. rewrite EB. apply HD_ext; [lia|]. intros b' Hb'.
    destruct (stores_data ov 2 n bmin bmax g l Hb S b' HS (corner_padded ov 2 n bmin bmax g Hb Hbox x b' Hx Hb')) as (A & B & C & D).
    cbn [toQ q_phi q_psi q_m0 q_m1 q_m2 q_m3]. rewrite B. auto. }
  assert (LX : vget (loc 2 n bmin bmax (i, j, 0)%Z x) AX = (vx x - x0) / hx).
  { rewrite loc_get. cbn [used Nat.leb ccoord]. unfold lc, lattice_coord, x0, hx, centre. cbn [vget].
    pose proof (h_pos ov 2 n 1 bmin bmax g Hb Hbox AX eq_refl) as Hh. cbn [vget] in Hh. field. lra. }
  assert (LY : vget (loc 2 n bmin bmax (i, j, 0)%Z x) AY = (vy x - y0) / hy).
  { rewrite loc_get. cbn [used Nat.leb ccoord]. unfold lc, lattice_coord, y0, hy, centre. cbn [vget].
    pose proof (h_pos ov 2 n 1 bmin bmax g Hb Hbox AY eq_refl) as Hh. cbn [vget] in Hh. field. lra. }
  pose proof (E2 AX) as EX. pose proof (E2 AY) as EY. cbn [vget] in EX, EY. rewrite E1, EX, EY.
  unfold hpsi. cbn [used Nat.leb]. rewrite !HE. rewrite <- EB.
  unfold HD, Wt. rewrite LX, LY. cbn [flag axis_eqb]. rewrite hp_H2w, hermx_H2w, hermy_H2w.
  cbn [cstep]. change (vget (os n bmin bmax) AX) with (/ hx). change (vget (os n bmin bmax) AY) with (/ hy).
  repeat split; unfold H2w; reflexivity.
Qed.

Lemma lib_case : exists g l x i j, built Wrap 2 (V3 4 3 1)%Z 1 lo1 hi1 g /\ levelset_on g l /\ proper_box 2 lo1 hi1 /\
  interp_defined Wrap 2 /\ stores Wrap 2 (V3 4 3 1)%Z 1 g l (fun c => match c with (i, j, _) => CV (IZR (i * j)) 1 (IZR j) 0 (IZR i) 0 0 0 end) /\
  in_lattice 2 (V3 4 3 1)%Z lo1 hi1 x /\ encloses 2 (V3 4 3 1)%Z lo1 hi1 x (i, j, 0)%Z.
Proof.
  destruct (stored_case Wrap 2 (V3 4 3 1)%Z 1 (fun c => match c with (i, j, _) => CV (IZR (i * j)) 1 (IZR j) 0 (IZR i) 0 0 0 end)) as (g & l & x & H1 & H2 & H3 & H4 & H5).
  - apply (proj1 good_2d).
  - exact I.
  - left. reflexivity.
  - pose proof (base_encl Wrap 2 (V3 4 3 1)%Z lo1 hi1 g H1 H3 x) as HE. destruct (bcell 2 (V3 4 3 1)%Z lo1 hi1 x) as [[i j] k] eqn:EB.
    pose proof (HE AZ) as HK. cbn [used Nat.leb ccoord] in HK. subst k.
    exists g, l, x, i, j. split; [exact H1|]. split; [exact H2|]. split; [exact H3|]. split; [left; reflexivity|]. auto.
Qed.
