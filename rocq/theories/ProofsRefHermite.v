(** The pointwise functions of the reference code over the reals: the bicubic Hermite interpolant. *)
From Coq Require Import ZArith List Reals Lra Lia Psatz.
From Coquelicot Require Import Coquelicot.
From Verif Require Import Base Num NumB64 ModelVec ModelGrid ModelArray ModelInterp SpecGrid SpecInterp
  ProofsHermite ProofsHermiteCell ModelRefMath SpecRef ProofsCalc.
Open Scope R_scope.

Ltac nr := cbn [nadd nsub nmul ndiv nofZ NumR nsin ncos nexp TrigR npi TransR] in *.

(** *** Hermite *)
Definition N_of (p sx sy m : R) : nodal R := mkNodal p (V3 sx sy 0) m 0 0 0.
Definition nodals (phi psix psiy psixy : quad R) (sel : quad R -> R) : nodal R :=
  N_of (sel phi) (sel psix) (sel psiy) (sel psixy).

Lemma hsum_H2w (dx' dy' : bool) phi psix psiy psixy ex ey hx hy :
  hsum (fun ax ay v_x v_y d => pow01 hx ax * pow01 hy ay *
      ((if dx' then gradbp1 ax v_x ex else bp1 ax v_x ex) * (if dy' then gradbp1 ay v_y ey else bp1 ay v_y ey)) * d) phi psix psiy psixy =
  H2w (wts dx' ex) (wts dy' ey) (nodals phi psix psiy psixy q0) (nodals phi psix psiy psixy q1)
      (nodals phi psix psiy psixy q2) (nodals phi psix psiy psixy q3) (V3 hx hy 0).
Proof.
  destruct phi as [p0 p1 p2 p3], psix as [a0 a1 a2 a3], psiy as [b0 b1 b2 b3], psixy as [c0 c1 c2 c3].
  unfold hsum, rounds, corners, nodals, N_of, H2w, Hw. cbn [fold_left q0 q1 q2 q3 q_phi q_psi q_m0 vx vy vz].
  destruct dx', dy'; cbn [wts]; unfold bern, bern', B0, B1, B2, B3, B0_Prime, B1_Prime, B2_Prime, B3_Prime, gradbp1, bp1, pow01, sqr, cube;
  nr; field.
Qed.

Lemma hp_H2w phi psix psiy psixy x y xo yo dx dy : hp phi psix psiy psixy x y xo yo dx dy =
  H2w (wts false ((x - xo) / dx)) (wts false ((y - yo) / dy)) (nodals phi psix psiy psixy q0) (nodals phi psix psiy psixy q1)
      (nodals phi psix psiy psixy q2) (nodals phi psix psiy psixy q3) (V3 dx dy 0).
Proof. rewrite <- hsum_H2w. reflexivity. Qed.

Lemma hsum_scal f k phi psix psiy psixy : hsum (fun a b c d e => f a b c d e * k) phi psix psiy psixy = hsum f phi psix psiy psixy * k.
Proof. unfold hsum, rounds, corners. cbn [fold_left]. nr. ring. Qed.

Lemma hermx_H2w phi psix psiy psixy x y xo yo dx dy : hermx phi psix psiy psixy x y xo yo dx dy =
  H2w (wts true ((x - xo) / dx)) (wts false ((y - yo) / dy)) (nodals phi psix psiy psixy q0) (nodals phi psix psiy psixy q1)
      (nodals phi psix psiy psixy q2) (nodals phi psix psiy psixy q3) (V3 dx dy 0) * / dx.
Proof.
  rewrite <- hsum_H2w. unfold hermx.
  rewrite (hsum_scal (fun ax ay v_x v_y d => nmul (nmul (nmul (pow01 dx ax) (pow01 dy ay)) (gradbpx x y ax ay v_x v_y dx dy xo yo)) d)).
  f_equal. nr. unfold Rdiv. ring.
Qed.
Lemma hermy_H2w phi psix psiy psixy x y xo yo dx dy : hermy phi psix psiy psixy x y xo yo dx dy =
  H2w (wts false ((x - xo) / dx)) (wts true ((y - yo) / dy)) (nodals phi psix psiy psixy q0) (nodals phi psix psiy psixy q1)
      (nodals phi psix psiy psixy q2) (nodals phi psix psiy psixy q3) (V3 dx dy 0) * / dy.
Proof.
  rewrite <- hsum_H2w. unfold hermy.
  rewrite (hsum_scal (fun ax ay v_x v_y d => nmul (nmul (nmul (pow01 dx ax) (pow01 dy ay)) (gradbpy x y ax ay v_x v_y dx dy xo yo)) d)).
  f_equal. nr. unfold Rdiv. ring.
Qed.

(** exactness on bicubics *)
Lemma H2w_exact (fx fy : bool) c x0 y0 hx hy ex ey : hx <> 0 -> hy <> 0 ->
  let Q f := at_corners f x0 y0 hx hy in
  let N := nodals (Q (bicubic false false c)) (Q (bicubic true false c)) (Q (bicubic false true c)) (Q (bicubic true true c)) in
  H2w (wts fx ex) (wts fy ey) (N q0) (N q1) (N q2) (N q3) (V3 hx hy 0)
  = bicubic fx fy c (x0 + ex * hx) (y0 + ey * hy) * (if fx then hx else 1) * (if fy then hy else 1).
Proof.
  intros Hx Hy Q N. unfold N, Q, nodals, N_of, at_corners, H2w, Hw, bicubic, tricubic, P1, cubic, cubic'.
  cbn [q0 q1 q2 q3 q_phi q_psi q_m0 vx vy vz].
  destruct fx, fy; cbn [wts]; unfold bern, bern', B0, B1, B2, B3, B0_Prime, B1_Prime, B2_Prime, B3_Prime, sqr, cube; nr; field.
Qed.

Lemma ref_exact c x y x0 y0 dx dy : dx <> 0 -> dy <> 0 ->
  let Q f := at_corners f x0 y0 dx dy in
  let phi := Q (bicubic false false c) in let psix := Q (bicubic true false c) in
  let psiy := Q (bicubic false true c) in let psixy := Q (bicubic true true c) in
  hp phi psix psiy psixy x y x0 y0 dx dy = bicubic false false c x y /\
  hermx phi psix psiy psixy x y x0 y0 dx dy = bicubic true false c x y /\
  hermy phi psix psiy psixy x y x0 y0 dx dy = bicubic false true c x y.
Proof.
  intros Hx Hy Q phi psix psiy psixy. rewrite hp_H2w, hermx_H2w, hermy_H2w.
  unfold phi, psix, psiy, psixy, Q. rewrite !H2w_exact by assumption.
  replace (x0 + (x - x0) / dx * dx) with x by (field; auto). replace (y0 + (y - y0) / dy * dy) with y by (field; auto).
  repeat split; field; auto.
Qed.

(** the gradients are derivatives *)
Lemma affine_comp (f : R -> R) l t x0 h : derivable_pt_lim f ((t - x0) / h) l ->
  derivable_pt_lim (fun t => f ((t - x0) / h)) t (l * / h).
Proof.
  intros H. replace (l * / h) with (l * (1 * / h)) by ring.
  apply (derivable_pt_lim_comp (fun t => (t - x0) / h) f t (1 * / h) l); [|exact H].
  apply is_derive_Reals. auto_derive; [auto|]. ring.
Qed.
Lemma hp_derive phi psix psiy psixy x y xo yo dx dy :
  derivable_pt_lim (fun x => hp phi psix psiy psixy x y xo yo dx dy) x (hermx phi psix psiy psixy x y xo yo dx dy) /\
  derivable_pt_lim (fun y => hp phi psix psiy psixy x y xo yo dx dy) y (hermy phi psix psiy psixy x y xo yo dx dy).
Proof.
  split.
  - eapply derivable_pt_lim_ext; [intros t; symmetry; apply hp_H2w|]. rewrite hermx_H2w.
    apply (affine_comp (fun e => H2w (wts false e) (wts false ((y - yo) / dy)) (nodals phi psix psiy psixy q0) (nodals phi psix psiy psixy q1)
      (nodals phi psix psiy psixy q2) (nodals phi psix psiy psixy q3) (V3 dx dy 0))).
    unfold H2w. apply Hw_derive.
  - eapply derivable_pt_lim_ext; [intros t; symmetry; apply hp_H2w|]. rewrite hermy_H2w.
    apply (affine_comp (fun e => H2w (wts false ((x - xo) / dx)) (wts false e) (nodals phi psix psiy psixy q0) (nodals phi psix psiy psixy q1)
      (nodals phi psix psiy psixy q2) (nodals phi psix psiy psixy q3) (V3 dx dy 0))).
    unfold H2w. apply Hw_linear; [apply four_bern| | | |]; apply Hw_derive.
Qed.

