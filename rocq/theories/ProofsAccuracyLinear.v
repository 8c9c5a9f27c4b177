(** The error of linear interpolation. *)
From Coq Require Import ZArith List Reals Lra Lia.
From Verif Require Import Base Num ModelVec ModelGrid ModelArray ModelInterp SpecGrid SpecInterp SpecGradient
  ProofsBase ProofsGrid ProofsArray ProofsGridProps ProofsTaylor ProofsHermiteErr ProofsInterpApi ProofsGradientProps.
Open Scope R_scope.

Lemma chord_err f d1 d2 a h M : 0 < h -> derivs a (a + h) f [d1; d2] -> (forall t, a <= t <= a + h -> Rabs (d2 t) <= M) ->
  forall x, a <= x <= a + h -> Rabs (f a + (x - a) / h * (f (a + h) - f a) - f x) <= h ^ 2 / 8 * M.
Proof.
  intros Hh (D1 & D2 & _) HM x Hx.
  assert (M0 : 0 <= M) by (eapply Rle_trans; [apply Rabs_pos|apply (HM a); lra]).
  assert (P0 : 0 <= h ^ 2 / 8 * M) by (apply Rmult_le_pos; [pose proof (pow_le h 2); lra|exact M0]).
  destruct (Req_dec x a) as [->|Na].
  { replace (f a + (a - a) / h * (f (a + h) - f a) - f a) with 0 by (field; lra). rewrite Rabs_R0. exact P0. }
  destruct (Req_dec x (a + h)) as [->|Nb].
  { replace (f a + (a + h - a) / h * (f (a + h) - f a) - f (a + h)) with 0 by (field; lra). rewrite Rabs_R0. exact P0. }
  set (s := (f (a + h) - f a) / h). set (c := (f x - (f a + s * (x - a))) / ((x - a) * (x - (a + h)))).
  assert (Nz : (x - a) * (x - (a + h)) <> 0) by (apply Rmult_integral_contrapositive; split; lra).
  set (F := fun t => f t - (f a + s * (t - a)) - c * ((t - a) * (t - (a + h)))).
  set (F1 := fun t => d1 t - s - c * ((t - a) + (t - (a + h)))). set (F2 := fun t => d2 t - 2 * c).
  assert (L : forall k t, derivable_pt_lim (fun t => t - k) t 1).
  { intros k t. eapply d_eq; [apply (derivable_pt_lim_minus id (fun _ => k)); [apply derivable_pt_lim_id|apply d_const]|ring]. }
  assert (DF : forall t, a <= t <= a + h -> derivable_pt_lim F t (F1 t)).
  { intros t Ht. unfold F, F1. eapply d_eq.
    - apply (derivable_pt_lim_minus (fun t => f t - (f a + s * (t - a))) (fun t => c * ((t - a) * (t - (a + h))))).
      + apply (derivable_pt_lim_minus f (fun t => f a + s * (t - a))); [apply D1; lra|].
        apply (derivable_pt_lim_plus (fun _ => f a) (fun t => s * (t - a))); [apply d_const|].
        apply (derivable_pt_lim_scal (fun t => t - a) s). apply L.
      + apply (derivable_pt_lim_scal (fun t => (t - a) * (t - (a + h))) c).
        apply (derivable_pt_lim_mult (fun t => t - a) (fun t => t - (a + h))); apply L.
    - ring. }
  assert (DF1 : forall t, a <= t <= a + h -> derivable_pt_lim F1 t (F2 t)).
  { intros t Ht. unfold F1, F2. eapply d_eq.
    - apply (derivable_pt_lim_minus (fun t => d1 t - s) (fun t => c * ((t - a) + (t - (a + h))))).
      + apply (derivable_pt_lim_minus d1 (fun _ => s)); [apply D2; lra|apply d_const].
      + apply (derivable_pt_lim_scal (fun t => (t - a) + (t - (a + h))) c).
        apply (derivable_pt_lim_plus (fun t => t - a) (fun t => t - (a + h))); apply L.
    - ring. }
  assert (Za : F a = 0) by (unfold F; ring).
  assert (Zb : F (a + h) = 0) by (unfold F, s; field; lra).
  assert (Zx : F x = 0).
  { unfold F, c. field. split; lra. }
  destruct (rolle F F1 a x ltac:(lra) (fun t Ht => DF t ltac:(lra)) Za Zx) as (u & Hu & U).
  destruct (rolle F F1 x (a + h) ltac:(lra) (fun t Ht => DF t ltac:(lra)) Zx Zb) as (v & Hv & V).
  destruct (rolle F1 F2 u v ltac:(lra) (fun t Ht => DF1 t ltac:(lra)) U V) as (w & Hw & W).
  assert (E : f a + (x - a) / h * (f (a + h) - f a) - f x = d2 w / 2 * ((x - a) * (a + h - x))).
  { unfold F2 in W. replace (d2 w) with (2 * c) by lra. unfold c, s. field. repeat split; lra. }
  rewrite E, Rabs_mult. rewrite (Rabs_pos_eq ((x - a) * (a + h - x))) by (apply Rmult_le_pos; lra).
  assert (Q : (x - a) * (a + h - x) <= h ^ 2 / 4).
  { assert (0 <= ((x - a) - h / 2) * ((x - a) - h / 2)) by (apply Rle_0_sqr). replace ((x - a) * (a + h - x)) with (h ^ 2 / 4 - ((x - a) - h / 2) * ((x - a) - h / 2)) by field. lra. }
  assert (B : Rabs (d2 w / 2) <= M / 2).
  { unfold Rdiv. rewrite Rabs_mult, (Rabs_pos_eq (/ 2)) by lra. specialize (HM w ltac:(lra)). lra. }
  replace (h ^ 2 / 8 * M) with (M / 2 * (h ^ 2 / 4)) by field.
  apply Rmult_le_compat; [apply Rabs_pos|apply Rmult_le_pos; lra|exact B|exact Q].
Qed.

Lemma linear_error ov n bmin bmax (g : grid R) x (al : array R) f d1 d2 M :
  built ov 1 n 1 bmin bmax g -> array_on g al -> proper_box 1 bmin bmax -> interp_defined ov 1 -> in_lattice 1 n bmin bmax x ->
  let h := spacing (vx bmin) (vx bmax) (vx n) in
  derivs (vx bmin - h / 2) (vx bmax + h / 2) f [d1; d2] -> (forall t, vx bmin - h / 2 <= t <= vx bmax + h / 2 -> Rabs (d2 t) <= M) ->
  (forall i, padded_cell 1 n 1 (i, 0, 0)%Z -> exists p, node ov g i 0 0 = Ok p /\ aget ov g al i 0 0 = Ok (f (vx p))) ->
  exists v, linear_interp ov g x al = Ok v /\ Rabs (v - f (vx x)) <= h ^ 2 / 8 * M.
Proof.
  intros Hb Ha Hbox Hdef Hx h D HM HS.
  destruct (linear_props ov n bmin bmax g x al Hb Ha Hbox Hdef Hx) as (i & a0 & a1 & v & P0 & P1 & Hi & E0 & E1 & Ev & _ & Fv).
  exists v. split; [exact Ev|]. fold h in Fv.
  assert (C : forall i b, padded_cell 1 n 1 (i, 0, 0)%Z -> aget ov g al i 0 0 = Ok b -> b = f (centre (vx bmin) (vx bmax) (vx n) i)).
  { intros i' b Hp Eb. destruct (HS i' Hp) as (p & Np & E). destruct (node_at_centre_pad1 _ _ _ _ _ _ _ _ _ Hb Hp) as (p' & Np' & Vp).
    rewrite Np in Np'. injection Np' as <-. specialize (Vp AX). cbn [used Nat.leb vget ccoord] in Vp. rewrite Vp in E. congruence. }
  rewrite (C _ _ P0 E0), (C _ _ P1 E1) in Fv.
  assert (Hh : 0 < h) by (apply (ProofsInterp.h_pos ov 1 n 1 bmin bmax g Hb Hbox AX eq_refl)).
  assert (Ec : centre (vx bmin) (vx bmax) (vx n) (i + 1) = centre (vx bmin) (vx bmax) (vx n) i + h) by (unfold centre, h; rewrite plus_IZR; ring).
  rewrite Ec in Fv, Hi.
  assert (EN : vx bmin + IZR (vx n) * h = vx bmax).
  { unfold h, spacing. field. apply IZR_neq. pose proof (good_used _ _ _ AX (proj1 Hb) eq_refl) as G. cbn [vget] in G. lia. }
  pose proof (P0 AX) as Q0. pose proof (P1 AX) as Q1. cbn [used Nat.leb vget ccoord] in Q0, Q1.
  assert (B1 : vx bmin - h / 2 <= centre (vx bmin) (vx bmax) (vx n) i).
  { unfold centre. fold h. assert (L : -1 <= IZR i) by (apply IZR_le; lia). apply Rmult_le_compat_r with (r := h) in L; lra. }
  assert (B2 : centre (vx bmin) (vx bmax) (vx n) i + h <= vx bmax + h / 2).
  { unfold centre. fold h. assert (L : IZR i <= IZR (vx n) - 1) by (rewrite <- minus_IZR; apply IZR_le; lia). apply Rmult_le_compat_r with (r := h) in L; lra. }
  rewrite Fv. set (a := centre _ _ _ i) in *. apply (chord_err f d1 d2 a h M Hh).
  - destruct D as (D1 & D2 & _). repeat split; intros t Ht; [apply D1|apply D2]; lra.
  - intros t Ht. apply HM. lra.
  - lra.
Qed.

Lemma linear_error_case : exists g al,
  built Wrap 1 (V3 5 1 1)%Z 1 lo1 hi1 g /\ array_on g al /\ proper_box 1 lo1 hi1 /\ interp_defined Wrap 1 /\
  (forall lo hi, derivs lo hi sin [cos; fun t => - sin t]) /\ (forall t, Rabs (- sin t) <= 1) /\
  (forall i, padded_cell 1 (V3 5 1 1)%Z 1 (i, 0, 0)%Z -> exists p, node Wrap g i 0 0 = Ok p /\ aget Wrap g al i 0 0 = Ok (sin (vx p))).
Proof.
  destruct (built_1d (T := R) Wrap lo1 hi1) as (g & Hb).
  destruct (ProofsGradientProps.samples_exists _ _ _ _ _ _ g (fun p => sin (vx p)) Hb) as (al & A1 & A2).
  exists g, al. split; [exact Hb|]. split; [exact A1|]. split; [apply unit_box|]. split; [left; reflexivity|].
  split; [intros lo hi; repeat split; intros; [apply derivable_pt_lim_sin|apply derivable_pt_lim_cos]|].
  split; [intros t; pose proof (SIN_bound t); apply Rabs_le; lra|]. intros i Hi. exact (A2 i 0%Z 0%Z Hi).
Qed.
