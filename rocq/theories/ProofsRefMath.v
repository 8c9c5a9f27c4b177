(** The pointwise functions of the reference code over the reals. *)
From Coq Require Import ZArith List Reals Lra Lia Psatz.
From Coquelicot Require Import Coquelicot.
From Verif Require Import Base Num NumB64 ModelVec ModelGrid ModelArray ModelInterp SpecGrid SpecInterp
  ProofsHermite ProofsHermiteCell ModelRefMath SpecRef ProofsCalc ProofsRefHermite.
Open Scope R_scope.

(** *** hp1D *)
Lemma hp1D_ends p0 p1 s0 s1 xo dx : dx <> 0 ->
  hp1D p0 p1 s0 s1 xo xo dx = p0 /\ hp1D p0 p1 s0 s1 (xo + dx) xo dx = p1 /\
  derivable_pt_lim (fun x => hp1D p0 p1 s0 s1 x xo dx) xo (s0 / dx) /\
  derivable_pt_lim (fun x => hp1D p0 p1 s0 s1 x xo dx) (xo + dx) (s1 / dx).
Proof.
  intros H. unfold hp1D, sqr, cube. nr. repeat split; try (field; auto).
  all: apply is_derive_Reals; auto_derive; auto; field; auto.
Qed.

(** *** Vortex *)
Lemma vortex_props x y t Tp :
  let F : flow R := vortex in
  derivable_pt_lim (fun x => Velx F x y t Tp) x (gradUx F x y t Tp) /\
  derivable_pt_lim (fun y => Velx F x y t Tp) y (gradUy F x y t Tp) /\
  derivable_pt_lim (fun x => Vely F x y t Tp) x (gradVx F x y t Tp) /\
  derivable_pt_lim (fun y => Vely F x y t Tp) y (gradVy F x y t Tp) /\
  gradUx F x y t Tp + gradVy F x y t Tp = 0.
Proof.
  cbv zeta. unfold vortex. cbn [Velx Vely gradUx gradUy gradVx gradVy]. unfold sqr. nr.
  assert (S : forall a, sin (2 * PI * a) = 2 * sin (PI * a) * cos (PI * a)).
  { intros a. rewrite <- sin_2a. f_equal. ring. }
  repeat split.
  - apply is_derive_Reals. auto_derive; [auto|]. rewrite (S x). ring.
  - apply is_derive_Reals. auto_derive; [auto|]. ring.
  - apply is_derive_Reals. auto_derive; [auto|]. ring.
  - apply is_derive_Reals. auto_derive; [auto|]. rewrite (S y). ring.
  - ring.
Qed.

Lemma vortex_boundary x y t Tp :
  let F : flow R := vortex in
  Velx F 0 y t Tp = 0 /\ Velx F 1 y t Tp = 0 /\ Vely F x 0 t Tp = 0 /\ Vely F x 1 t Tp = 0.
Proof.
  cbv zeta. unfold vortex. cbn [Velx Vely]. unfold sqr. nr.
  rewrite !Rmult_0_r, !Rmult_1_r, sin_0, sin_PI. repeat split; ring.
Qed.

Lemma vortex_reverses x y t Tp : Tp <> 0 ->
  let F : flow R := vortex in
  Velx F x y (Tp - t) Tp = - Velx F x y t Tp /\ Vely F x y (Tp - t) Tp = - Vely F x y t Tp.
Proof.
  intros H. cbv zeta. unfold vortex. cbn [Velx Vely]. unfold sqr. nr.
  replace (PI * (Tp - t) / Tp) with (PI - PI * t / Tp) by (field; auto).
  rewrite cos_minus, cos_PI, sin_PI. split; ring.
Qed.

(** *** Initial level set *)
Lemma initialize_sign x y :
  let d2 := (x - 1 / 2) ^ 2 + (y - 3 / 4) ^ 2 in let r2 := (15 / 100) ^ 2 in
  (initialize x y = 0 <-> d2 = r2) /\ (0 < initialize x y <-> d2 < r2) /\ (initialize x y < 0 <-> r2 < d2).
Proof.
  cbv zeta. unfold initialize, bump, init_xo, init_yo, rcircle, sqr. nr.
  replace (0 - ((x - 1 / 2) * (x - 1 / 2) + (y - 3 / 4) * (y - 3 / 4))) with (- ((x - 1 / 2) ^ 2 + (y - 3 / 4) ^ 2)) by ring.
  replace (0 - 15 / 100 * (15 / 100)) with (- (15 / 100) ^ 2) by ring.
  set (a := (x - 1 / 2) ^ 2 + (y - 3 / 4) ^ 2). set (b := (15 / 100) ^ 2). clearbody a b.
  destruct (Rtotal_order a b) as [H|[H|H]].
  - pose proof (exp_increasing (- b) (- a) ltac:(lra)). repeat split; intros; lra.
  - subst b. repeat split; intros; lra.
  - pose proof (exp_increasing (- a) (- b) ltac:(lra)). repeat split; intros; lra.
Qed.

Lemma initialize_derive x y :
  derivable_pt_lim (fun x => initialize x y) x (derivxinit x y) /\
  derivable_pt_lim (fun y => initialize x y) y (derivyinit x y) /\
  derivable_pt_lim (fun y => derivxinit x y) y (derivxyinit x y) /\
  derivable_pt_lim (fun x => derivyinit x y) x (derivxyinit x y).
Proof.
  unfold initialize, derivxinit, derivyinit, derivxyinit, bump, init_xo, init_yo, rcircle, sqr. nr.
  repeat split; apply is_derive_Reals; auto_derive; auto;
  repeat match goal with |- context [exp ?a] => lazymatch a with
    | - ((x - 1 / 2) ^ 2 + (y - 3 / 4) ^ 2) => fail
    | _ => replace a with (- ((x - 1 / 2) ^ 2 + (y - 3 / 4) ^ 2)) by field end end;
  field.
Qed.
