(** Concrete cases for the pointwise reference properties. *)
From Coq Require Import ZArith List Reals Lra Lia.
From Coquelicot Require Import Coquelicot.
From Verif Require Import Base Num NumB64 ModelVec SpecInterp ModelRefMath SpecRef ProofsRefHermite ProofsRefMath ProofsRefTrace.
Open Scope R_scope.

Lemma hp1D_wrong p0 p1 s0 s1 xo dx : dx <> 0 -> dx <> 1 ->
  (s0 <> 0 -> ~ derivable_pt_lim (fun x => hp1D p0 p1 s0 s1 x xo dx) xo s0) /\
  (s1 <> 0 -> ~ derivable_pt_lim (fun x => hp1D p0 p1 s0 s1 x xo dx) (xo + dx) s1).
Proof.
  intros H0 H1. destruct (hp1D_ends p0 p1 s0 s1 xo dx H0) as (_ & _ & D0 & D1).
  assert (G : forall s, s <> 0 -> s / dx = s -> False).
  { intros s Hs E. apply H1. apply Rmult_eq_reg_l with s; [|exact Hs]. rewrite <- E at 1. field. exact H0. }
  split; intros Hs D; apply (G _ Hs); eapply uniqueness_limite; eauto.
Qed.

Lemma vortex_nonzero : Velx (vortex : flow R) (1 / 2) (1 / 4) 0 1 = 1.
Proof.
  unfold vortex. cbn [Velx]. unfold sqr. nr.
  replace (PI * (1 / 2)) with (PI / 2) by field. replace (2 * PI * (1 / 4)) with (PI / 2) by field.
  replace (PI * 0 / 1) with 0 by field. rewrite sin_PI2, cos_0. ring.
Qed.

Lemma trace_case : exists F X Y, velocity_is F 1 (fun _ _ s => cubic (fun i => INR i) s) (fun _ _ s => cubic (fun i => 1) s) /\
  (forall s, derivable_pt_lim X s (cubic (fun i => INR i) s)) /\ (forall s, derivable_pt_lim Y s (cubic (fun i => 1) s)) /\
  X ((IZR 3 + 1) * (1 / 8)) = 1 / 3 /\ Y ((IZR 3 + 1) * (1 / 8)) = 1 / 4.
Proof.
  exists (mkFlow (fun _ _ s _ => cubic (fun i => INR i) s) (fun _ _ s _ => cubic (fun i => 1) s)
     (fun _ _ _ _ => 0) (fun _ _ _ _ => 0) (fun _ _ _ _ => 0) (fun _ _ _ _ => 0)).
  set (c := fun a => quartic a ((IZR 3 + 1) * (1 / 8))).
  assert (D : forall a k s, derivable_pt_lim (fun s => quartic a s + k) s (cubic a s)).
  { intros a k s. replace (cubic a s) with (cubic a s + 0) by ring.
    apply (derivable_pt_lim_plus (quartic a) (fun _ => k)); [apply quartic_derive|apply derivable_pt_lim_const]. }
  exists (fun s => quartic (fun i => INR i) s + (1 / 3 - c (fun i => INR i))), (fun s => quartic (fun _ => 1) s + (1 / 4 - c (fun _ => 1))).
  split; [intros x y s; split; reflexivity|]. split; [intros; apply D|]. split; [intros; apply D|].
  unfold c. split; ring.
Qed.

(** The centre of the vortex does not move, and its velocity gradient is a rotation. *)
Lemma vortex_centre t : let F : flow R := vortex in
  Velx F (1 / 2) (1 / 2) t 1 = 0 /\ Vely F (1 / 2) (1 / 2) t 1 = 0 /\
  gradUx F (1 / 2) (1 / 2) t 1 = 0 /\ gradVy F (1 / 2) (1 / 2) t 1 = 0 /\
  gradUy F (1 / 2) (1 / 2) t 1 = - (2 * PI * cos (PI * t)) /\ gradVx F (1 / 2) (1 / 2) t 1 = 2 * PI * cos (PI * t).
Proof.
  unfold vortex. cbn [Velx Vely gradUx gradUy gradVx gradVy]. unfold sqr. nr.
  replace (PI * (1 / 2)) with (PI / 2) by field. replace (2 * PI * (1 / 2)) with PI by field.
  replace (PI * t / 1) with (PI * t) by field. rewrite ?sin_PI2, ?cos_PI2, ?sin_PI, ?cos_PI. repeat split; ring.
Qed.

Lemma heun_wrong : exists x y xa ya rx ry t dt, step_number t /\ 0 < dt /\
  (xa, ya) = back_trace vortex true x y t dt 1 /\
  let s0 := IZR t * dt in
  Heuns_internal vortex x y xa ya rx ry t dt 1 <> heun (gradient_rhs vortex 1 x y xa ya s0) s0 dt (rx, ry).
Proof.
  exists (1 / 2), (1 / 2), (1 / 2), (1 / 2), 1, 0, 0%Z, (1 / 3).
  split; [unfold step_number; lia|]. split; [lra|]. split.
  - pose proof (fun t => proj1 (vortex_centre t)) as U. pose proof (fun t => proj1 (proj2 (vortex_centre t))) as V. cbv zeta in U, V.
    unfold back_trace, third_back, second_back, euler_back. nr. cbn [fst snd].
    rewrite !U, !V. f_equal; repeat (rewrite ?Rmult_0_r, ?Rmult_0_l, ?Rminus_0_r, ?Rplus_0_r; rewrite ?U, ?V); try lra.
  - cbv zeta. intros E.
    assert (S : step_number 0) by (unfold step_number; lia).
    pose proof (heuns_internal vortex 1 (1 / 2) (1 / 2) (1 / 2) (1 / 2) 1 0 0 (1 / 3) S ltac:(lra)) as [_ H].
    cbv zeta in H. rewrite <- E in H.
    assert (X : 1 / 3 / 2 * gradUy vortex (1 / 2) (1 / 2) (0 * (1 / 3) + 1 / 3) 1 *
       (fst (heun (gradient_rhs vortex 1 (1 / 2) (1 / 2) (1 / 2) (1 / 2) (0 * (1 / 3))) (0 * (1 / 3)) (1 / 3) (1, 0)) -
        (1 - 1 / 3 * (gradUx vortex (1 / 2) (1 / 2) (0 * (1 / 3)) 1 * 1 + gradVx vortex (1 / 2) (1 / 2) (0 * (1 / 3)) 1 * 0))) = 0).
    { rewrite <- E. lra. }
    clear H E. unfold heun, gradient_rhs in X. cbn [fst snd] in X.
    destruct (Req_EM_T (0 * (1 / 3)) (0 * (1 / 3))) as [_|N]; [|contradiction].
    destruct (Req_EM_T (0 * (1 / 3) + 1 / 3) (0 * (1 / 3))) as [N|_]; [lra|].
    destruct (vortex_centre (0 * (1 / 3))) as (_ & _ & A1 & A2 & A3 & A4).
    destruct (vortex_centre (0 * (1 / 3) + 1 / 3)) as (_ & _ & B1 & B2 & B3 & B4).
    cbv zeta in *. rewrite A1, A3, A4, B1, B3, B4 in X.
    replace (PI * (0 * (1 / 3))) with 0 in X by ring. replace (PI * (0 * (1 / 3) + 1 / 3)) with (PI / 3) in X by field.
    rewrite cos_0, cos_PI3 in X.
    assert (Y : PI * PI * PI = 0) by nra.
    pose proof PI_RGT_0. pose proof (Rmult_lt_0_compat _ _ (Rmult_lt_0_compat _ _ H H) H). lra.
Qed.
