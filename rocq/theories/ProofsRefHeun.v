(** The gradient update of nodes whose characteristic leaves the box through one side. *)
From Coq Require Import ZArith List Reals Lra Lia.
From Coquelicot Require Import Derive_2d.
From Verif Require Import Base Num NumB64 ModelVec ModelRefMath SpecRef ProofsRefHermite ProofsRefMath ProofsRefTrace ProofsRefCases.
Open Scope R_scope.

Lemma boundary_heun F Tp x y rx ry pxy p t dt : step_number t ->
  let s0 := IZR t * dt in
  Heuns_X F x y rx ry pxy p t dt Tp =
    heun1 (fun s q => - (gradUx F x y s Tp * q + gradVx F x y s Tp * ry + Vely F x y s Tp * pxy)) s0 dt rx
      - dt / 2 * gradUx F x y s0 Tp * (p - rx) * (1 - dt * gradUx F x y (s0 + dt) Tp) /\
  Heuns_Y F x y rx ry pxy p t dt Tp =
    heun1 (fun s q => - (gradUy F x y s Tp * rx + gradVy F x y s Tp * q + Velx F x y s Tp * pxy)) s0 dt ry
      - dt / 2 * gradVy F x y s0 Tp * (p - ry) * (1 - dt * gradVy F x y (s0 + dt) Tp).
Proof.
  intros Ht s0.
  assert (E1 : time_at (t + 1) dt = s0 + dt) by (rewrite time_at_R1 by assumption; unfold s0; ring).
  assert (E0 : time_at t dt = s0) by (apply time_at_R; assumption).
  unfold Heuns_X, Heuns_Y, heun1. cbv zeta. rewrite E1, E0. clearbody s0. nr. split; field.
Qed.

(** the velocity (x, -y) *)
Definition saddle : flow R := mkFlow (fun x _ _ _ => x) (fun _ y _ _ => - y) (fun _ _ _ _ => 1) (fun _ _ _ _ => 0) (fun _ _ _ _ => 0) (fun _ _ _ _ => - 1).
Lemma saddle_true Tp : true_gradients saddle Tp.
Proof.
  intros x y s. split; cbn.
  - apply (d_ext (fun u v => 1 * u + 0 * v + 0)); [intros; ring|apply d_lin].
  - apply (d_ext (fun u v => 0 * u + (- 1) * v + 0)); [intros; ring|apply d_lin].
Qed.
Lemma boundary_wrong : exists F x y rx ry pxy p t dt, true_gradients F 1 /\ step_number t /\ 0 < dt /\
  let s0 := IZR t * dt in
  Heuns_X F x y rx ry pxy p t dt 1 <>
    heun1 (fun s q => - (gradUx F x y s 1 * q + gradVx F x y s 1 * ry + Vely F x y s 1 * pxy)) s0 dt rx /\
  Heuns_Y F x y rx ry pxy p t dt 1 <>
    heun1 (fun s q => - (gradUy F x y s 1 * rx + gradVy F x y s 1 * q + Velx F x y s 1 * pxy)) s0 dt ry.
Proof.
  exists saddle, 1, 1, 0, 0, 0, 1, 0%Z, (1 / 2). split; [apply saddle_true|]. split; [unfold step_number; lia|]. split; [lra|]. cbv zeta.
  destruct (boundary_heun saddle 1 1 1 0 0 0 1 0 (1 / 2)) as [E1 E2]; [unfold step_number; lia|]. rewrite E1, E2. cbn [saddle gradUx gradVy].
  split; intros H; lra.
Qed.
