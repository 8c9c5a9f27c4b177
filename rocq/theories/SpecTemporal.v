(** Independent vocabulary for the time steps. *)
From Coq Require Import ZArith List Reals.
From Verif Require Import Base Num ModelVec ModelGrid ModelArray SpecGrid SpecInterp.
Open Scope R_scope.

(** velocity and velocity gradient belong to the grid *)
Definition velocity_on {T} {NT : Num T} (g : grid T) (lv : ls_velocity T) : Prop :=
  array_on g (lv_vel lv) /\ array_on g (lv_grad lv).

(** the point from which velocity v carries a particle to p in time dt *)
Definition foot (dt : R) (v p : vec3 R) : vec3 R :=
  V3 (vx p - dt * vx v) (vy p - dt * vy v) (vz p - dt * vz v).

(** strictly between the first and the last ghost node *)
Definition inside_lattice (dim : nat) (n : vec3 Z) (bmin bmax x : vec3 R) : Prop :=
  forall a, used dim a = true ->
    let lo := vget bmin a in let hi := vget bmax a in let h := spacing lo hi (vget n a) in
    lo - h / 2 < vget x a < hi + h / 2.

(** What a time step may change: the interior of phi, psi and of the two interpolation buffers. *)
Record only_interior {T} {NT : Num T} (ov : ovmode) (dim : nat) (n : vec3 Z) (pad : Z) (g : grid T) (l l' : levelset T) : Prop := {
  oi_prev : ls_phi_prev l' = ls_phi_prev l /\ ls_psi_prev l' = ls_psi_prev l /\ ls_mix_prev l' = ls_mix_prev l;
  oi_mix : ls_mix l' = ls_mix l;
  oi_shape : array_on g (ls_phi l') /\ array_on g (ls_psi l') /\ array_on g (ls_phi_interp l') /\ array_on g (ls_psi_interp l');
  oi_ghost : forall i j k, padded_cell dim n pad (i, j, k) -> ~ interior_cell n (i, j, k) ->
    aget ov g (ls_phi l') i j k = aget ov g (ls_phi l) i j k /\
    aget ov g (ls_psi l') i j k = aget ov g (ls_psi l) i j k /\
    aget ov g (ls_phi_interp l') i j k = aget ov g (ls_phi_interp l) i j k /\
    aget ov g (ls_psi_interp l') i j k = aget ov g (ls_psi_interp l) i j k }.
(** An Euler step changes even less: only the interior of phi. *)
Record only_phi {T} {NT : Num T} (ov : ovmode) (dim : nat) (n : vec3 Z) (pad : Z) (g : grid T) (l l' : levelset T) : Prop := {
  op_prev : ls_phi_prev l' = ls_phi_prev l /\ ls_psi_prev l' = ls_psi_prev l /\ ls_mix_prev l' = ls_mix_prev l;
  op_rest : ls_mix l' = ls_mix l /\ ls_psi l' = ls_psi l /\ ls_phi_interp l' = ls_phi_interp l /\ ls_psi_interp l' = ls_psi_interp l;
  op_shape : array_on g (ls_phi l');
  op_ghost : forall i j k, padded_cell dim n pad (i, j, k) -> ~ interior_cell n (i, j, k) ->
    aget ov g (ls_phi l') i j k = aget ov g (ls_phi l) i j k }.
