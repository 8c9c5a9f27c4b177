(** Independent vocabulary for several time steps in a row. *)
From Coq Require Import ZArith List Reals.
From Verif Require Import Base Num ModelVec ModelGrid ModelArray SpecGrid SpecInterp SpecTemporal.
Open Scope R_scope.

(** p - d *)
Definition back (d p : vec3 R) : vec3 R := V3 (vx p - vx d) (vy p - vy d) (vz p - vz d).
(** sum of displacements *)
Definition vplus (u v : vec3 R) : vec3 R := V3 (vx u + vx v) (vy u + vy v) (vz u + vz v).
Definition vtotal (ds : list (vec3 R)) : vec3 R :=
  fold_right vplus (V3 0 0 0) ds.

(** One step (time step, velocity) moves every particle by d: the velocity is the same in every
    interior cell and its stored gradient is 0. *)
Definition moves_by (ov : ovmode) (n : vec3 Z) (g : grid R) (s : R * ls_velocity R) (d : vec3 R) : Prop :=
  velocity_on g (snd s) /\
  forall i j k, interior_cell n (i, j, k) -> exists v m,
    aget ov g (lv_vel (snd s)) i j k = Ok v /\ aget ov g (lv_grad (snd s)) i j k = Ok m /\
    (forall r a, mget m r a = 0) /\ forall a, fst s * vget v a = vget d a.
(** by at most one cell *)
Definition within_a_cell (dim : nat) (n : vec3 Z) (bmin bmax d : vec3 R) : Prop :=
  forall a, used dim a = true ->
    let h := spacing (vget bmin a) (vget bmax a) (vget n a) in - h < vget d a <= h.

(** At least m layers inside the first and the last ghost layer (padding 1): depth 0 is every cell,
    depth 1 every interior cell. *)
Definition depth (dim : nat) (n : vec3 Z) (m : Z) (c : cell) : Prop :=
  forall a, if used dim a then (m - 1 <= ccoord c a <= vget n a - m)%Z else ccoord c a = 0%Z.

(** Mixed derivatives that do not depend on the position (none are stored in 1-D). *)
Definition uniform_mixed (dim : nat) (c : nat -> nat -> nat -> R) : Prop :=
  forall p q, let p := flat dim p in let q := flat dim q in
    ((2 <= dim)%nat -> tricubic true true false c p = tricubic true true false c q) /\
    ((3 <= dim)%nat -> tricubic false true true c p = tricubic false true true c q /\
       tricubic true false true c p = tricubic true false true c q /\
       tricubic true true true c p = tricubic true true true c q).

(** A step that moves nothing: no time passes, or velocity and velocity gradient are 0. *)
Definition at_rest ov n (g : grid R) (s : R * ls_velocity R) : Prop :=
  velocity_on g (snd s) /\
  (fst s = 0 \/ forall i j k, interior_cell n (i, j, k) ->
     aget ov g (lv_vel (snd s)) i j k = Ok (V3 0 0 0) /\ exists m, aget ov g (lv_grad (snd s)) i j k = Ok m /\ forall r a, mget m r a = 0).
