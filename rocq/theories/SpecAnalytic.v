(** Independent vocabulary for the analytical fields. *)
From Coq Require Import ZArith List String Reals.
From Verif Require Import Base Num NumB64 ModelVec ModelGrid ModelArray ModelAnalytic SpecGrid.
Open Scope R_scope.

(** Euclidean distance *)
Definition distance (p q : vec3 R) : R :=
  sqrt ((vx p - vx q) ^ 2 + (vy p - vy q) ^ 2 + (vz p - vz q) ^ 2).

(** angular speed of the CIRCULAR field, pi / 3.15 *)
Definition omega : R := PI / (315 / 100).

(** rigid rotation with angular speed w about the vertical line through (cx, cy) *)
Definition rotation (w cx cy : R) (p : vec3 R) : vec3 R := V3 (w * (cy - vy p)) (w * (vx p - cx)) 0.

(** the static name map after an arbitrary history of lookups in the same program *)
Definition after_lookups {E} (dflt : E) (m0 : name_map E) (hist : list string) : name_map E :=
  fold_left (fun m key => snd (map_index dflt m key)) hist m0.

(** only the interior of the velocity may change; the gradient is described separately *)
Definition only_velocity {T} {NT : Num T} (ov : ovmode) (dim : nat) (n : vec3 Z) (pad : Z) (g : grid T) (lv lv' : ls_velocity T) : Prop :=
  array_on g (lv_vel lv') /\ array_on g (lv_grad lv') /\
  forall i j k, padded_cell dim n pad (i, j, k) -> ~ interior_cell n (i, j, k) ->
    aget ov g (lv_vel lv') i j k = aget ov g (lv_vel lv) i j k.

(** the two ghost cells with the smallest indices, first and second in memory *)
Definition corner (dim : nat) (pad : Z) : cell := ((- pad)%Z, (- pad)%Z, if used dim AZ then (- pad)%Z else 0%Z).
Definition corner1 (dim : nat) (pad : Z) : cell := ((1 - pad)%Z, (- pad)%Z, if used dim AZ then (- pad)%Z else 0%Z).
(** the first two entries of the first row replaced by 0, -coeff and by coeff, 0 *)
Definition grad0 {T} {NT : Num T} {TT : Trans T} (d : mat3 T) : mat3 T := mset (mset d AX AX (nofZ 0)) AX AY (nofZ 0 - circ_coeff)%num.
Definition grad1 {T} {NT : Num T} {TT : Trans T} (d : mat3 T) : mat3 T := mset (mset d AX AX circ_coeff) AX AY (nofZ 0).
(** the velocity CIRCULAR gives for a centre list c0, c1, ... *)
Definition circ_vel {T} {NT : Num T} {TT : Trans T} (c0 c1 : T) (p : vec3 T) : vec3 T :=
  V3 (circ_coeff * (c0 - vy p))%num (circ_coeff * (vx p - c1))%num (nofZ 0).
