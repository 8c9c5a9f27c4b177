(** Vocabulary for the analytical fields in double arithmetic. *)
From Coq Require Import ZArith Reals.
From Flocq Require Import Core BinarySingleNaN.
From Verif Require Import Base Num NumB64 ModelVec ModelGrid ModelArray SpecGrid SpecB64 SpecRound.
Open Scope R_scope.

(** a finite double of size at most A; three of them *)
Definition at_most (A : R) (z : b64) : Prop := is_finite z = true /\ Rabs (real z) <= A.
Definition point_at_most (A : R) (p : vec3 b64) : Prop := at_most A (vx p) /\ at_most A (vy p) /\ at_most A (vz p).

(** The array holds, in every interior cell, three finite doubles of size at most A. *)
Definition points_at_most (ov : ovmode) (n : vec3 Z) (g : grid b64) (pos : array (vec3 b64)) (A : R) : Prop :=
  forall i j k, interior_cell n (i, j, k) -> exists p, aget ov g pos i j k = Ok p /\ point_at_most A p.

(** The array holds the positions of the interior cells of the grid. *)
Definition holds_positions (ov : ovmode) (n : vec3 Z) (g : grid b64) (pos : array (vec3 b64)) : Prop :=
  forall i j k, interior_cell n (i, j, k) -> exists p, node ov g i j k = Ok p /\ aget ov g pos i j k = Ok p.

(** The box lies within A of the origin, on every used axis. *)
Definition box_within (dim : nat) (A : R) (bmin bmax : vec3 b64) : Prop :=
  forall a, used dim a = true -> reach (vget bmin a) (vget bmax a) <= A.
