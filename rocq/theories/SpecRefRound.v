(** Vocabulary for the Hermite interpolation of the reference programs in double arithmetic. *)
From Coq Require Import ZArith Reals.
From Flocq Require Import Core BinarySingleNaN.
From Verif Require Import Base Num NumB64 ModelVec ModelRefMath SpecGrid SpecB64 SpecRound.
Open Scope R_scope.

(** The reals four doubles stand for. *)
Definition qreals (q : quad b64) : quad R := mkQuad (real (q0 q)) (real (q1 q)) (real (q2 q)) (real (q3 q)).
(** Four finite doubles, at most M once multiplied by w. *)
Definition corner_size (w M : R) (q : quad b64) : Prop := forall z, z = q0 q \/ z = q1 q \/ z = q2 q \/ z = q3 q -> is_finite z = true /\ Rabs (real z) * w <= M.
(** A position at most two cells of size d away from the corner o of the cell, in finite doubles; d neither tiny nor huge. *)
Definition within_reach (v o d : b64) : Prop :=
  is_finite v = true /\ is_finite o = true /\ is_finite d = true /\ moderate (real d) /\ Rabs (real v - real o) <= 2 * real d.
(** The data of a cell in double: values at most M, derivatives at most M once multiplied by the cell sizes. *)
Definition cell_size (phi psix psiy psixy : quad b64) (dx dy M : R) : Prop :=
  moderate M /\ corner_size 1 M phi /\ corner_size dx M psix /\ corner_size dy M psiy /\ corner_size (dx * dy) M psixy.
