(** Vocabulary for the existence and the reversal of solutions of the level set equation. *)
From Coq Require Import Reals.
From Coquelicot Require Import Derive_2d.
From Verif Require Import Base Num ModelVec ModelRefMath.
Open Scope R_scope.

(** f has a tangent plane everywhere. *)
Definition differentiable (f : R -> R -> R) : Prop := forall x y, exists a b, differentiable_pt_lim f x y a b.
(** In the second half of the period the flow runs backwards through the velocities of the first half. *)
Definition reverses (F : flow R) (Tp : R) : Prop := forall x y s, Velx F x y (Tp - s) Tp = - Velx F x y s Tp /\ Vely F x y (Tp - s) Tp = - Vely F x y s Tp.
