(** Vocabulary for the solutions of the level set equation. *)
From Coq Require Import ZArith Reals.
From Verif Require Import Base Num ModelVec ModelRefMath ModelRefMem ModelRef SpecRef SpecRefRun SpecRefOrder.
Open Scope R_scope.

(** u(x, y, s) satisfies u_s + Velx u_x + Vely u_y = 0 from time lo to time hi. *)
Definition solves (F : flow R) (Tp lo hi : R) (u : R -> R -> R -> R) : Prop := exists ux uy us, diff3 u ux uy us /\
  forall x y s, lo <= s <= hi -> us x y s + Velx F x y s Tp * ux x y s + Vely F x y s Tp * uy x y s = 0.
(** The point (x, y) keeps a distance of more than d from the edges of the box. *)
Definition deep (s : settings R) (x y d : R) : Prop := inside (s_xlim1 s + d) (s_xlim2 s - d) x /\ inside (s_ylim1 s + d) (s_ylim2 s - d) y.
