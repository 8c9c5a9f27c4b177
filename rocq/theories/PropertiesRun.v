(** Several semi-Lagrangian steps in a row: C118. *)
From Coq Require Import ZArith List Reals.
From Verif Require Import Base Num ModelVec ModelGrid ModelArray ModelInterp ModelTemporal ModelRun SpecGrid SpecInterp SpecTemporal SpecRun
  ProofsInterpApi ProofsRun ProofsRunCases ProofsRunMixed.
Import ListNotations.
Open Scope R_scope.

(** *** C118: any number of steps at rest change nothing *)
Theorem C118_rest : forall ov dim n bmin bmax (g : grid R),
  built ov dim n 1 bmin bmax g -> proper_box dim bmin bmax -> interp_defined ov dim ->
  forall sched l, levelset_on g l -> Forall (at_rest ov n g) sched ->
  exists l', sl_steps ov g sched l = Ok l' /\ levelset_on g l' /\
    forall i j k, padded_cell dim n 1 (i, j, k) -> exists psi y,
      aget ov g (ls_phi l') i j k = aget ov g (ls_phi l) i j k /\
      aget ov g (ls_psi l) i j k = Ok psi /\ aget ov g (ls_psi l') i j k = Ok y /\
      forall a, used dim a = true -> vget y a = vget psi a.
Proof. exact steps_rest. Qed.
Print Assumptions C118_rest.
Example C118_rest_example : forall S, exists g l lv,
  built Trap 3 (V3 2 3 4)%Z 1 lo1 hi1 g /\ proper_box 3 lo1 hi1 /\ interp_defined Trap 3 /\ levelset_on g l /\
  stores Trap 3 (V3 2 3 4)%Z 1 g (keep_prev l) S /\ Forall (at_rest Trap (V3 2 3 4)%Z g) [(1 / 2, lv); (3, lv); (0, lv)].
Proof. exact c118_rest_case. Qed.

(** Any number of steps of a uniform flow move a polynomial exactly, in the cells that the ghost layers
    cannot have reached, if its mixed derivatives are the same everywhere. *)
Theorem C118_translation_partial : forall ov dim n bmin bmax (g : grid R) l c sched ds,
  built ov dim n 1 bmin bmax g -> levelset_on g l -> proper_box dim bmin bmax -> interp_defined ov dim ->
  sampled ov dim n 1 bmin bmax g (keep_prev l) c -> uniform_mixed dim c ->
  Forall2 (moves_by ov n g) sched ds -> Forall (within_a_cell dim n bmin bmax) ds ->
  exists l', sl_steps ov g sched l = Ok l' /\
    forall i j k, depth dim n (Z.of_nat (length sched)) (i, j, k) -> exists p y, node ov g i j k = Ok p /\
      aget ov g (ls_phi l') i j k = Ok (poly c (flat dim (back (vtotal ds) p))) /\ aget ov g (ls_psi l') i j k = Ok y /\
      forall a, used dim a = true -> vget y a = dpoly a c (flat dim (back (vtotal ds) p)).
Proof. exact steps_translate. Qed.
Print Assumptions C118_translation_partial.
Example C118_example : exists g l lv,
  built Wrap 2 (V3 4 3 1)%Z 1 lo1 hi1 g /\ levelset_on g l /\ proper_box 2 lo1 hi1 /\ interp_defined Wrap 2 /\
  sampled Wrap 2 (V3 4 3 1)%Z 1 lo1 hi1 g (keep_prev l) mixed2 /\ uniform_mixed 2 mixed2 /\
  let sched := [(1 / 10, lv); (- 1 / 5, lv)] in let ds := [V3 (1 / 10 * 1) (1 / 10 * - 2) (1 / 10 * 0); V3 (- 1 / 5 * 1) (- 1 / 5 * - 2) (- 1 / 5 * 0)] in
  Forall2 (moves_by Wrap (V3 4 3 1)%Z g) sched ds /\ Forall (within_a_cell 2 (V3 4 3 1)%Z lo1 hi1) ds /\
  depth 2 (V3 4 3 1)%Z (Z.of_nat (length sched)) (2, 1, 0)%Z.
Proof. exact c118_case. Qed.

(** The restriction to inner cells is needed: the field x moved twice by half a cell is wrong in the first
    cell, because nothing ever writes the ghost cells. *)
Theorem C118_boundary_refuted : exists g l lv l',
  built Wrap 1 (V3 5 1 1)%Z 1 lo1 hi1 g /\ levelset_on g l /\
  sampled Wrap 1 (V3 5 1 1)%Z 1 lo1 hi1 g (keep_prev l) ident /\ uniform_mixed 1 ident /\
  moves_by Wrap (V3 5 1 1)%Z g (1 / 5, lv) (V3 (1 / 5) 0 0) /\ within_a_cell 1 (V3 5 1 1)%Z lo1 hi1 (V3 (1 / 5) 0 0) /\
  sl_steps Wrap g [(1 / 5, lv); (1 / 5, lv)] l = Ok l' /\
  node Wrap g 0 0 0 = Ok (V3 (- 4 / 5) 0 0) /\
  poly ident (flat 1 (back (vtotal [V3 (1 / 5) 0 0; V3 (1 / 5) 0 0]) (V3 (- 4 / 5) 0 0))) = - 12 / 10 /\
  aget Wrap g (ls_phi l') 0 0 0 = Ok (- 11 / 10).
Proof. exact c118_boundary. Qed.
Print Assumptions C118_boundary_refuted.

(** So is the condition on the mixed derivatives: they are never transported, and x^2 y moved twice has a
    wrong gradient even in the middle of the grid. *)
Theorem C118_mixed_refuted : exists g l lv l' y,
  built Wrap 2 (V3 4 3 1)%Z 1 lo1 hi1 g /\ levelset_on g l /\
  sampled Wrap 2 (V3 4 3 1)%Z 1 lo1 hi1 g (keep_prev l) xxy /\
  moves_by Wrap (V3 4 3 1)%Z g (1 / 8, lv) (V3 (1 / 8) 0 0) /\ within_a_cell 2 (V3 4 3 1)%Z lo1 hi1 (V3 (1 / 8) 0 0) /\
  sl_steps Wrap g [(1 / 8, lv); (1 / 8, lv)] l = Ok l' /\ depth 2 (V3 4 3 1)%Z 2 (2, 1, 0)%Z /\
  node Wrap g 2 1 0 = Ok (V3 (1 / 4) 0 0) /\
  dpoly AY xxy (flat 2 (back (vtotal [V3 (1 / 8) 0 0; V3 (1 / 8) 0 0]) (V3 (1 / 4) 0 0))) = 0 /\
  aget Wrap g (ls_psi l') 2 1 0 = Ok y /\ vy y = - 3 / 256.
Proof. exact c118_mixed. Qed.
Print Assumptions C118_mixed_refuted.
