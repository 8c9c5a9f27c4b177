(** One iteration of the program: C121. *)
From Coq Require Import ZArith List String Reals QArith.
From Verif Require Import Base Num NumB64 ModelVec ModelGrid ModelArray ModelInterp ModelGradient ModelTemporal ModelAnalytic ModelApp
  SpecGrid SpecInterp SpecGradient SpecTemporal ProofsInterpApi ProofsIteration.
Import ListNotations.
Open Scope R_scope.

(** *** C121: with two or more ghost layers an iteration keeps the level set and its gradient as previous
    fields and interpolates them at the points the flow came from.  (With one layer it is undefined: C44.) *)
Theorem C121_iteration_partial : forall ov bt dim n pad bmin bmax (g : grid R) vi pos (dt t : R) s lv' m',
  built ov dim n pad bmin bmax g -> (2 <= pad)%Z -> proper_box dim bmin bmax -> interp_defined ov dim ->
  levelset_on g (ap_ls s) -> av_compute ov bt g (ap_map s) vi pos t (ap_vel s) = Ok (lv', m') -> velocity_on g lv' ->
  (forall i j k p v, interior_cell n (i, j, k) -> node ov g i j k = Ok p -> aget ov g (lv_vel lv') i j k = Ok v -> in_lattice dim n bmin bmax (foot dt v p)) ->
  exists s', app_iteration ov bt g vi pos dt t s = Ok s' /\ ap_vel s' = lv' /\ levelset_on g (ap_ls s') /\
    (forall i j k, aget ov g (ls_phi_prev (ap_ls s')) i j k = aget ov g (ls_phi (ap_ls s)) i j k) /\
    (forall c, samples ov dim n pad g (ls_phi (ap_ls s)) (poly c) -> forall i j k, interior_cell n (i, j, k) -> exists p y,
       node ov g i j k = Ok p /\ aget ov g (ls_psi_prev (ap_ls s')) i j k = Ok y /\ forall a, used dim a = true -> vget y a = dpoly a c p) /\
    (forall i j k, interior_cell n (i, j, k) -> exists p v f, node ov g i j k = Ok p /\ aget ov g (lv_vel lv') i j k = Ok v /\
       interpolate ov g (foot dt v p) (ap_ls s') false = Ok f /\ aget ov g (ls_phi (ap_ls s')) i j k = Ok (f_phi f)) /\
    (forall i j k, padded_cell dim n pad (i, j, k) -> ~ interior_cell n (i, j, k) ->
       aget ov g (ls_phi (ap_ls s')) i j k = aget ov g (ls_phi (ap_ls s)) i j k).
Proof. exact iteration_ok. Qed.
Print Assumptions C121_iteration_partial.
Example C121_example : forall (c : nat -> nat -> nat -> R) (pos : array (vec3 R)), exists g s lv' m',
  built Wrap 1 (V3 5 1 1)%Z 2 lo1 hi1 g /\ proper_box 1 lo1 hi1 /\ interp_defined Wrap 1 /\ levelset_on g (ap_ls s) /\
  samples Wrap 1 (V3 5 1 1)%Z 2 g (ls_phi (ap_ls s)) (poly c) /\
  av_compute Wrap true g (ap_map s) (mkVI "" [] [] "") pos 1 (ap_vel s) = Ok (lv', m') /\ velocity_on g lv' /\
  (forall i j k p v, interior_cell (V3 5 1 1)%Z (i, j, k) -> node Wrap g i j k = Ok p -> aget Wrap g (lv_vel lv') i j k = Ok v ->
     in_lattice 1 (V3 5 1 1)%Z lo1 hi1 (foot (1 / 5) v p)).
Proof. exact c121_case. Qed.

(** But the layers that make it defined also make it wrong (C64): a motionless iteration turns the values
    0, 1 of the first two cells into -4, 11/3. *)
Theorem C121_rest_refuted : forall (TT : Trans Q) pos, exists (g : grid Q) (s s' : app_state (T := Q)),
  built Wrap 1 (V3 5 1 1)%Z 2 (V3 0 0 0)%Q (V3 5 1 1)%Q g /\ levelset_on g (ap_ls s) /\ velocity_on g (ap_vel s) /\
  (forall i, (0 <= i < 5)%Z -> aget Wrap g (lv_vel (ap_vel s)) i 0 0 = Ok (V3 0 0 0)%Q) /\
  app_iteration Wrap true g (mkVI "" [] [] "") pos 1%Q 1%Q s = Ok s' /\ ap_vel s' = ap_vel s /\
  aget Wrap g (ls_phi (ap_ls s)) 0 0 0 = Ok 0%Q /\ aget Wrap g (ls_phi (ap_ls s)) 1 0 0 = Ok 1%Q /\
  aget Wrap g (ls_phi (ap_ls s')) 0 0 0 = Ok (-4)%Q /\ aget Wrap g (ls_phi (ap_ls s')) 1 0 0 = Ok (Qmake 11 3).
Proof. exact rest_moves. Qed.
Print Assumptions C121_rest_refuted.
