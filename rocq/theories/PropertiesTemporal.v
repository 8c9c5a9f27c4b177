(** Properties C31-C35, C70, C71: time steps. *)
From Coq Require Import ZArith List Reals Lra.
From Verif Require Import Base Num ModelVec ModelGrid ModelArray ModelInterp ModelTemporal SpecGrid SpecInterp SpecTemporal
  ProofsInterpApi ProofsTemporal ProofsTemporalCases.
Open Scope R_scope.

(** *** C31: the frame part holds; the update ignores the gradient of phi *)
Theorem C31_euler_partial : forall T (NT : Num T) ov dim n pad bmin bmax (g : grid T) dt lv l,
  built ov dim n pad bmin bmax g -> levelset_on g l -> velocity_on g lv ->
  exists l', euler_compute ov g dt lv l = Ok l' /\ only_phi ov dim n pad g l l' /\
    forall i j k, interior_cell n (i, j, k) -> exists p v, aget ov g (ls_phi_prev l) i j k = Ok p /\ aget ov g (lv_vel lv) i j k = Ok v /\
      aget ov g (ls_phi l') i j k = Ok (p - dt * vx v)%num.
Proof. exact @euler_step. Qed.
Print Assumptions C31_euler_partial.
(** constant phi has gradient 0, so the stated update would leave it constant; it never does when
    the first velocity component and dt are not 0 *)
Theorem C31_euler_refuted : forall ov dim n pad bmin bmax (g : grid R) dt lv l c,
  built ov dim n pad bmin bmax g -> levelset_on g l -> velocity_on g lv -> dt <> 0 ->
  (forall i j k, padded_cell dim n pad (i, j, k) -> aget ov g (ls_phi_prev l) i j k = Ok c) ->
  exists l', euler_compute ov g dt lv l = Ok l' /\
  forall i j k v, interior_cell n (i, j, k) -> aget ov g (lv_vel lv) i j k = Ok v -> vx v <> 0 ->
    exists p, aget ov g (ls_phi l') i j k = Ok p /\ p <> c.
Proof. exact euler_constant. Qed.
Print Assumptions C31_euler_refuted.
Example C31_example : exists g lv l,
  built Trap 2 (V3 4 3 1)%Z 1 lo1 hi1 g /\ levelset_on g l /\ velocity_on g lv /\
  (forall i j k, padded_cell 2 (V3 4 3 1)%Z 1 (i, j, k) -> aget Trap g (ls_phi_prev l) i j k = Ok 7) /\
  (forall i j k, interior_cell (V3 4 3 1)%Z (i, j, k) -> aget Trap g (lv_vel lv) i j k = Ok (V3 1 0 0)).
Proof. exact c31_case. Qed.

(** *** C32 *)
Theorem C32_rest : forall ov dim n bmin bmax (g : grid R) dt lv l,
  built ov dim n 1 bmin bmax g -> levelset_on g l -> velocity_on g lv -> proper_box dim bmin bmax -> interp_defined ov dim ->
  (dt = 0 \/ forall i j k, interior_cell n (i, j, k) ->
     aget ov g (lv_vel lv) i j k = Ok (V3 0 0 0) /\ exists m, aget ov g (lv_grad lv) i j k = Ok m /\ forall r a, mget m r a = 0) ->
  exists l', sl_compute ov g dt lv l = Ok l' /\ only_interior ov dim n 1 g l l' /\
    forall i j k, interior_cell n (i, j, k) -> exists phi psi y,
      aget ov g (ls_phi_prev l) i j k = Ok phi /\ aget ov g (ls_psi_prev l) i j k = Ok psi /\
      aget ov g (ls_phi l') i j k = Ok phi /\ aget ov g (ls_psi l') i j k = Ok y /\
      forall a, vget y a = if used dim a then vget psi a else 0.
Proof. exact sl_rest. Qed.
Print Assumptions C32_rest.
Example C32_example : forall S, exists g lv l,
  built Trap 3 (V3 2 3 4)%Z 1 lo1 hi1 g /\ levelset_on g l /\ stores Trap 3 (V3 2 3 4)%Z 1 g l S /\ velocity_on g lv /\ proper_box 3 lo1 hi1 /\ interp_defined Trap 3 /\
  (forall i j k, interior_cell (V3 2 3 4)%Z (i, j, k) ->
     aget Trap g (lv_vel lv) i j k = Ok (V3 0 0 0) /\ exists m, aget Trap g (lv_grad lv) i j k = Ok m /\ forall r a, mget m r a = 0).
Proof. exact c32_case. Qed.

(** *** C33 *)
Theorem C33_translation : forall ov dim n pad bmin bmax (g : grid R) dt lv l v c,
  built ov dim n pad bmin bmax g -> (1 <= pad)%Z -> levelset_on g l -> velocity_on g lv -> proper_box dim bmin bmax -> interp_defined ov dim ->
  sampled_nodes ov dim n pad g l c ->
  (forall i j k, interior_cell n (i, j, k) ->
     aget ov g (lv_vel lv) i j k = Ok v /\ exists m, aget ov g (lv_grad lv) i j k = Ok m /\ forall r a, mget m r a = 0) ->
  (forall i j k p, interior_cell n (i, j, k) -> node ov g i j k = Ok p -> in_lattice dim n bmin bmax (foot dt v p)) ->
  exists l', sl_compute ov g dt lv l = Ok l' /\ only_interior ov dim n pad g l l' /\
    forall i j k, interior_cell n (i, j, k) -> exists p y, node ov g i j k = Ok p /\
      aget ov g (ls_phi l') i j k = Ok (poly c (flat dim (foot dt v p))) /\ aget ov g (ls_psi l') i j k = Ok y /\
      forall a, vget y a = if used dim a then dpoly a c (flat dim (foot dt v p)) else 0.
Proof. exact sl_translate. Qed.
Print Assumptions C33_translation.
Example C33_example : forall c, exists g lv l,
  built Wrap 1 (V3 5 1 1)%Z 1 lo1 hi1 g /\ levelset_on g l /\ velocity_on g lv /\ proper_box 1 lo1 hi1 /\ interp_defined Wrap 1 /\
  sampled_nodes Wrap 1 (V3 5 1 1)%Z 1 g l c /\
  (forall i j k, interior_cell (V3 5 1 1)%Z (i, j, k) ->
     aget Wrap g (lv_vel lv) i j k = Ok (V3 1 0 0) /\ exists m, aget Wrap g (lv_grad lv) i j k = Ok m /\ forall r a, mget m r a = 0) /\
  (forall i j k p, interior_cell (V3 5 1 1)%Z (i, j, k) -> node Wrap g i j k = Ok p -> in_lattice 1 (V3 5 1 1)%Z lo1 hi1 (foot (/ 10) (V3 1 0 0) p)).
Proof. exact c33_case. Qed.

(** *** C34, for every velocity field V whose partial derivatives are the stored gradient *)
Theorem C34_psi_is_gradient : forall ov dim n bmin bmax (g : grid R) dt lv l (V : vec3 R -> vec3 R),
  built ov dim n 1 bmin bmax g -> levelset_on g l -> velocity_on g lv -> proper_box dim bmin bmax -> interp_defined ov dim ->
  (forall i j k p, interior_cell n (i, j, k) -> node ov g i j k = Ok p ->
     aget ov g (lv_vel lv) i j k = Ok (V p) /\ inside_lattice dim n bmin bmax (foot dt (V p) p) /\
     exists m, aget ov g (lv_grad lv) i j k = Ok m /\
       forall r a, used dim r = true -> used dim a = true -> derivable_pt_lim (fun t => vget (V (vset p a t)) r) (vget p a) (mget m r a)) ->
  exists F l', (forall y, in_lattice dim n bmin bmax y -> interpolate ov g y l false = Ok (F y)) /\
    sl_compute ov g dt lv l = Ok l' /\ only_interior ov dim n 1 g l l' /\
    let Phi q := f_phi (F (foot dt (V q) q)) in
    forall i j k, interior_cell n (i, j, k) -> exists p y, node ov g i j k = Ok p /\
      aget ov g (ls_phi l') i j k = Ok (Phi p) /\ aget ov g (ls_psi l') i j k = Ok y /\
      forall a, used dim a = true -> derivable_pt_lim (fun t => Phi (vset p a t)) (vget p a) (vget y a).
Proof. exact sl_gradient. Qed.
Print Assumptions C34_psi_is_gradient.
Example C34_example : forall S, exists g lv l,
  built Wrap 2 (V3 4 3 1)%Z 1 lo1 hi1 g /\ levelset_on g l /\ stores Wrap 2 (V3 4 3 1)%Z 1 g l S /\ velocity_on g lv /\ proper_box 2 lo1 hi1 /\ interp_defined Wrap 2 /\
  (forall i j k p, interior_cell (V3 4 3 1)%Z (i, j, k) -> node Wrap g i j k = Ok p ->
     aget Wrap g (lv_vel lv) i j k = Ok (rot p) /\ inside_lattice 2 (V3 4 3 1)%Z lo1 hi1 (foot (/ 10) (rot p) p) /\
     exists m, aget Wrap g (lv_grad lv) i j k = Ok m /\
       forall r a, used 2 r = true -> used 2 a = true -> derivable_pt_lim (fun t => vget (rot (vset p a t)) r) (vget p a) (mget m r a)).
Proof. exact c34_case. Qed.

(** *** C35: whenever a step completes (any number type, data, velocity, overflow semantics) *)
Theorem C35_semi_lagrangian_frame : forall T (NT : Num T) ov dim n pad bmin bmax (g : grid T) dt lv l l',
  built ov dim n pad bmin bmax g -> levelset_on g l -> sl_compute ov g dt lv l = Ok l' -> only_interior ov dim n pad g l l'.
Proof. exact @sl_frame. Qed.
Print Assumptions C35_semi_lagrangian_frame.
Theorem C35_euler_frame : forall T (NT : Num T) ov dim n pad bmin bmax (g : grid T) dt lv l,
  built ov dim n pad bmin bmax g -> levelset_on g l -> velocity_on g lv ->
  exists l', euler_compute ov g dt lv l = Ok l' /\ only_phi ov dim n pad g l l'.
Proof. exact @euler_only_phi. Qed.
Print Assumptions C35_euler_frame.

(** *** C70: what the forward-Euler step computes *)
Theorem C70_euler_update : forall T (NT : Num T) ov dim n pad bmin bmax (g : grid T) dt lv l,
  built ov dim n pad bmin bmax g -> levelset_on g l -> velocity_on g lv ->
  exists l', euler_compute ov g dt lv l = Ok l' /\ only_phi ov dim n pad g l l' /\
    forall i j k, interior_cell n (i, j, k) -> exists p v, aget ov g (ls_phi_prev l) i j k = Ok p /\ aget ov g (lv_vel lv) i j k = Ok v /\
      aget ov g (ls_phi l') i j k = Ok (p - dt * vx v)%num.
Proof. exact @euler_step. Qed.
Print Assumptions C70_euler_update.

(** *** C71: every cell follows the characteristic given by its stored velocity *)
Theorem C71_characteristics : forall ov dim n pad bmin bmax (g : grid R) dt lv l,
  built ov dim n pad bmin bmax g -> levelset_on g l -> velocity_on g lv ->
  (forall i j k p v, interior_cell n (i, j, k) -> node ov g i j k = Ok p -> aget ov g (lv_vel lv) i j k = Ok v ->
     exists f, interpolate ov g (foot dt v p) l false = Ok f) ->
  exists l', sl_compute ov g dt lv l = Ok l' /\ only_interior ov dim n pad g l l' /\
    forall i j k, interior_cell n (i, j, k) -> exists p v m f y,
      node ov g i j k = Ok p /\ aget ov g (lv_vel lv) i j k = Ok v /\ aget ov g (lv_grad lv) i j k = Ok m /\
      interpolate ov g (foot dt v p) l false = Ok f /\
      aget ov g (ls_phi l') i j k = Ok (f_phi f) /\ aget ov g (ls_psi l') i j k = Ok y /\
      forall a, vget y a = ((if axis_eqb AX a then 1 else 0) - dt * mget m AX a) * vx (f_psi f)
                         + ((if axis_eqb AY a then 1 else 0) - dt * mget m AY a) * vy (f_psi f)
                         + ((if axis_eqb AZ a then 1 else 0) - dt * mget m AZ a) * vz (f_psi f).
Proof. exact sl_general. Qed.
Print Assumptions C71_characteristics.
