(** Theorems for C113 (what interpolation with gradient limiting returns) and C114 (where it is
    continuous). *)
From Coq Require Import ZArith List Reals.
From Verif Require Import Base Num ModelVec ModelGrid ModelArray ModelInterp SpecGrid SpecInterp SpecPatch SpecLimited
  ProofsInterpApi ProofsPatch ProofsLimited ProofsLimitedField.
Open Scope R_scope.

(** *** C113 *)
Theorem C113_limited_value : forall ov dim n pad bmin bmax (g : grid R) (l : levelset R) S x c (e : vec3 R),
  built ov dim n pad bmin bmax g -> (1 <= pad)%Z -> levelset_on g l -> proper_box dim bmin bmax -> interp_defined ov dim ->
  stores ov dim n pad g l S -> in_lattice dim n bmin bmax x -> encloses dim n bmin bmax x c ->
  let h := spacings n bmin bmax in
  (forall a, used dim a = true ->
     vget e a = (vget x a - centre (vget bmin a) (vget bmax a) (vget n a) (ccoord c a)) / vget h a - (IZR pad - 1)) ->
  exists f, interpolate ov g x l true = Ok f /\
    f_phi f = patch None dim e (lim_net dim S h c) /\
    forall a, vget (f_psi f) a = if used dim a then patch (Some a) dim e (lim_net dim S h c) / vget h a else 0.
Proof. exact (fun ov dim n pad bmin bmax g l S x c e Hb Hp Hl Hbox Hd HS Hx Hc He =>
  interp_limited ov dim n pad bmin bmax g l Hb Hp Hl Hbox Hd S x c e HS Hx Hc He). Qed.
Print Assumptions C113_limited_value.
Example C113_example : forall S, exists (g : grid R) (l : levelset R) p,
  built Trap 3 (V3 2 3 4)%Z 2 lo1 hi1 g /\ levelset_on g l /\ proper_box 3 lo1 hi1 /\
  stores Trap 3 (V3 2 3 4)%Z 2 g l S /\ node Trap g 0 (-1) 1 = Ok p /\
  in_lattice 3 (V3 2 3 4)%Z lo1 hi1 p /\ encloses 3 (V3 2 3 4)%Z lo1 hi1 p (1, 0, 2)%Z.
Proof. exact patch_example. Qed.

(** *** C114: the value is continuous everywhere in 1-D and 2-D, and in 3-D except inside the faces
    between cells that are neighbours in y *)
Theorem C114_continuous_partial : forall ov dim n bmin bmax (g : grid R) (l : levelset R),
  built ov dim n 1 bmin bmax g -> levelset_on g l -> proper_box dim bmin bmax -> interp_defined ov dim ->
  exists F, (forall y, in_lattice dim n bmin bmax y -> interpolate ov g y l true = Ok (F y)) /\
   (forall x eps, in_lattice dim n bmin bmax x -> 0 < eps ->
      (dim = 3%nat -> on_plane n bmin bmax x AY -> on_plane n bmin bmax x AX \/ on_plane n bmin bmax x AZ) ->
      exists d, 0 < d /\ forall y, in_lattice dim n bmin bmax y ->
        (forall a, used dim a = true -> Rabs (vget y a - vget x a) < d) ->
        Rabs (f_phi (F y) - f_phi (F x)) < eps).
Proof. exact lim_field. Qed.
Print Assumptions C114_continuous_partial.
(** across such a face the value changes by a fixed amount that depends on the data of the face *)
Theorem C114_jump : forall ov n bmin bmax (g : grid R) (l : levelset R) S x c (e : vec3 R),
  built ov 3 n 1 bmin bmax g -> levelset_on g l -> proper_box 3 bmin bmax -> stores ov 3 n 1 g l S ->
  in_lattice 3 n bmin bmax x -> encloses 3 n bmin bmax x c ->
  vy x = centre (vy bmin) (vy bmax) (vy n) (ccoord c AY) -> vy bmin - spacing (vy bmin) (vy bmax) (vy n) / 2 < vy x ->
  let h := spacings n bmin bmax in
  (forall a, vget e a = (vget x a - centre (vget bmin a) (vget bmax a) (vget n a) (ccoord c a)) / vget h a) ->
  exists f, interpolate ov g x l true = Ok f /\
    forall eps, 0 < eps -> exists d, 0 < d /\ forall t, vy x - d < t < vy x ->
      exists f', interpolate ov g (vset x AY t) l true = Ok f' /\
        Rabs (f_phi f' - (f_phi f - jump S h c (vx e) (vz e))) < eps.
Proof. exact lim_across. Qed.
Print Assumptions C114_jump.
(** for the data of x^2 it is never zero, on any grid *)
Theorem C114_square_refuted : forall ov n bmin bmax (g : grid R) (l : levelset R) x,
  built ov 3 n 1 bmin bmax g -> levelset_on g l -> proper_box 3 bmin bmax ->
  stores ov 3 n 1 g l (square_data n bmin bmax) -> in_lattice 3 n bmin bmax x ->
  on_plane n bmin bmax x AY -> ~ on_plane n bmin bmax x AX -> ~ on_plane n bmin bmax x AZ ->
  vy bmin - spacing (vy bmin) (vy bmax) (vy n) / 2 < vy x ->
  exists f gap, 0 < gap /\ interpolate ov g x l true = Ok f /\
    forall d, 0 < d -> exists t f', vy x - d < t < vy x /\
      interpolate ov g (vset x AY t) l true = Ok f' /\ f_phi f + gap < f_phi f'.
Proof. exact square_breaks. Qed.
Print Assumptions C114_square_refuted.
Theorem C114_square_jump : forall n bmin bmax c ex ez, 0 < spacing (vx bmin) (vx bmax) (vx n) ->
  jump (square_data n bmin bmax) (spacings n bmin bmax) c ex ez
  = - 3 * spacing (vx bmin) (vx bmax) (vx n) ^ 2 * (ex * (1 - ex) ^ 2) * (ez * (1 - ez)).
Proof. exact square_jump. Qed.
Print Assumptions C114_square_jump.
Example C114_case : exists (g : grid R) (l : levelset R), let x := V3 (1/7) 0 (1/7) in
  built Trap 3 (V3 2 3 4)%Z 1 lo1 hi1 g /\ levelset_on g l /\ proper_box 3 lo1 hi1 /\
  stores Trap 3 (V3 2 3 4)%Z 1 g l (square_data (V3 2 3 4)%Z lo1 hi1) /\ in_lattice 3 (V3 2 3 4)%Z lo1 hi1 x /\
  on_plane (V3 2 3 4)%Z lo1 hi1 x AY /\ ~ on_plane (V3 2 3 4)%Z lo1 hi1 x AX /\ ~ on_plane (V3 2 3 4)%Z lo1 hi1 x AZ /\
  encloses 3 (V3 2 3 4)%Z lo1 hi1 x (0, 1, 1)%Z /\
  vy lo1 - spacing (vy lo1) (vy hi1) 3 / 2 < vy x.
Proof. exact square_example. Qed.
