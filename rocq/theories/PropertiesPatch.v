(** Theorems for C110 (what interpolation returns for any stored data) and the general form of C64. *)
From Coq Require Import ZArith List Reals.
From Verif Require Import Base Num ModelVec ModelGrid ModelArray ModelInterp SpecGrid SpecInterp SpecPatch ProofsInterpApi ProofsPatch.
Open Scope R_scope.

(** *** C110 *)
Theorem C110_value : forall ov dim n bmin bmax (g : grid R) (l : levelset R) S x c (e : vec3 R),
  built ov dim n 1 bmin bmax g -> levelset_on g l -> proper_box dim bmin bmax -> interp_defined ov dim ->
  stores ov dim n 1 g l S -> in_lattice dim n bmin bmax x -> encloses dim n bmin bmax x c ->
  let h := spacings n bmin bmax in
  (forall a, used dim a = true ->
     vget e a = (vget x a - centre (vget bmin a) (vget bmax a) (vget n a) (ccoord c a)) / vget h a) ->
  exists f, interpolate ov g x l false = Ok f /\
    f_phi f = patch None dim e (net dim S h c) /\
    forall a, vget (f_psi f) a = if used dim a then patch (Some a) dim e (net dim S h c) / vget h a else 0.
Proof. exact interp_patch_1. Qed.
Print Assumptions C110_value.
Theorem C110_gradient : forall dim a (e : vec3 R) f, used dim a = true -> (2 <= dim <= 3 \/ dim = 1)%nat ->
  derivable_pt_lim (fun t => patch None dim (vset e a t) f) (vget e a) (patch (Some a) dim e f).
Proof. exact patch_derive. Qed.
Print Assumptions C110_gradient.
Theorem C110_any_padding : forall ov dim n pad bmin bmax (g : grid R) (l : levelset R) S x c (e : vec3 R),
  built ov dim n pad bmin bmax g -> (1 <= pad)%Z -> levelset_on g l -> proper_box dim bmin bmax -> interp_defined ov dim ->
  stores ov dim n pad g l S -> in_lattice dim n bmin bmax x -> encloses dim n bmin bmax x c ->
  let h := spacings n bmin bmax in
  (forall a, used dim a = true ->
     vget e a = (vget x a - centre (vget bmin a) (vget bmax a) (vget n a) (ccoord c a)) / vget h a - (IZR pad - 1)) ->
  exists f, interpolate ov g x l false = Ok f /\
    f_phi f = patch None dim e (net dim S h c) /\
    forall a, vget (f_psi f) a = if used dim a then patch (Some a) dim e (net dim S h c) / vget h a else 0.
Proof. exact (fun ov dim n pad bmin bmax g l S x c e Hb Hp Hl Hbox Hd HS Hx Hc He =>
  interp_patch ov dim n pad bmin bmax g l Hb Hp Hl Hbox Hd S x c e HS Hx Hc He). Qed.
Print Assumptions C110_any_padding.
Example C110_example : forall S, exists (g : grid R) (l : levelset R) p,
  built Trap 3 (V3 2 3 4)%Z 2 lo1 hi1 g /\ levelset_on g l /\ proper_box 3 lo1 hi1 /\
  stores Trap 3 (V3 2 3 4)%Z 2 g l S /\ node Trap g 0 (-1) 1 = Ok p /\
  in_lattice 3 (V3 2 3 4)%Z lo1 hi1 p /\ encloses 3 (V3 2 3 4)%Z lo1 hi1 p (1, 0, 2)%Z.
Proof. exact patch_example. Qed.

(** *** C64: at the position of node (i,j,k) the code evaluates the patch of the cell shifted by
    pad - 1 at local coordinate 1 - pad on every axis, so it returns the stored value for padding 1
    and an extrapolation from other nodes for any larger padding *)
Theorem C64_padding_shift_partial : forall ov dim n pad bmin bmax (g : grid R) (l : levelset R) S i j k p,
  built ov dim n pad bmin bmax g -> (1 <= pad)%Z -> levelset_on g l -> proper_box dim bmin bmax -> interp_defined ov dim ->
  stores ov dim n pad g l S ->
  (forall a, used dim a = true -> (- pad <= ccoord (i, j, k) a <= vget n a - pad)%Z) ->
  (forall a, used dim a = false -> ccoord (i, j, k) a = 0%Z) ->
  node ov g i j k = Ok p ->
  let m := (i + (pad - 1), (if used dim AY then j + (pad - 1) else 0), (if used dim AZ then k + (pad - 1) else 0))%Z in
  let t := 1 - IZR pad in
  exists f, interpolate ov g p l false = Ok f /\
    f_phi f = patch None dim (V3 t t t) (net dim S (spacings n bmin bmax) m).
Proof. exact (fun ov dim n pad bmin bmax g l S i j k p Hb Hp Hl Hbox Hd HS Hi H0 Hn =>
  node_patch ov dim n pad bmin bmax g l Hb Hp Hl Hbox Hd S i j k p HS Hi H0 Hn). Qed.
Print Assumptions C64_padding_shift_partial.
