(** How far the gradient schemes in double arithmetic are from the exact difference quotients and
    from the derivatives they stand for. *)
From Coq Require Import ZArith List Bool Lia Reals Lra.
From Flocq Require Import Core BinarySingleNaN.
From Verif Require Import Base Num NumB64 ModelVec ModelGrid ModelArray ModelGradient SpecGrid SpecInterp SpecB64 SpecRound SpecGradient SpecRoundGrad
  ProofsGradientProps ProofsB64Cases ProofsRoundGradRun.
Import ListNotations.
Open Scope R_scope.

(** C122: on finite data of size at most M the schemes in double complete, every component they write is finite, and
    it differs from the exact difference quotient of the same data by at most 2^-49 M / h (second order) or
    2^-48 M / h (third order), wherever the box lies; ghost cells and unused components keep their value. *)
Theorem C122_second_order_rounding ov dim n pad bmin bmax (g : grid b64) rho M al gr F :
  built ov dim n pad bmin bmax g -> fine_box dim rho n bmin bmax -> moderate M ->
  array_on g al -> array_on g gr -> holds64 ov dim n pad g al F M -> (1 <= pad)%Z ->
  let h a := spacing64 (vget bmin a) (vget bmax a) (vget n a) in
  exists gr', soc_scalar ov g al g gr = Ok gr' /\
    grad_near ov dim n pad g gr gr' (fun c a => central F c a (h a)) (fun a => bpow radix2 (-49) * (M / h a)).
Proof. exact (fun Hb Hf HM => soc_run ov dim n pad bmin bmax g rho M Hb Hf HM al gr F). Qed.
Print Assumptions C122_second_order_rounding.
Theorem C122_third_order_rounding ov dim n pad bmin bmax (g : grid b64) rho M al gr F :
  built ov dim n pad bmin bmax g -> fine_box dim rho n bmin bmax -> moderate M ->
  array_on g al -> array_on g gr -> holds64 ov dim n pad g al F M -> (2 <= pad)%Z ->
  let h a := spacing64 (vget bmin a) (vget bmax a) (vget n a) in
  exists gr', third_scalar ov g al g gr = Ok gr' /\
    grad_near ov dim n pad g gr gr' (fun c a => upwind3 F c a (h a)) (fun a => bpow radix2 (-48) * (M / h a)).
Proof. exact (fun Hb Hf HM => third_run ov dim n pad bmin bmax g rho M Hb Hf HM al gr F). Qed.
Print Assumptions C122_third_order_rounding.
(** For vector fields the quotient in row r and column d is the one the code forms: component r shifted along r,
    divided by the spacing of d (see C30 for what is wrong with it off the diagonal). *)
Theorem C122_second_order_vector_rounding ov dim n pad bmin bmax (g : grid b64) rho M al gr F :
  built ov dim n pad bmin bmax g -> fine_box dim rho n bmin bmax -> moderate M ->
  array_on g al -> array_on g gr -> vholds64 ov dim n pad g al F M -> (1 <= pad)%Z ->
  let h a := spacing64 (vget bmin a) (vget bmax a) (vget n a) in
  exists gr', soc_vector ov g al g gr = Ok gr' /\
    mat_near ov dim n pad g gr gr' (fun c r d => central (F r) c r (h d)) (fun d => bpow radix2 (-49) * (M / h d)).
Proof. exact (fun Hb Hf HM => soc_vrun ov dim n pad bmin bmax g rho M Hb Hf HM al gr F). Qed.
Print Assumptions C122_second_order_vector_rounding.
Theorem C122_third_order_vector_rounding ov dim n pad bmin bmax (g : grid b64) rho M al gr F :
  built ov dim n pad bmin bmax g -> fine_box dim rho n bmin bmax -> moderate M ->
  array_on g al -> array_on g gr -> vholds64 ov dim n pad g al F M -> (2 <= pad)%Z ->
  let h a := spacing64 (vget bmin a) (vget bmax a) (vget n a) in
  exists gr', third_vector ov g al g gr = Ok gr' /\
    mat_near ov dim n pad g gr gr' (fun c r d => upwind3 (F r) c r (h d)) (fun d => bpow radix2 (-48) * (M / h d)).
Proof. exact (fun Hb Hf HM => third_vrun ov dim n pad bmin bmax g rho M Hb Hf HM al gr F). Qed.
Print Assumptions C122_third_order_vector_rounding.
Example C122_case : exists (g : grid b64) (al : array b64) (va : array (vec3 b64)) (gr : array (vec3 b64)) (gm : array (mat3 b64)),
  built Trap 1 (V3 5 1 1)%Z 2 (ivl (-1)) (ivl 1) g /\ fine_box 1 (5 / 2) (V3 5 1 1)%Z (ivl (-1)) (ivl 1) /\ moderate 8 /\
  array_on g al /\ array_on g va /\ holds64 Trap 1 (V3 5 1 1)%Z 2 g al idx 8 /\ vholds64 Trap 1 (V3 5 1 1)%Z 2 g va (fun _ => idx) 8 /\
  array_on g gr /\ array_on g gm.
Proof. destruct grad64_case as (g & al & va & H). exists g, al, va, (array_ctor g vzero), (array_ctor g mzero). exact H. Qed.

(** C123: total error on data within delta of a smooth function: the truncation error K h^2 / 6 (respectively
    K h^3 / 6), plus the error of the data divided by the spacing, plus rounding. *)
Theorem C123_second_order_total ov dim n pad bmin bmax (g : grid b64) rho M al gr F (f : vec3 R -> R) (D : vec3 R -> axis -> R) K delta :
  built ov dim n pad bmin bmax g -> fine_box dim rho n bmin bmax -> moderate M ->
  array_on g al -> array_on g gr -> holds64 ov dim n pad g al F M ->
  let h a := spacing64 (vget bmin a) (vget bmax a) (vget n a) in
  let P := centre_pos dim n (reals bmin) (reals bmax) in
  (forall c, padded_cell dim n pad c -> Rabs (F c - f (P c)) <= delta) -> (1 <= pad)%Z ->
  (forall c a, interior_cell n c -> used dim a = true ->
     exists d1 d2 d3, derivs (- h a) (h a) (fun t => f (along (P c) a t)) [d1; d2; d3] /\ d1 0 = D (P c) a /\
       forall t, - h a <= t <= h a -> Rabs (d3 t) <= K) ->
  exists gr', soc_scalar ov g al g gr = Ok gr' /\
    grad_near ov dim n pad g gr gr' (fun c a => D (P c) a)
      (fun a => K / 6 * h a ^ 2 + delta / h a + bpow radix2 (-49) * (M / h a)).
Proof. exact (fun Hb Hf HM Ha Hr HF => soc_total ov dim n pad bmin bmax g rho M Hb Hf HM al gr F Ha Hr HF f D K delta). Qed.
Print Assumptions C123_second_order_total.
Theorem C123_third_order_total ov dim n pad bmin bmax (g : grid b64) rho M al gr F (f : vec3 R -> R) (D : vec3 R -> axis -> R) K delta :
  built ov dim n pad bmin bmax g -> fine_box dim rho n bmin bmax -> moderate M ->
  array_on g al -> array_on g gr -> holds64 ov dim n pad g al F M ->
  let h a := spacing64 (vget bmin a) (vget bmax a) (vget n a) in
  let P := centre_pos dim n (reals bmin) (reals bmax) in
  (forall c, padded_cell dim n pad c -> Rabs (F c - f (P c)) <= delta) -> (2 <= pad)%Z ->
  (forall c a, interior_cell n c -> used dim a = true ->
     exists d1 d2 d3 d4, derivs (- (2 * h a)) (h a) (fun t => f (along (P c) a t)) [d1; d2; d3; d4] /\ d1 0 = D (P c) a /\
       forall t, - (2 * h a) <= t <= h a -> Rabs (d4 t) <= K) ->
  exists gr', third_scalar ov g al g gr = Ok gr' /\
    grad_near ov dim n pad g gr gr' (fun c a => D (P c) a)
      (fun a => K / 6 * h a ^ 3 + 2 * delta / h a + bpow radix2 (-48) * (M / h a)).
Proof. exact (fun Hb Hf HM Ha Hr HF => third_total ov dim n pad bmin bmax g rho M Hb Hf HM al gr F Ha Hr HF f D K delta). Qed.
Print Assumptions C123_third_order_total.
Example C123_case : exists (g : grid b64) (al : array b64) (gr : array (vec3 b64)),
  let n := (V3 5 1 1)%Z in let P := centre_pos 1 n (reals (ivl (-1))) (reals (ivl 1)) in
  let h a := spacing64 (vget (ivl (-1)) a) (vget (ivl 1) a) (vget n a) in
  built Trap 1 n 2 (ivl (-1)) (ivl 1) g /\ fine_box 1 (5 / 2) n (ivl (-1)) (ivl 1) /\ moderate 8 /\
  array_on g al /\ array_on g gr /\ holds64 Trap 1 n 2 g al idx 8 /\
  (forall c, padded_cell 1 n 2 c -> Rabs (idx c - ramp (P c)) <= / 8) /\
  (forall c a, interior_cell n c -> used 1 a = true ->
     exists d1 d2 d3 d4, derivs (- (2 * h a)) (h a) (fun t => ramp (along (P c) a t)) [d1; d2; d3; d4] /\ d1 0 = 5 / 2 /\
       forall t, Rabs (d3 t) <= 0 /\ Rabs (d4 t) <= 0).
Proof.
  destruct grad64_case as (g & al & va & H1 & H2 & H3 & H4 & _ & H5 & _ & H6 & _). exists g, al, (array_ctor g vzero). cbv zeta.
  repeat (split; [assumption|]). split; [intros c _; apply ramp_near|]. intros c a _ Hu. apply used1 in Hu. subst a. apply ramp_derivs.
Qed.
