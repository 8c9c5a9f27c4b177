(** Properties C27-C30, C66, C67: gradient schemes. *)
From Coq Require Import ZArith List Bool Reals Lra.
From Verif Require Import Base Num ModelVec ModelGrid ModelArray ModelGradient SpecGrid SpecInterp SpecGradient
  ProofsGridProps ProofsInterpApi ProofsGradientR ProofsGradientProps.
Open Scope R_scope.

(** *** C27 *)
Theorem C27_second_order_exact : forall ov dim n pad bmin bmax (g : grid R),
  built ov dim n pad bmin bmax g -> proper_box dim bmin bmax -> forall al gr c,
  array_on g al -> array_on g gr -> samples ov dim n pad g al (poly c) -> degree2 c -> (1 <= pad)%Z ->
  exists gr', soc_scalar ov g al g gr = Ok gr' /\ grad_result ov dim n pad g gr gr' (fun p a => dpoly a c p).
Proof. exact soc_exact. Qed.
Print Assumptions C27_second_order_exact.
(** and the exact error on cubics *)
Theorem C27_second_order_cubics : forall ov dim n pad bmin bmax (g : grid R),
  built ov dim n pad bmin bmax g -> proper_box dim bmin bmax -> forall al gr c,
  array_on g al -> array_on g gr -> samples ov dim n pad g al (poly c) -> (1 <= pad)%Z ->
  exists gr', soc_scalar ov g al g gr = Ok gr' /\
    grad_result ov dim n pad g gr gr' (fun p a => dpoly a c p + spacing (vget bmin a) (vget bmax a) (vget n a) ^ 2 * third_coeff a c p).
Proof. exact soc_cubics. Qed.
Print Assumptions C27_second_order_cubics.
Example C27_example : forall c, exists g al gr, built Trap 2 (V3 4 3 1)%Z 1 lo1 hi1 g /\ proper_box 2 lo1 hi1 /\
  array_on g al /\ array_on g (gr : array (vec3 R)) /\ samples Trap 2 (V3 4 3 1)%Z 1 g al (poly c).
Proof. intros c. apply (grad_case (B := vec3 R) Trap 2 _ 1 (poly c) vzero); apply good_2d. Qed.

(** *** C28 *)
Theorem C28_third_order_exact : forall ov dim n pad bmin bmax (g : grid R),
  built ov dim n pad bmin bmax g -> proper_box dim bmin bmax -> forall al gr c,
  array_on g al -> array_on g gr -> samples ov dim n pad g al (poly c) -> (2 <= pad)%Z ->
  exists gr', third_scalar ov g al g gr = Ok gr' /\ grad_result ov dim n pad g gr gr' (fun p a => dpoly a c p).
Proof. exact third_exact. Qed.
Print Assumptions C28_third_order_exact.
Example C28_example : forall c, exists g al gr, built Trap 3 (V3 2 3 4)%Z 2 lo1 hi1 g /\ proper_box 3 lo1 hi1 /\
  array_on g al /\ array_on g (gr : array (vec3 R)) /\ samples Trap 3 (V3 2 3 4)%Z 2 g al (poly c).
Proof. intros c. apply (grad_case (B := vec3 R) Trap 3 _ 2 (poly c) vzero); apply good_3d. Qed.

(** *** C29: holds for the second-order scheme, fails on every grid for the third-order one *)
Theorem C29_second_order_in_bounds_partial : forall T (NT : Num T) ov dim n pad bmin bmax (g : grid T) (al : array T) gr,
  built ov dim n pad bmin bmax g -> (1 <= pad)%Z -> array_on g al -> array_on g gr ->
  exists gr', soc_scalar ov g al g gr = Ok gr'.
Proof. exact @soc_default. Qed.
Print Assumptions C29_second_order_in_bounds_partial.
Theorem C29_second_order_vector_in_bounds_partial : forall T (NT : Num T) ov dim n pad bmin bmax (g : grid T) (al : array (vec3 T)) gr,
  built ov dim n pad bmin bmax g -> (1 <= pad)%Z -> array_on g al -> array_on g gr ->
  exists gr', soc_vector ov g al g gr = Ok gr'.
Proof. exact @soc_vdefault. Qed.
Print Assumptions C29_second_order_vector_in_bounds_partial.
Theorem C29_third_order_two_layers_partial : forall T (NT : Num T) ov dim n pad bmin bmax (g : grid T) (al : array T) gr,
  built ov dim n pad bmin bmax g -> (2 <= pad)%Z -> array_on g al -> array_on g gr ->
  exists gr', third_scalar ov g al g gr = Ok gr'.
Proof. exact @third_pad2. Qed.
Print Assumptions C29_third_order_two_layers_partial.
Theorem C29_third_order_vector_two_layers_partial : forall T (NT : Num T) ov dim n pad bmin bmax (g : grid T) (al : array (vec3 T)) gr,
  built ov dim n pad bmin bmax g -> (2 <= pad)%Z -> array_on g al -> array_on g gr ->
  exists gr', third_vector ov g al g gr = Ok gr'.
Proof. exact @third_vpad2. Qed.
Print Assumptions C29_third_order_vector_two_layers_partial.
Theorem C29_third_order_refuted : forall T (NT : Num T) ov dim n bmin bmax (g : grid T) (al : array T) gr,
  built ov dim n 1 bmin bmax g -> array_on g al -> array_on g gr -> third_scalar ov g al g gr = UB OutOfBounds.
Proof. exact @third_default. Qed.
Print Assumptions C29_third_order_refuted.
Theorem C29_third_order_vector_refuted : forall T (NT : Num T) ov dim n bmin bmax (g : grid T) (al : array (vec3 T)) gr,
  built ov dim n 1 bmin bmax g -> array_on g al -> array_on g gr -> third_vector ov g al g gr = UB OutOfBounds.
Proof. exact @third_vdefault. Qed.
Print Assumptions C29_third_order_vector_refuted.
Example C29_example : exists g al gr, built Wrap 1 (V3 5 1 1)%Z 1 lo1 hi1 g /\ array_on g al /\ array_on g gr /\
  third_scalar Wrap g al g gr = UB OutOfBounds /\ exists gr', soc_scalar Wrap g al g gr = Ok gr'.
Proof.
  destruct (grad_case (B := vec3 R) Wrap 1 _ 1 (fun p => vx p) vzero (proj1 good_1d) I) as (g & al & gr & Hb & _ & Ha & Hr & _).
  exists g, al, gr. split; [exact Hb|]. split; [exact Ha|]. split; [exact Hr|]. split.
  - exact (third_default _ _ _ _ _ _ _ _ Hb Ha Hr).
  - exact (soc_default _ _ _ _ _ _ _ _ _ Hb (Z.le_refl 1) Ha Hr).
Qed.

(** *** C30: what the entries are; the diagonal is right, the rest is not *)
Theorem C30_second_order_vector_partial : forall ov dim n pad bmin bmax (g : grid R),
  built ov dim n pad bmin bmax g -> proper_box dim bmin bmax -> forall al gr c,
  array_on g al -> array_on g gr -> samples ov dim n pad g al (vpoly c) -> (forall r, degree2 (c r)) -> (1 <= pad)%Z ->
  let h a := spacing (vget bmin a) (vget bmax a) (vget n a) in
  exists gr', soc_vector ov g al g gr = Ok gr' /\ mat_result ov dim n pad g gr gr' (fun p r d => h r / h d * dpoly r (c r) p).
Proof. exact soc_vexact. Qed.
Print Assumptions C30_second_order_vector_partial.
Theorem C30_third_order_vector_partial : forall ov dim n pad bmin bmax (g : grid R),
  built ov dim n pad bmin bmax g -> proper_box dim bmin bmax -> forall al gr c,
  array_on g al -> array_on g gr -> samples ov dim n pad g al (vpoly c) -> (2 <= pad)%Z ->
  let h a := spacing (vget bmin a) (vget bmax a) (vget n a) in
  exists gr', third_vector ov g al g gr = Ok gr' /\ mat_result ov dim n pad g gr gr' (fun p r d => h r / h d * dpoly r (c r) p).
Proof. exact third_vexact. Qed.
Print Assumptions C30_third_order_vector_partial.
(** the field (x,0,0) has derivative 0 of its first component along y; the result is hx/hy, in every
    interior cell of every grid with at least two dimensions *)
Theorem C30_second_order_vector_refuted : forall ov dim n pad bmin bmax (g : grid R) al gr,
  built ov dim n pad bmin bmax g -> proper_box dim bmin bmax -> (2 <= dim)%nat -> (1 <= pad)%Z ->
  array_on g al -> array_on g gr -> samples ov dim n pad g al (fun p => V3 (vx p) 0 0) ->
  exists gr', soc_vector ov g al g gr = Ok gr' /\
  forall i j k, interior_cell n (i, j, k) -> exists y, aget ov g gr' i j k = Ok y /\
    mget y AX AY = spacing (vx bmin) (vx bmax) (vx n) / spacing (vy bmin) (vy bmax) (vy n) /\ mget y AX AY <> 0.
Proof. exact soc_vector_bad. Qed.
Print Assumptions C30_second_order_vector_refuted.
Theorem C30_third_order_vector_refuted : forall ov dim n pad bmin bmax (g : grid R) al gr,
  built ov dim n pad bmin bmax g -> proper_box dim bmin bmax -> (2 <= dim)%nat -> (2 <= pad)%Z ->
  array_on g al -> array_on g gr -> samples ov dim n pad g al (fun p => V3 (vx p) 0 0) ->
  exists gr', third_vector ov g al g gr = Ok gr' /\
  forall i j k, interior_cell n (i, j, k) -> exists y, aget ov g gr' i j k = Ok y /\
    mget y AX AY = spacing (vx bmin) (vx bmax) (vx n) / spacing (vy bmin) (vy bmax) (vy n) /\ mget y AX AY <> 0.
Proof. exact third_vector_bad. Qed.
Print Assumptions C30_third_order_vector_refuted.
Example C30_example : exists g al gr, built Trap 2 (V3 4 3 1)%Z 1 lo1 hi1 g /\ proper_box 2 lo1 hi1 /\ array_on g al /\
  array_on g (gr : array (mat3 R)) /\ samples Trap 2 (V3 4 3 1)%Z 1 g al (fun p => V3 (vx p) 0 0).
Proof. apply (grad_case (B := mat3 R) Trap 2 _ 1 (fun p => V3 (vx p) 0 0) (M3 vzero vzero vzero)); apply good_2d. Qed.

(** *** C66, C67: order of accuracy on arbitrary smooth fields *)
Theorem C66_second_order_error : forall ov dim n pad bmin bmax (g : grid R),
  built ov dim n pad bmin bmax g -> proper_box dim bmin bmax ->
  let h a := spacing (vget bmin a) (vget bmax a) (vget n a) in
  forall al gr (f : vec3 R -> R) (D : vec3 R -> axis -> R) M,
  array_on g al -> array_on g gr -> samples ov dim n pad g al f -> (1 <= pad)%Z ->
  (forall i j k p a, interior_cell n (i, j, k) -> node ov g i j k = Ok p -> used dim a = true ->
     exists d1 d2 d3, derivs (- h a) (h a) (fun t => f (along p a t)) [d1; d2; d3] /\ d1 0 = D p a /\
       forall t, - h a <= t <= h a -> Rabs (d3 t) <= M) ->
  exists gr', soc_scalar ov g al g gr = Ok gr' /\
    forall i j k, interior_cell n (i, j, k) -> exists p y, node ov g i j k = Ok p /\ aget ov g gr' i j k = Ok y /\
      forall a, used dim a = true -> Rabs (vget y a - D p a) <= M / 6 * h a ^ 2.
Proof. exact soc_error. Qed.
Print Assumptions C66_second_order_error.
Theorem C67_third_order_error : forall ov dim n pad bmin bmax (g : grid R),
  built ov dim n pad bmin bmax g -> proper_box dim bmin bmax ->
  let h a := spacing (vget bmin a) (vget bmax a) (vget n a) in
  forall al gr (f : vec3 R -> R) (D : vec3 R -> axis -> R) M,
  array_on g al -> array_on g gr -> samples ov dim n pad g al f -> (2 <= pad)%Z ->
  (forall i j k p a, interior_cell n (i, j, k) -> node ov g i j k = Ok p -> used dim a = true ->
     exists d1 d2 d3 d4, derivs (- (2 * h a)) (h a) (fun t => f (along p a t)) [d1; d2; d3; d4] /\ d1 0 = D p a /\
       forall t, - (2 * h a) <= t <= h a -> Rabs (d4 t) <= M) ->
  exists gr', third_scalar ov g al g gr = Ok gr' /\
    forall i j k, interior_cell n (i, j, k) -> exists p y, node ov g i j k = Ok p /\ aget ov g gr' i j k = Ok y /\
      forall a, used dim a = true -> Rabs (vget y a - D p a) <= M / 6 * h a ^ 3.
Proof. exact third_error. Qed.
Print Assumptions C67_third_order_error.
(** the field sin x in one dimension: gradient cos x, all derivatives bounded by 1 *)
Example C66_example : exists g al gr, built Trap 1 (V3 5 1 1)%Z 1 lo1 hi1 g /\ array_on g al /\ array_on g (gr : array (vec3 R)) /\
  samples Trap 1 (V3 5 1 1)%Z 1 g al (fun p => sin (vx p)) /\
  exists gr', soc_scalar Trap g al g gr = Ok gr' /\
    forall i j k, interior_cell (V3 5 1 1)%Z (i, j, k) -> exists p y, node Trap g i j k = Ok p /\ aget Trap g gr' i j k = Ok y /\
      Rabs (vx y - cos (vx p)) <= 1 / 6 * (2 / 5) ^ 2.
Proof.
  destruct (grad_case (B := vec3 R) Trap 1 _ 1 (fun p => sin (vx p)) vzero (proj1 good_1d) (proj2 good_1d)) as (g & al & gr & Hb & Hx & Ha & Hr & HS).
  exists g, al, gr. split; [exact Hb|]. split; [exact Ha|]. split; [exact Hr|]. split; [exact HS|].
  destruct (soc_error _ _ _ _ _ _ _ Hb Hx al gr _ (fun p _ => cos (vx p)) 1 Ha Hr HS (Z.le_refl 1)) as (gr' & E & R).
  { intros i j k p a _ _ U. apply used1 in U. subst a. apply sin_case. }
  exists gr'. split; [exact E|]. intros i j k Hc. destruct (R i j k Hc) as (p & y & E1 & E2 & E3). exists p, y. split; [exact E1|]. split; [exact E2|].
  specialize (E3 AX eq_refl). replace (2 / 5) with (spacing (-1) 1 5) by (unfold spacing; lra). exact E3.
Qed.
Example C67_example : exists g al gr, built Trap 1 (V3 5 1 1)%Z 2 lo1 hi1 g /\ array_on g al /\ array_on g (gr : array (vec3 R)) /\
  samples Trap 1 (V3 5 1 1)%Z 2 g al (fun p => sin (vx p)) /\
  exists gr', third_scalar Trap g al g gr = Ok gr' /\
    forall i j k, interior_cell (V3 5 1 1)%Z (i, j, k) -> exists p y, node Trap g i j k = Ok p /\ aget Trap g gr' i j k = Ok y /\
      Rabs (vx y - cos (vx p)) <= 1 / 6 * (2 / 5) ^ 3.
Proof.
  destruct (grad_case (B := vec3 R) Trap 1 _ 2 (fun p => sin (vx p)) vzero (proj1 good_1dp2) (proj2 good_1dp2)) as (g & al & gr & Hb & Hx & Ha & Hr & HS).
  exists g, al, gr. split; [exact Hb|]. split; [exact Ha|]. split; [exact Hr|]. split; [exact HS|].
  destruct (third_error _ _ _ _ _ _ _ Hb Hx al gr _ (fun p _ => cos (vx p)) 1 Ha Hr HS (Z.le_refl 2)) as (gr' & E & R).
  { intros i j k p a _ _ U. apply used1 in U. subst a. apply sin_case4. }
  exists gr'. split; [exact E|]. intros i j k Hc. destruct (R i j k Hc) as (p & y & E1 & E2 & E3). exists p, y. split; [exact E1|]. split; [exact E2|].
  specialize (E3 AX eq_refl). replace (2 / 5) with (spacing (-1) 1 5) by (unfold spacing; lra). exact E3.
Qed.

(** *** C68: the number of ghost layers decides (the behaviour behind C29) *)
Theorem C68_third_order_needs_two_layers : forall T (NT : Num T) ov dim n pad bmin bmax (g : grid T) (al : array T) gr,
  built ov dim n pad bmin bmax g -> (1 <= pad)%Z -> array_on g al -> array_on g gr ->
  ((exists gr', third_scalar ov g al g gr = Ok gr') <-> (2 <= pad)%Z) /\ (pad = 1%Z -> third_scalar ov g al g gr = UB OutOfBounds).
Proof. exact @third_iff. Qed.
Print Assumptions C68_third_order_needs_two_layers.
Theorem C68_third_order_vector_needs_two_layers : forall T (NT : Num T) ov dim n pad bmin bmax (g : grid T) (al : array (vec3 T)) gr,
  built ov dim n pad bmin bmax g -> (1 <= pad)%Z -> array_on g al -> array_on g gr ->
  ((exists gr', third_vector ov g al g gr = Ok gr') <-> (2 <= pad)%Z) /\ (pad = 1%Z -> third_vector ov g al g gr = UB OutOfBounds).
Proof. exact @third_viff. Qed.
Print Assumptions C68_third_order_vector_needs_two_layers.
Example C68_example : (exists g al gr, built Wrap 1 (V3 5 1 1)%Z 1 lo1 hi1 g /\ array_on g (al : array R) /\ array_on g (gr : array (vec3 R))) /\
  (exists g al gr, built Trap 1 (V3 5 1 1)%Z 2 lo1 hi1 g /\ array_on g (al : array R) /\ array_on g (gr : array (vec3 R))).
Proof.
  split.
  - destruct (grad_case (B := vec3 R) Wrap 1 _ 1 (fun p => vx p) vzero (proj1 good_1d) I) as (g & al & gr & Hb & _ & Ha & Hr & _). exists g, al, gr. auto.
  - destruct (grad_case (B := vec3 R) Trap 1 _ 2 (fun p => vx p) vzero (proj1 good_1dp2) (proj2 good_1dp2)) as (g & al & gr & Hb & _ & Ha & Hr & _). exists g, al, gr. auto.
Qed.

(** *** C69: which quotient every entry of a vector gradient is, for arbitrary data (the behaviour behind C30) *)
Theorem C69_second_order_entries : forall ov dim n pad bmin bmax (g : grid R), built ov dim n pad bmin bmax g ->
  let h a := spacing (vget bmin a) (vget bmax a) (vget n a) in
  forall al gr (f : vec3 R -> vec3 R), array_on g al -> array_on g gr -> samples ov dim n pad g al f -> (1 <= pad)%Z ->
  exists gr', soc_vector ov g al g gr = Ok gr' /\
  mat_result ov dim n pad g gr gr' (fun p r d => (vget (f (along p r (h r))) r - vget (f (along p r (- h r))) r) / (2 * h d)).
Proof. exact soc_vector_any. Qed.
Print Assumptions C69_second_order_entries.
Theorem C69_third_order_entries : forall ov dim n pad bmin bmax (g : grid R), built ov dim n pad bmin bmax g ->
  let h a := spacing (vget bmin a) (vget bmax a) (vget n a) in
  forall al gr (f : vec3 R -> vec3 R), array_on g al -> array_on g gr -> samples ov dim n pad g al f -> (2 <= pad)%Z ->
  exists gr', third_vector ov g al g gr = Ok gr' /\
  mat_result ov dim n pad g gr gr' (fun p r d => (2 * vget (f (along p r (h r))) r + 3 * vget (f p) r - 6 * vget (f (along p r (- h r))) r
                                   + vget (f (along p r (- 2 * h r))) r) / (6 * h d)).
Proof. exact third_vector_any. Qed.
Print Assumptions C69_third_order_entries.
