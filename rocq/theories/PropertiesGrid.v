(** Properties C01-C15: grids, arrays, small vectors. *)
From Coq Require Import ZArith List Reals QArith.
From Verif Require Import Base Num ModelVec ModelGrid ModelArray SpecGrid ProofsGrid ProofsArray ProofsGridProps.
Open Scope Z_scope.

(** *** C01 *)
Theorem C01_grid_can_be_built : forall (T : Type) (NT : Num T) ov dim n pad (bmin bmax : vec3 T),
  good_sizes dim n pad -> arith_ok ov dim n pad -> exists g, built ov dim n pad bmin bmax g.
Proof. exact @built_exists. Qed.
Print Assumptions C01_grid_can_be_built.

Theorem C01_storage_bijection : forall (T : Type) (NT : Num T) ov dim n pad (bmin bmax : vec3 T) (g : grid T),
  built ov dim n pad bmin bmax g ->
  (forall i j k, padded_cell dim n pad (i, j, k) ->
     exists s, index ov g i j k = Ok s /\ 0 <= s < grid_size g) /\
  (forall i j k i' j' k', padded_cell dim n pad (i, j, k) -> padded_cell dim n pad (i', j', k') ->
     index ov g i j k = index ov g i' j' k' -> (i, j, k) = (i', j', k')) /\
  (forall s, 0 <= s < grid_size g ->
     exists i j k, padded_cell dim n pad (i, j, k) /\ index ov g i j k = Ok s).
Proof. exact @storage_bijection. Qed.
Print Assumptions C01_storage_bijection.
Example C01_example : exists g : grid Q, built Trap 3 (V3 2 3 4) 2 (V3 0 0 0)%Q (V3 1 1 1)%Q g /\ grid_size g = 336.
Proof.
  destruct (@built_3d Q _ Trap (V3 0 0 0)%Q (V3 1 1 1)%Q) as (g & H).
  exists g. split; [exact H|]. rewrite (built_size _ _ _ _ _ _ _ H). reflexivity.
Qed.

(** *** C02 *)
Theorem C02_array_history : forall (T : Type) (NT : Num T) (A : Type) ov dim n pad (bmin bmax : vec3 T) (g : grid T)
    (a : array A) (ws : list (cell * A)),
  built ov dim n pad bmin bmax g -> array_on g a ->
  (forall c v, In (c, v) ws -> padded_cell dim n pad c) ->
  exists a', run_writes ov g ws a = Ok a' /\ array_on g a' /\
    (forall i j k, padded_cell dim n pad (i, j, k) ->
       exists v0, aget ov g a i j k = Ok v0 /\
       aget ov g a' i j k = Ok (match last_write ws (i, j, k) with Some v => v | None => v0 end)).
Proof. exact @array_history. Qed.
Print Assumptions C02_array_history.
Example C02_example : exists (g : grid Q) a',
  make_grid Trap 2 (V3 4 3 1) 1 (V3 0 0 0)%Q (V3 1 1 1)%Q = Ok g /\
  run_writes Trap g [((-1, 3, 0), 7%nat); ((0, 0, 0), 8%nat); ((-1, 3, 0), 9%nat)] (array_ctor g 0%nat) = Ok a' /\
  aget Trap g a' (-1) 3 0 = Ok 9%nat /\ aget Trap g a' 1 0 0 = Ok 0%nat.
Proof. eexists. eexists. split; [vm_compute; reflexivity|]. split; [vm_compute; reflexivity|]. vm_compute. auto. Qed.

(** *** C03: true for padding 1 only; with padding p every position is shifted by (p-1) cells. *)
Theorem C03_node_positions_partial : forall ov dim n pad (bmin bmax : vec3 R) (g : grid R) i j k,
  built ov dim n pad bmin bmax g -> padded_cell dim n pad (i, j, k) ->
  exists p, node ov g i j k = Ok p /\
    forall a, vget p a = (if used dim a
      then vget bmin a + (IZR (ccoord (i, j, k) a) + IZR pad - / 2) * spacing (vget bmin a) (vget bmax a) (vget n a)
      else 0)%R.
Proof. exact node_position. Qed.
Print Assumptions C03_node_positions_partial.

Theorem C03_centres_default_padding_partial : forall ov dim n (bmin bmax : vec3 R) (g : grid R) i j k,
  built ov dim n 1 bmin bmax g -> padded_cell dim n 1 (i, j, k) ->
  exists p, node ov g i j k = Ok p /\
    forall a, vget p a = (if used dim a
      then centre (vget bmin a) (vget bmax a) (vget n a) (ccoord (i, j, k) a) else 0)%R.
Proof. exact node_at_centre_pad1. Qed.
Print Assumptions C03_centres_default_padding_partial.

Theorem C03_refuted : exists (g : grid R) p,
  built Trap 1 (V3 5 1 1) 2 (V3 0 0 0)%R (V3 5 1 1)%R g /\
  padded_cell 1 (V3 5 1 1) 2 (0, 0, 0) /\
  node Trap g 0 0 0 = Ok p /\ vx p <> centre 0 5 5 0.
Proof. exact node_off_centre. Qed.
Print Assumptions C03_refuted.
Example C03_example : exists g : grid R, built Wrap 2 (V3 4 3 1) 1 (V3 0 0 0)%R (V3 1 1 1)%R g.
Proof. exact (built_2d Wrap _ _). Qed.

(** *** C04 *)
Theorem C04_base_node_encloses : forall ov dim n (bmin bmax : vec3 R) (g : grid R) x,
  built ov dim n 1 bmin bmax g ->
  (forall a, used dim a = true -> (vget bmin a < vget bmax a)%R) ->
  lat_fits dim n bmin bmax x ->
  exists b, baseNodeId g x = Ok b /\
    forall a, if used dim a then
        let lo := vget bmin a in let hi := vget bmax a in let m := vget n a in
        (centre lo hi m (vget b a) <= vget x a < centre lo hi m (vget b a + 1))%R /\
        (forall z, (centre lo hi m z <= vget x a < centre lo hi m (z + 1))%R -> z = vget b a) /\
        (0 <= (vget x a - centre lo hi m (vget b a)) * vget (g_odx g) a < 1)%R
      else vget b a = INT_MAX.
Proof. exact base_encloses. Qed.
Print Assumptions C04_base_node_encloses.

Theorem C04_unrepresentable_is_undefined : forall ov dim n pad (bmin bmax : vec3 R) (g : grid R) x,
  built ov dim n pad bmin bmax g -> ~ lat_fits dim n bmin bmax x -> baseNodeId g x = UB FloatToInt.
Proof. exact base_unrepresentable. Qed.
Print Assumptions C04_unrepresentable_is_undefined.
Example C04_example : exists (g : grid Q) b,
  make_grid Trap 2 (V3 4 3 1) 1 (V3 0 0 0)%Q (V3 4 3 1)%Q = Ok g /\
  baseNodeId g (V3 (Qmake 7 10) (Qmake 26 10) 0)%Q = Ok b /\ b = V3 0 2 INT_MAX.
Proof. eexists. eexists. split; [vm_compute; reflexivity|]. split; [vm_compute; reflexivity|]. vm_compute; reflexivity. Qed.

(** *** C05 *)
Theorem C05_fresh_array : forall (T : Type) (NT : Num T) (A : Type) ov dim n pad (bmin bmax : vec3 T) (g : grid T) (d : A),
  built ov dim n pad bmin bmax g ->
  array_on g (array_ctor g d) /\
  forall i j k, padded_cell dim n pad (i, j, k) -> aget ov g (array_ctor g d) i j k = Ok d.
Proof. exact @fresh_array. Qed.
Print Assumptions C05_fresh_array.

Theorem C05_fresh_fields : forall (T : Type) (NT : Num T) ov dim n pad (bmin bmax : vec3 T) (g : grid T),
  built ov dim n pad bmin bmax g ->
  let l := levelset_ctor g in let lv := ls_velocity_ctor g in
  let z := nofZ 0 in
  forall i j k, padded_cell dim n pad (i, j, k) ->
    aget ov g (ls_phi l) i j k = Ok z /\ aget ov g (ls_psi l) i j k = Ok (V3 z z z) /\
    aget ov g (ls_phi_prev l) i j k = Ok z /\ aget ov g (ls_psi_prev l) i j k = Ok (V3 z z z) /\
    aget ov g (ls_phi_interp l) i j k = Ok z /\ aget ov g (ls_psi_interp l) i j k = Ok (V3 z z z) /\
    (exists m, aget ov g (ls_mix l) i j k = Ok m /\ aget ov g (ls_mix_prev l) i j k = Ok m /\
       Forall (eq z) m /\
       length m = match dim with 1%nat => 0%nat | 2%nat => 1%nat | _ => 4%nat end) /\
    aget ov g (lv_vel lv) i j k = Ok (V3 z z z) /\
    aget ov g (lv_grad lv) i j k = Ok (M3 (V3 z z z) (V3 z z z) (V3 z z z)).
Proof. exact @fresh_fields. Qed.
Print Assumptions C05_fresh_fields.
Example C05_example : padded_cell 2 (V3 4 3 1) 1 (-1, 3, 0) /\ exists g : grid R, built Trap 2 (V3 4 3 1) 1 (V3 0 0 0)%R (V3 1 1 1)%R g.
Proof. split; [intros [| |]; cbn; lia|]. exact (built_2d Trap _ _). Qed.

(** *** C06 *)
Theorem C06_assign_deep_copy : forall (T : Type) (NT : Num T) (A : Type) ov dim n pad (bmin bmax : vec3 T) (g : grid T)
    (a b : array A) (ws : list (cell * A)),
  built ov dim n pad bmin bmax g -> array_on g a -> array_on g b ->
  (forall c v, In (c, v) ws -> padded_cell dim n pad c) ->
  let b1 := array_assign b a in
  array_on g b1 /\
  (forall i j k, aget ov g b1 i j k = aget ov g a i j k) /\
  (exists b2, run_writes ov g ws b1 = Ok b2 /\
     forall i j k, padded_cell dim n pad (i, j, k) ->
       exists v0, aget ov g a i j k = Ok v0 /\
         aget ov g b2 i j k = Ok (match last_write ws (i, j, k) with Some v => v | None => v0 end)) /\
  (exists a2, run_writes ov g ws a = Ok a2 /\
     forall i j k, padded_cell dim n pad (i, j, k) ->
       exists v0, aget ov g b1 i j k = Ok v0 /\
         aget ov g a2 i j k = Ok (match last_write ws (i, j, k) with Some v => v | None => v0 end)).
Proof. exact @assign_deep_copy. Qed.
Print Assumptions C06_assign_deep_copy.
Example C06_example : exists g : grid Q, built Trap 2 (V3 4 3 1) 1 (V3 0 0 0)%Q (V3 1 1 1)%Q g /\
  array_on g (array_ctor g 1%nat) /\ array_on g (array_ctor g 2%nat).
Proof.
  destruct (@built_2d Q _ Trap (V3 0 0 0)%Q (V3 1 1 1)%Q) as (g & H). exists g.
  split; [exact H|]. split; eapply fresh_array; eauto.
Qed.

(** *** C07: true when unused axes have one cell; false otherwise. *)
Theorem C07_total_cells_partial : forall (T : Type) (NT : Num T) ov dim n pad (bmin bmax : vec3 T) (g : grid T),
  built ov dim n pad bmin bmax g ->
  total_cells g = Z.of_nat (length (interior (num_cells g))).
Proof. exact @total_cells_counts. Qed.
Print Assumptions C07_total_cells_partial.
Theorem C07_refuted : exists (g : grid Q),
  make_grid Trap 1 (V3 2 3 1) 1 (V3 0 0 0)%Q (V3 1 1 1)%Q = Ok g /\
  total_cells g = 2 /\ length (interior (num_cells g)) = 6%nat.
Proof. exact total_cells_unused_axes. Qed.
Print Assumptions C07_refuted.
Example C07_example : exists g : grid Q, built Wrap 3 (V3 2 3 4) 2 (V3 0 0 0)%Q (V3 1 1 1)%Q g.
Proof. exact (built_3d Wrap _ _). Qed.

(** The constructors that take one or two counts give the grid one cell on the other axes. *)
Theorem C07_short_constructors : forall (T : Type) (NT : Num T) ov pad (bmin bmax : vec3 T) nx ny,
  (good_sizes 1 (V3 nx 1 1) pad -> arith_ok ov 1 (V3 nx 1 1) pad -> exists g,
     bind (grid_ctor1 ov 1 nx) (fun g0 => generate ov (set_padding g0 pad) bmin bmax) = Ok g /\
     num_cells g = V3 nx 1 1 /\ total_cells g = nx /\ grid_size g = nx + 2 * pad) /\
  (good_sizes 2 (V3 nx ny 1) pad -> arith_ok ov 2 (V3 nx ny 1) pad -> exists g,
     bind (grid_ctor2 ov 2 nx ny) (fun g0 => generate ov (set_padding g0 pad) bmin bmax) = Ok g /\
     num_cells g = V3 nx ny 1 /\ total_cells g = nx * ny /\ grid_size g = (nx + 2 * pad) * (ny + 2 * pad)).
Proof. exact @short_ctors. Qed.
Print Assumptions C07_short_constructors.
Example C07_short_example : good_sizes 1 (V3 5 1 1) 1 /\ arith_ok Trap 1 (V3 5 1 1) 1 /\ good_sizes 2 (V3 4 3 1) 1 /\ arith_ok Trap 2 (V3 4 3 1) 1.
Proof. destruct good_1d, good_2d. auto. Qed.

(** *** C08: false. Coordinates beyond DIM are ignored. *)
Theorem C08_unused_coordinates_ignored : forall (T : Type) ov (g : grid T) c c' s s',
  (1 <= g_dim g <= 3)%nat ->
  (forall a, used (g_dim g) a = true -> ccoord c a = ccoord c' a) ->
  index ov g (ccoord c AX) (ccoord c AY) (ccoord c AZ) = Ok s ->
  index ov g (ccoord c' AX) (ccoord c' AY) (ccoord c' AZ) = Ok s' -> s = s'.
Proof. exact @index_ignores_unused. Qed.
Print Assumptions C08_unused_coordinates_ignored.
Theorem C08_refuted : exists (g : grid Q),
  make_grid Trap 1 (V3 2 3 1) 1 (V3 0 0 0)%Q (V3 1 1 1)%Q = Ok g /\
  In (0, 0, 0) (interior (num_cells g)) /\ In (0, 1, 0) (interior (num_cells g)) /\
  index Trap g 0 0 0 = index Trap g 0 1 0.
Proof. exact unused_axis_alias. Qed.
Print Assumptions C08_refuted.

(** *** C09: in 3-D there is never an overflow; in 1-D and 2-D there is one exactly when the
    term that the mask discards does not fit. *)
Theorem C09_overflow_exact : forall (T : Type) dim n pad tot bmin bmax dx odx nodes i j k,
  good_sizes dim n pad -> padded_cell dim n pad (i, j, k) ->
  (masked_terms_fit dim n pad ->
     exists s, index Trap (mkGrid dim n pad tot bmin bmax dx odx nodes : grid T) i j k = Ok s) /\
  (~ masked_terms_fit dim n pad ->
     index Trap (mkGrid dim n pad tot bmin bmax dx odx nodes : grid T) i j k = UB SignedOverflow).
Proof. intros. apply index_overflow_exact; assumption. Qed.
Print Assumptions C09_overflow_exact.
Theorem C09_generate_overflows : forall (T : Type) (NT : Num T) dim n pad (bmin bmax : vec3 T),
  good_sizes dim n pad -> ~ masked_terms_fit dim n pad ->
  make_grid Trap dim n pad bmin bmax = UB SignedOverflow.
Proof. exact @make_grid_overflow. Qed.
Print Assumptions C09_generate_overflows.
Theorem C09_refuted : exists n pad, good_sizes 1 n pad /\
  forall (T : Type) (NT : Num T) (bmin bmax : vec3 T), make_grid Trap 1 n pad bmin bmax = UB SignedOverflow.
Proof. exact big_1d_overflows. Qed.
Print Assumptions C09_refuted.
Example C09_example : good_sizes 2 (V3 4 3 1) 1 /\ masked_terms_fit 2 (V3 4 3 1) 1.
Proof. exact good_2d. Qed.

(** *** C10: false in 1-D and 2-D under the standard's semantics; harmless with wrap-around. *)
Theorem C10_lookup_overflows : forall (T : Type) (NT : Num T) dim n pad (bmin bmax : vec3 T) (g : grid T) x b,
  built Trap dim n pad bmin bmax g -> (dim < 3)%nat -> 1 <= pad ->
  baseNodeId g x = Ok b -> node_v Trap g b = UB SignedOverflow.
Proof. exact @base_node_lookup_trap. Qed.
Print Assumptions C10_lookup_overflows.
Theorem C10_lookup_defined_partial : forall (T : Type) (NT : Num T) ov dim n pad (bmin bmax : vec3 T) (g : grid T) x b,
  built ov dim n pad bmin bmax g -> (ov = Wrap \/ dim = 3%nat) ->
  baseNodeId g x = Ok b ->
  (forall a, used dim a = true -> - pad <= vget b a < vget n a + pad) ->
  exists p, node_v ov g b = Ok p.
Proof. exact @base_node_lookup_defined. Qed.
Print Assumptions C10_lookup_defined_partial.
Theorem C10_refuted : exists (g : grid Q) b,
  make_grid Trap 2 (V3 4 3 1) 1 (V3 0 0 0)%Q (V3 4 3 1)%Q = Ok g /\
  baseNodeId g (V3 (Qmake 7 10) (Qmake 26 10) 0)%Q = Ok b /\ node_v Trap g b = UB SignedOverflow.
Proof. eexists. eexists. split; [vm_compute; reflexivity|]. split; [vm_compute; reflexivity|]. vm_compute; reflexivity. Qed.
Print Assumptions C10_refuted.
Example C10_example : exists (g : grid Q) b p,
  make_grid Wrap 2 (V3 4 3 1) 1 (V3 0 0 0)%Q (V3 4 3 1)%Q = Ok g /\
  baseNodeId g (V3 (Qmake 7 10) (Qmake 26 10) 0)%Q = Ok b /\ node_v Wrap g b = Ok p.
Proof. eexists. eexists. eexists. split; [vm_compute; reflexivity|]. split; [vm_compute; reflexivity|]. vm_compute; reflexivity. Qed.

(** *** C11: false. Any other padding moves cell (0,0,0) to another slot; a larger one reads
    outside the storage. *)
Theorem C11_repadding_moves_cells : forall (T : Type) (NT : Num T) ov dim n pad q (bmin bmax : vec3 T) (g : grid T),
  built ov dim n pad bmin bmax g -> good_sizes dim n q -> arith_ok ov dim n q -> q <> pad ->
  forall s s', index ov g 0 0 0 = Ok s -> index ov (set_padding g q) 0 0 0 = Ok s' -> s <> s'.
Proof. exact @repadded_slot. Qed.
Print Assumptions C11_repadding_moves_cells.
Theorem C11_larger_padding_out_of_bounds : forall (T : Type) (NT : Num T) ov dim n pad q (bmin bmax : vec3 T) (g : grid T),
  built ov dim n pad bmin bmax g -> good_sizes dim n q -> arith_ok ov dim n q -> pad < q ->
  let last a := if used dim a then vget n a + q - 1 else 0 in
  node ov (set_padding g q) (last AX) (last AY) (last AZ) = UB OutOfBounds.
Proof. exact @grown_padding_out_of_bounds. Qed.
Print Assumptions C11_larger_padding_out_of_bounds.
Theorem C11_refuted : exists (g : grid Q),
  make_grid Trap 1 (V3 5 1 1) 1 (V3 0 0 0)%Q (V3 5 1 1)%Q = Ok g /\
  node Trap g 0 0 0 = Ok (V3 (Qmake 1 2) 0 0)%Q /\ node Trap (set_padding g 2) 0 0 0 = Ok (V3 (Qmake 3 2) 0 0)%Q /\
  node Trap (set_padding g 2) 6 0 0 = UB OutOfBounds.
Proof. eexists. split; [vm_compute; reflexivity|]. split; [vm_compute; reflexivity|]. split; [vm_compute; reflexivity|]. vm_compute; reflexivity. Qed.
Print Assumptions C11_refuted.

(** *** C12: false exactly when the first two components tie below the third. *)
Theorem C12_min_exact : forall v : vec3 R,
  (exists a, vmin v = vget v a) /\
  ((forall a, (vmin v <= vget v a)%R) <-> ~ (vx v = vy v /\ (vx v < vz v)%R)).
Proof. exact (fun v => conj (vmin_component v) (vmin_smallest_iff v)). Qed.
Print Assumptions C12_min_exact.
Theorem C12_refuted : exists v : vec3 Q, vmin v = 2%Q /\ vx v = 1%Q.
Proof. exact (ex_intro _ (V3 1 1 2)%Q (conj eq_refl eq_refl)). Qed.
Print Assumptions C12_refuted.

(** *** C13 *)
Theorem C13_approximate_equality :
  (forall a b : R, is_equal a b = true <-> (Rabs (a - b) <= / 10000000000)%R) /\
  (forall u v : vec3 R, veqb u v = true <-> forall a, (Rabs (vget u a - vget v a) <= / 10000000000)%R) /\
  (forall m p : mat3 R, meqb m p = true <-> forall r c, (Rabs (mget m r c - mget p r c) <= / 10000000000)%R) /\
  ((forall a : R, is_equal a a = true) /\ (forall a b : R, is_equal a b = is_equal b a)) /\
  (exists a b c : R, is_equal a b = true /\ is_equal b c = true /\ is_equal a c = false).
Proof. exact (conj is_equal_iff (conj veqb_iff (conj meqb_iff (conj is_equal_refl_sym is_equal_not_trans)))). Qed.
Print Assumptions C13_approximate_equality.

(** *** C14 *)
Theorem C14_dot_is_transpose_product : forall (m : mat3 R) (v : vec3 R) i,
  (vget (mdot m v) i = mget m AX i * vx v + mget m AY i * vy v + mget m AZ i * vz v)%R.
Proof. exact mdot_R. Qed.
Print Assumptions C14_dot_is_transpose_product.
Theorem C14_dot_identity_linear :
  (forall v : vec3 R, mdot midentity v = v) /\
  (forall (m : mat3 R) u v (s : R) i, (vget (mdot m (vsub u (vscale v s))) i = vget (mdot m u) i - vget (mdot m v) i * s)%R) /\
  (forall (m p : mat3 R) v (s : R) i, (vget (mdot (msub m (mscale p s)) v) i = vget (mdot m v) i - vget (mdot p v) i * s)%R).
Proof. exact mdot_laws. Qed.
Print Assumptions C14_dot_identity_linear.
Example C14_example : mdot (M3 (V3 1 2 3) (V3 4 5 6) (V3 7 8 9))%Q (V3 1 10 100)%Q = (V3 741 852 963)%Q.
Proof. vm_compute. reflexivity. Qed.

(** *** C15: false. Test builds read out of range for short vectors and accept long ones; release
    builds exit for every vector. *)
Theorem C15_test_build_partial : forall (A : Type) (l : list A),
  vec3_of_vector true l = match l with a :: b :: c :: _ => Ok (V3 a b c) | _ => UB OutOfBounds end.
Proof. exact @vec3_of_vector_test. Qed.
Print Assumptions C15_test_build_partial.
Theorem C15_release_build_exits : forall (A : Type) (l : list A), vec3_of_vector false l = Exit 0.
Proof. exact @vec3_of_vector_release. Qed.
Print Assumptions C15_release_build_exits.
Theorem C15_refuted :
  (exists l : list nat, length l = 2%nat /\ vec3_of_vector true l = UB OutOfBounds) /\
  (exists l : list nat, length l = 3%nat /\ vec3_of_vector false l = Exit 0).
Proof. split; [exists [1%nat; 2%nat]|exists [1%nat; 2%nat; 3%nat]]; split; reflexivity. Qed.
Print Assumptions C15_refuted.
