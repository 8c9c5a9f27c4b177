(** Model of the Hermite and linear interpolation:
    include/gals/cpu/interpolation/hermite.h, src/cpu/interpolation/*.cc, src/cpu/interpolate.cc. *)
From Coq Require Import ZArith List.
From Verif Require Import Base Num ModelVec ModelGrid ModelArray.
Open Scope num_scope.

Section Interp.
Context {T : Type} {NT : Num T}.

(** hermite.h:49-52 ControlPoints *)
Record control_points := mkCP { c_30 : T; c_21 : T; c_12 : T; c_03 : T }.

(** hermite.h:56-102 cubic Bernstein polynomials and their derivatives.
    [-(T)3.0] is written #(-3). *)
Definition B0 (eta : T) : T := cube (#1 - eta).
Definition B1 (eta : T) : T := #3 * eta * sqr (#1 - eta).
Definition B2 (eta : T) : T := #3 * sqr eta * (#1 - eta).
Definition B3 (eta : T) : T := cube eta.
Definition B0_Prime (eta : T) : T := #(-3) * sqr (#1 - eta).
Definition B1_Prime (eta : T) : T := #3 * (#1 - eta) * (#1 - #3 * eta).
Definition B2_Prime (eta : T) : T := #3 * eta * (#2 - #3 * eta).
Definition B3_Prime (eta : T) : T := #3 * sqr eta.

(** hermite.h:115-143 get_control_points *)
Definition get_control_points (phi_0 phi_x_0 phi_1 phi_x_1 dx : T) (use_gradient_limiting : bool)
  : control_points :=
  let c30 := phi_0 in
  let c21 := phi_0 + (phi_x_0 * dx * one_third) in
  let c12 := phi_1 - (phi_x_1 * dx * one_third) in
  let c03 := phi_1 in
  if use_gradient_limiting then
    let D1 := #3 * (c21 - c30) in
    let D2 := #3 * (c03 - c12) in
    let D3 := three_halves * (c12 - c30) in
    let D4 := three_halves * (c03 - c21) in
    let D5 := c03 - c30 in
    if (D1 - D3) * (D1 - D5) <? #0 then mkCP c30 c21 (#2 * c21 - c30) c03
    else if (D2 - D4) * (D2 - D5) <? #0 then mkCP c30 (#2 * c12 - c03) c12 c03
    else if (D1 - D5) * (D2 - D5) <=? #0 then
      mkCP c30 ((two_thirds * c30) + (one_third * c03)) ((two_thirds * c03) + (one_third * c30)) c03
    else mkCP c30 c21 c12 c03
  else mkCP c30 c21 c12 c03.

(** The level-set data read at one node by the interpolation: phiPrev, psiPrev and the
    entries of phiMixedDerivativesPrev ([0]=xy, [1]=yz, [2]=zx, [3]=xyz). *)
Record nodal := mkNodal { q_phi : T; q_psi : vec3 T; q_m0 : T; q_m1 : T; q_m2 : T; q_m3 : T }.

(** levelset.h:49-63 InterpolatedFields *)
Record fields := mkFields { f_phi : T; f_psi : vec3 T }.

(** *** 1-D: hermite-1d.cc:55-65, arithmetic part (the data are already read) *)
Definition hermite1 (q0 q1 : nodal) (eta dx odx : T) (lim : bool) : fields :=
  let cp := get_control_points (q_phi q0) (vx (q_psi q0)) (q_phi q1) (vx (q_psi q1)) dx lim in
  mkFields
    (c_30 cp * B0 eta + c_21 cp * B1 eta + c_12 cp * B2 eta + c_03 cp * B3 eta)
    (vset vzero AX
      ((c_30 cp * B0_Prime eta + c_21 cp * B1_Prime eta + c_12 cp * B2_Prime eta
        + c_03 cp * B3_Prime eta) * odx)).

(** *** 2-D: hermite-2d.cc:60-102, the 16 control points, i (x) major.
    qab: a = offset in x, b = offset in y. *)
Definition control_points_2d (q00 q10 q01 q11 : nodal) (dx : vec3 T) (lim : bool) : list T :=
  let bottom := get_control_points (q_phi q00) (vx (q_psi q00)) (q_phi q10) (vx (q_psi q10)) (vx dx) lim in
  let top := get_control_points (q_phi q01) (vx (q_psi q01)) (q_phi q11) (vx (q_psi q11)) (vx dx) lim in
  let left := get_control_points (q_phi q00) (vy (q_psi q00)) (q_phi q01) (vy (q_psi q01)) (vy dx) lim in
  let right := get_control_points (q_phi q10) (vy (q_psi q10)) (q_phi q11) (vy (q_psi q11)) (vy dx) lim in
  let c_1 := vy (q_psi q00) + vx dx * one_third * q_m0 q00 in
  let c_2 := vx (q_psi q10) + vy dx * one_third * q_m0 q10 in
  let c_2_prime := vx (q_psi q11) - vy dx * one_third * q_m0 q11 in
  let c_3 := vy (q_psi q01) + vx dx * one_third * q_m0 q01 in
  [ c_30 left;
    c_21 left;
    c_12 left;
    c_03 left;
    c_21 bottom;
    c_21 bottom + vy dx * one_third * c_1;
    c_21 top - vy dx * one_third * c_3;
    c_21 top;
    c_12 bottom;
    c_21 right - vx dx * one_third * c_2;
    c_12 right - vx dx * one_third * c_2_prime;
    c_12 top;
    c_30 right;
    c_21 right;
    c_12 right;
    c_03 right ].

Definition bern (eta : T) : list T := [B0 eta; B1 eta; B2 eta; B3 eta].
Definition bern' (eta : T) : list T := [B0_Prime eta; B1_Prime eta; B2_Prime eta; B3_Prime eta].

(** sum += w * control_points_all[k], in the order of the loops *)
Definition wsum (w c : list T) : T :=
  fold_left (fun acc p => acc + fst p * snd p) (combine w c) #0.
(** bx[i]*by[j] for i, for j *)
Definition tens2 (bx by_ : list T) : list T :=
  flat_map (fun x => map (fun y => x * y) by_) bx.
(** bx[i]*by[j]*bz[k] for i, for j, for k *)
Definition tens3 (bx by_ bz : list T) : list T :=
  flat_map (fun x => flat_map (fun y => map (fun z => x * y * z) bz) by_) bx.

(** hermite-2d.cc:104-122 the three sums *)
Definition hermite2 (q00 q10 q01 q11 : nodal) (eta dx odx : vec3 T) (lim : bool) : fields :=
  let c := control_points_2d q00 q10 q01 q11 dx lim in
  let bx := bern (vx eta) in let by_ := bern (vy eta) in
  let bx' := bern' (vx eta) in let by' := bern' (vy eta) in
  mkFields (wsum (tens2 bx by_) c)
    (V3 (wsum (tens2 bx' by_) c * vx odx) (wsum (tens2 bx by') c * vy odx) #0).

(** *** 3-D: hermite-3d.cc:70-345, the 64 control points, order i (x), j (y), k (z);
    names as in the source, with cp for control_points.
    qabc: a,b,c = offsets in x,y,z (base_i_j_k is q000, base_ip1_j_k is q100, ...). *)
Definition control_points_3d (q000 q100 q010 q001 q110 q011 q101 q111 : nodal)
    (dx : vec3 T) (lim : bool) : list T :=
  let cp_x := get_control_points (q_phi q000) (vx (q_psi q000)) (q_phi q100) (vx (q_psi q100)) (vx dx) lim in
  let cp_y := get_control_points (q_phi q000) (vy (q_psi q000)) (q_phi q010) (vy (q_psi q010)) (vy dx) lim in
  let cp_z := get_control_points (q_phi q000) (vz (q_psi q000)) (q_phi q001) (vz (q_psi q001)) (vz dx) lim in
  let cp_xy := get_control_points (q_phi q100) (vy (q_psi q100)) (q_phi q110) (vy (q_psi q110)) (vy dx) lim in
  let cp_yx := get_control_points (q_phi q010) (vx (q_psi q010)) (q_phi q110) (vx (q_psi q110)) (vx dx) lim in
  let cp_xz := get_control_points (q_phi q100) (vz (q_psi q100)) (q_phi q101) (vz (q_psi q101)) (vz dx) lim in
  let cp_zxy := get_control_points (q_phi q101) (vy (q_psi q101)) (q_phi q111) (vy (q_psi q111)) (vy dx) lim in
  let cp_xyz := get_control_points (q_phi q110) (vz (q_psi q110)) (q_phi q111) (vz (q_psi q111)) (vz dx) lim in
  let cp_zx := get_control_points (q_phi q001) (vx (q_psi q001)) (q_phi q101) (vx (q_psi q101)) (vx dx) lim in
  let cp_zy := get_control_points (q_phi q001) (vy (q_psi q001)) (q_phi q011) (vy (q_psi q011)) (vy dx) lim in
  let cp_yzx := get_control_points (q_phi q011) (vx (q_psi q011)) (q_phi q111) (vx (q_psi q111)) (vx dx) lim in
  let cp_yz := get_control_points (q_phi q010) (vz (q_psi q010)) (q_phi q011) (vz (q_psi q011)) (vz dx) lim in
  let cp_y_z := get_control_points (vz (q_psi q000)) (q_m1 q000) (vz (q_psi q010)) (q_m1 q010) (vy dx) lim in
  let cp_zy_z := get_control_points (vz (q_psi q001)) (q_m1 q001) (vz (q_psi q011)) (q_m1 q011) (vy dx) lim in
  let cp_z_x := get_control_points (vx (q_psi q000)) (q_m2 q000) (vx (q_psi q001)) (q_m2 q001) (vz dx) lim in
  let cp_x_y := get_control_points (vy (q_psi q000)) (q_m0 q000) (vy (q_psi q100)) (q_m0 q100) (vx dx) lim in
  let cp_z_xy := get_control_points (q_m0 q000) (q_m3 q000) (q_m0 q001) (q_m3 q001) (vz dx) lim in
  let cp_z_y := get_control_points (vy (q_psi q000)) (q_m1 q000) (vy (q_psi q001)) (q_m1 q001) (vz dx) lim in
  let cp_x_z := get_control_points (vz (q_psi q000)) (q_m2 q000) (vz (q_psi q100)) (q_m2 q100) (vx dx) lim in
  let cp_zx_z := get_control_points (vz (q_psi q001)) (q_m2 q001) (vz (q_psi q101)) (q_m2 q101) (vx dx) lim in
  let cp_zx_y := get_control_points (vy (q_psi q001)) (q_m0 q001) (vy (q_psi q101)) (q_m0 q101) (vx dx) lim in
  let cp_yx_y := get_control_points (vy (q_psi q010)) (q_m0 q010) (vy (q_psi q110)) (q_m0 q110) (vx dx) lim in
  let cp_yz_xy := get_control_points (q_m0 q010) (q_m3 q010) (q_m0 q011) (q_m3 q011) (vz dx) lim in
  let cp_yz_y := get_control_points (vy (q_psi q010)) (q_m1 q010) (vy (q_psi q011)) (q_m1 q011) (vz dx) lim in
  let cp_yx_z := get_control_points (vz (q_psi q010)) (q_m2 q010) (vz (q_psi q110)) (q_m2 q110) (vx dx) lim in
  let cp_yzx_y := get_control_points (vy (q_psi q011)) (q_m0 q011) (vy (q_psi q111)) (q_m0 q111) (vx dx) lim in
  let cp_yzx_z := get_control_points (vz (q_psi q011)) (q_m2 q011) (vz (q_psi q111)) (q_m2 q111) (vx dx) lim in
  let cp_xz_xy := get_control_points (q_m0 q100) (q_m3 q100) (q_m0 q101) (q_m3 q101) (vz dx) lim in
  let cp_xz_y := get_control_points (vy (q_psi q100)) (q_m1 q100) (vy (q_psi q101)) (q_m1 q101) (vz dx) lim in
  let cp_xyz_xy := get_control_points (q_m0 q110) (q_m3 q110) (q_m0 q111) (q_m3 q111) (vz dx) lim in
  let cp_xyz_y := get_control_points (vy (q_psi q110)) (q_m1 q110) (vy (q_psi q111)) (q_m1 q111) (vz dx) lim in
  let cp_xy_z := get_control_points (vz (q_psi q100)) (q_m1 q100) (vz (q_psi q110)) (q_m1 q110) (vy dx) lim in
  let cp_zxy_z := get_control_points (vz (q_psi q101)) (q_m1 q101) (vz (q_psi q111)) (q_m1 q111) (vy dx) lim in
  let c_21_x := c_21 cp_x in
  let c_12_x := c_12 cp_x in
  let c_21_y := c_21 cp_y in
  let c_12_y := c_12 cp_y in
  let c_30_z := c_30 cp_z in
  let c_21_z := c_21 cp_z in
  let c_12_z := c_12 cp_z in
  let c_03_z := c_03 cp_z in
  let c_21_xy := c_21 cp_xy in
  let c_12_xy := c_12 cp_xy in
  let c_21_yx := c_21 cp_yx in
  let c_12_yx := c_12 cp_yx in
  let c_30_xz := c_30 cp_xz in
  let c_21_xz := c_21 cp_xz in
  let c_12_xz := c_12 cp_xz in
  let c_03_xz := c_03 cp_xz in
  let c_21_zxy := c_21 cp_zxy in
  let c_12_zxy := c_12 cp_zxy in
  let c_30_xyz := c_30 cp_xyz in
  let c_21_xyz := c_21 cp_xyz in
  let c_12_xyz := c_12 cp_xyz in
  let c_03_xyz := c_03 cp_xyz in
  let c_21_zx := c_21 cp_zx in
  let c_12_zx := c_12 cp_zx in
  let c_21_zy := c_21 cp_zy in
  let c_12_zy := c_12 cp_zy in
  let c_21_yzx := c_21 cp_yzx in
  let c_12_yzx := c_12 cp_yzx in
  let c_30_yz := c_30 cp_yz in
  let c_21_yz := c_21 cp_yz in
  let c_12_yz := c_12 cp_yz in
  let c_03_yz := c_03 cp_yz in
  let c_21_y_z := c_21 cp_y_z in
  let c_12_y_z := c_12 cp_y_z in
  let c_21_zy_z := c_21 cp_zy_z in
  let c_12_zy_z := c_12 cp_zy_z in
  let c_21_z_x := c_21 cp_z_x in
  let c_12_z_x := c_12 cp_z_x in
  let c_21_x_y := c_21 cp_x_y in
  let c_12_x_y := c_12 cp_x_y in
  let c_21_z_xy := c_21 cp_z_xy in
  let c_12_z_xy := c_12 cp_z_xy in
  let c_21_z_y := c_21 cp_z_y in
  let c_12_z_y := c_12 cp_z_y in
  let c_21_x_z := c_21 cp_x_z in
  let c_12_x_z := c_12 cp_x_z in
  let c_21_zx_z := c_21 cp_zx_z in
  let c_12_zx_z := c_12 cp_zx_z in
  let c_21_zx_y := c_21 cp_zx_y in
  let c_12_zx_y := c_12 cp_zx_y in
  let c_21_yx_y := c_21 cp_yx_y in
  let c_12_yx_y := c_12 cp_yx_y in
  let c_21_yz_xy := c_21 cp_yz_xy in
  let c_12_yz_xy := c_12 cp_yz_xy in
  let c_21_yz_y := c_21 cp_yz_y in
  let c_12_yz_y := c_12 cp_yz_y in
  let c_21_yx_z := c_21 cp_yx_z in
  let c_12_yx_z := c_12 cp_yx_z in
  let c_21_yzx_y := c_21 cp_yzx_y in
  let c_12_yzx_y := c_12 cp_yzx_y in
  let c_21_yzx_z := c_21 cp_yzx_z in
  let c_12_yzx_z := c_12 cp_yzx_z in
  let c_21_xz_xy := c_21 cp_xz_xy in
  let c_12_xz_xy := c_12 cp_xz_xy in
  let c_21_xz_y := c_21 cp_xz_y in
  let c_12_xz_y := c_12 cp_xz_y in
  let c_21_xyz_xy := c_21 cp_xyz_xy in
  let c_12_xyz_xy := c_12 cp_xyz_xy in
  let c_21_xyz_y := c_21 cp_xyz_y in
  let c_12_xyz_y := c_12 cp_xyz_y in
  let c_21_xy_z := c_21 cp_xy_z in
  let c_12_xy_z := c_12 cp_xy_z in
  let c_21_zxy_z := c_21 cp_zxy_z in
  let c_12_zxy_z := c_12 cp_zxy_z in
  let hx_by_three := vx dx * one_third in
  let hy_by_three := vy dx * one_third in
  let hz_by_three := vz dx * one_third in
  [ c_30_z;
    c_21_z;
    c_12_z;
    c_03_z;
    c_21_y;
    c_21_y + (vz dx * one_third * c_21_y_z);
    c_21_zy - (vz dx * one_third * c_21_zy_z);
    c_21_zy;
    c_12_y;
    c_12_y + (vz dx * one_third * c_12_y_z);
    c_12_zy - (vz dx * one_third * c_12_zy_z);
    c_12_zy;
    c_30_yz;
    c_21_yz;
    c_12_yz;
    c_03_yz;
    c_21_x;
    c_21_z + (vx dx * one_third * c_21_z_x);
    c_12_z + (vx dx * one_third * c_12_z_x);
    c_21_zx;
    c_21_x + (vy dx * one_third * c_21_x_y);
    c_21_x + (hx_by_three * hy_by_three * c_21_z_xy) + (hy_by_three * c_21_z_y) + (hz_by_three * c_21_x_z);
    c_21_zx + (hx_by_three * hy_by_three * c_12_z_xy) + (hy_by_three * c_12_z_y) - (hz_by_three * c_21_zx_z);
    c_21_zx + (hy_by_three * c_21_zx_y);
    c_21_yx - (hy_by_three * c_21_yx_y);
    c_21_yx - (hx_by_three * hy_by_three * c_21_yz_xy) - (hy_by_three * c_21_yz_y) + (hz_by_three * c_21_yx_z);
    c_21_yzx - (hx_by_three * hy_by_three * c_12_yz_xy) - (hy_by_three * c_12_yz_y) - (hz_by_three * c_21_yzx_z);
    c_21_yzx - (hy_by_three * c_21_yzx_y);
    c_21_yx;
    c_21_yx + (hz_by_three * c_21_yx_z);
    c_21_yzx - (hz_by_three * c_21_yzx_z);
    c_21_yzx;
    c_12_x;
    c_12_x + (hz_by_three * c_12_x_z);
    c_12_zx - (hz_by_three * c_12_zx_z);
    c_12_zx;
    c_12_x + (hy_by_three * c_12_x_y);
    c_12_x - (hx_by_three * hy_by_three * c_21_xz_xy) + (hy_by_three * c_21_xz_y) + (hz_by_three * c_12_x_z);
    c_12_zx - (hx_by_three * hy_by_three * c_12_xz_xy) + (hy_by_three * c_12_xz_y) - (hz_by_three * c_12_zx_z);
    c_12_zx + (hy_by_three * c_12_zx_y);
    c_12_yx - (hy_by_three * c_12_yx_y);
    c_12_yx + (hx_by_three * hy_by_three * c_21_xyz_xy) - (hy_by_three * c_21_xyz_y) + (hz_by_three * c_12_yx_z);
    c_12_yzx + (hx_by_three * hy_by_three * c_12_xyz_xy) - (hy_by_three * c_12_xyz_y) - (hz_by_three * c_12_yzx_z);
    c_12_yzx - (hy_by_three * c_12_yzx_y);
    c_12_yx;
    c_12_yx + (hz_by_three * c_12_yx_z);
    c_12_yzx - (hz_by_three * c_12_yzx_z);
    c_12_yzx;
    c_30_xz;
    c_21_xz;
    c_12_xz;
    c_03_xz;
    c_21_xy;
    c_21_xy + (hz_by_three * c_21_xy_z);
    c_21_zxy - (hz_by_three * c_21_zxy_z);
    c_21_zxy;
    c_12_xy;
    c_12_xy + (hz_by_three * c_12_xy_z);
    c_12_zxy - (hz_by_three * c_12_zxy_z);
    c_12_zxy;
    c_30_xyz;
    c_21_xyz;
    c_12_xyz;
    c_03_xyz ].

(** hermite-3d.cc:347-376 the four sums *)
Definition hermite3 (q000 q100 q010 q001 q110 q011 q101 q111 : nodal)
    (eta dx odx : vec3 T) (lim : bool) : fields :=
  let c := control_points_3d q000 q100 q010 q001 q110 q011 q101 q111 dx lim in
  let bx := bern (vx eta) in let by_ := bern (vy eta) in let bz := bern (vz eta) in
  let bx' := bern' (vx eta) in let by' := bern' (vy eta) in let bz' := bern' (vz eta) in
  mkFields (wsum (tens3 bx by_ bz) c)
    (V3 (wsum (tens3 bx' by_ bz) c * vx odx)
        (wsum (tens3 bx by' bz) c * vy odx)
        (wsum (tens3 bx by_ bz') c * vz odx)).

(** *** Reading the data.  Simplification: the phi, psi and mixed-derivative values of a
    node are read together; the source reads each where it is used, which changes neither the
    values (nothing is written in between) nor whether some read is out of range. *)
Definition vnth (l : list T) (n : nat) : outcome T :=
  match nth_error l n with Some x => Ok x | None => UB OutOfBounds end.

(** entries [0..count-1] of the VecN are read; the others are unused by that dimension *)
Definition read_mix (dim : nat) (l : list T) : outcome (T * T * T * T) :=
  match dim with
  | 2%nat => m0 <- vnth l 0 ;; Ok (m0, #0, #0, #0)
  | 3%nat => m0 <- vnth l 0 ;; m1 <- vnth l 1 ;; m2 <- vnth l 2 ;; m3 <- vnth l 3 ;;
             Ok (m0, m1, m2, m3)
  | _ => Ok (#0, #0, #0, #0)
  end.

Definition read_node ov (g : grid T) (l : levelset T) (n : vec3 Z) : outcome nodal :=
  p <- aget_v ov g (ls_phi_prev l) n ;;
  s <- aget_v ov g (ls_psi_prev l) n ;;
  mm <- (match g_dim g with
         | 1%nat => Ok []                        (* hermite-1d.cc does not read them *)
         | _ => aget_v ov g (ls_mix_prev l) n
         end) ;;
  ms <- read_mix (g_dim g) mm ;;
  match ms with (m0, m1, m2, m3) => Ok (mkNodal p s m0 m1 m2 m3) end.

(** base + axis_vectors(a,a), int addition *)
Definition succ_id ov (b : Z) : outcome Z := iadd ov b 1.

(** hermite-1d.cc:36-82 interpolate *)
Definition interpolate1 ov (g : grid T) (x : vec3 T) (l : levelset T) (lim : bool) : outcome fields :=
  b <- baseNodeId g x ;;
  i1 <- succ_id ov (vx b) ;;
  xb <- node_v ov g b ;;
  q0 <- read_node ov g l b ;;
  q1 <- read_node ov g l (V3 i1 0%Z 0%Z) ;;
  Ok (hermite1 q0 q1 ((vx x - vx xb) * vx (g_odx g)) (vx (g_dx g)) (vx (g_odx g)) lim).

(** hermite-2d.cc:36-125 interpolate: the base node keeps its third component (INT_MAX),
    the neighbours use 0 *)
Definition interpolate2 ov (g : grid T) (x : vec3 T) (l : levelset T) (lim : bool) : outcome fields :=
  b <- baseNodeId g x ;;
  i1 <- succ_id ov (vx b) ;; j1 <- succ_id ov (vy b) ;;
  xb <- node_v ov g b ;;
  q00 <- read_node ov g l b ;;
  q10 <- read_node ov g l (V3 i1 (vy b) 0%Z) ;;
  q01 <- read_node ov g l (V3 (vx b) j1 0%Z) ;;
  q11 <- read_node ov g l (V3 i1 j1 0%Z) ;;
  Ok (hermite2 q00 q10 q01 q11 (vmul (vsub x xb) (g_odx g)) (g_dx g) (g_odx g) lim).

(** hermite-3d.cc:36-379 interpolate *)
Definition interpolate3 ov (g : grid T) (x : vec3 T) (l : levelset T) (lim : bool) : outcome fields :=
  b <- baseNodeId g x ;;
  i1 <- succ_id ov (vx b) ;; j1 <- succ_id ov (vy b) ;; k1 <- succ_id ov (vz b) ;;
  xb <- node_v ov g b ;;
  q000 <- read_node ov g l b ;;
  q100 <- read_node ov g l (V3 i1 (vy b) (vz b)) ;;
  q010 <- read_node ov g l (V3 (vx b) j1 (vz b)) ;;
  q001 <- read_node ov g l (V3 (vx b) (vy b) k1) ;;
  q110 <- read_node ov g l (V3 i1 j1 (vz b)) ;;
  q011 <- read_node ov g l (V3 (vx b) j1 k1) ;;
  q101 <- read_node ov g l (V3 i1 (vy b) k1) ;;
  q111 <- read_node ov g l (V3 i1 j1 k1) ;;
  Ok (hermite3 q000 q100 q010 q001 q110 q011 q101 q111
        (vmul (vsub x xb) (g_odx g)) (g_dx g) (g_odx g) lim).

(** the template specialisation selected by the grid dimension *)
Definition interpolate ov (g : grid T) (x : vec3 T) (l : levelset T) (lim : bool) : outcome fields :=
  match g_dim g with
  | 1%nat => interpolate1 ov g x l lim
  | 2%nat => interpolate2 ov g x l lim
  | _ => interpolate3 ov g x l lim
  end.

(** hermite-1d.cc:84-104, hermite-2d.cc:127-147, hermite-3d.cc:381-401 compute(x_interp, levelset),
    called by Interpolate::compute (interpolate.cc:52-57).  gx is the grid x_interp refers to.
    interpolate is called with its default use_gradient_limiting = false (hermite.h). *)
Definition hermite_body ov (gx : grid T) (xi : array (vec3 T)) (g : grid T)
    (l : levelset T) (c : Z * Z * Z) : outcome (levelset T) :=
  match c with (i, j, k) =>
    x <- aget ov gx xi i j k ;;
    f <- interpolate ov g x l false ;;
    a <- aset ov g (ls_phi_interp l) i j k (f_phi f) ;;
    p <- aset ov g (ls_psi_interp l) i j k (f_psi f) ;;
    Ok (with_psi_interp (with_phi_interp l a) p)
  end.
Definition hermite_compute ov (gx : grid T) (xi : array (vec3 T)) (g : grid T) (l : levelset T)
  : outcome (levelset T) :=
  forM (interior (array_cells xi)) (hermite_body ov gx xi g) l.

(** *** Linear interpolation, linear-1d.cc:36-64 *)
Definition linear_interp ov (g : grid T) (x : vec3 T) (alpha : array T) : outcome T :=
  b <- baseNodeId g x ;;
  i1 <- succ_id ov (vx b) ;;
  xb <- node_v ov g b ;;
  a0 <- aget_v ov g alpha b ;;
  a1 <- aget_v ov g alpha (V3 i1 0%Z 0%Z) ;;
  let eta := (vx x - vx xb) * vx (g_odx g) in
  Ok ((#1 - eta) * a0 + eta * a1).

(** linear-1d.cc:66-87 compute: loops over x_interp.grid().numCells(); ga, gr: grids that
    alpha and alpha_interpolated refer to *)
Definition linear_body ov (gx : grid T) (xi : array (vec3 T)) (ga : grid T) (alpha : array T)
    (gr : grid T) (r : array T) (c : Z * Z * Z) : outcome (array T) :=
  match c with (i, j, k) =>
    x <- aget ov gx xi i j k ;;
    v <- linear_interp ov ga x alpha ;;
    aset ov gr r i j k v
  end.
Definition linear_compute ov gx xi ga alpha gr (r : array T) : outcome (array T) :=
  forM (interior (num_cells gx)) (linear_body ov gx xi ga alpha gr) r.

End Interp.
Arguments control_points : clear implicits.
Arguments nodal : clear implicits.
Arguments fields : clear implicits.
