(** The control values of one cell when gradient limiting is on, and the mismatch between the two
    cells that share a face. *)
From Coq Require Import ZArith Reals.
From Verif Require Import Base Num ModelVec ModelGrid SpecGrid SpecInterp SpecPatch.
Open Scope R_scope.

(** The four control values of one segment with limiting: end values kept, inner two limited. *)
Definition lim_bez (i : nat) (p0 s0 p1 s1 h : R) : R :=
  match i with 0%nat => p0 | 1%nat => fst (limited p0 s0 p1 s1 h) | 2%nat => snd (limited p0 s0 p1 s1 h) | _ => p1 end.

(** Control value p of 0..3 along an axis belongs to the nearer of the two nodes u, u+1, and lies
    above (1) or below (-1) it. *)
Definition nearest (p : nat) (u : Z) : Z := match p with 0%nat | 1%nat => u | _ => (u + 1)%Z end.
Definition side (p : nat) : R := match p with 0%nat | 1%nat => 1 | _ => -1 end.
Definition outer (p : nat) : bool := match p with 0%nat | 3%nat => true | _ => false end.

(** Values on an edge are limited along that edge.  A value inside a face or inside the cell starts
    from an edge and is moved off it by a third of the spacing times a slope, itself limited along
    an edge in 3-D and taken at the nearest node in 2-D. *)
Definition lim_net (dim : nat) (S : cell -> cell_values) (h : vec3 R) (c : cell) (p q r : nat) : R :=
  match c with (i, j, k) =>
    let I := nearest p i in let J := nearest q j in let K := nearest r k in
    let ex (f fx : cell_values -> R) J K :=
      lim_bez p (f (S (i, J, K))) (fx (S (i, J, K))) (f (S (i + 1, J, K)%Z)) (fx (S (i + 1, J, K)%Z)) (vx h) in
    let ey (f fy : cell_values -> R) I K :=
      lim_bez q (f (S (I, j, K))) (fy (S (I, j, K))) (f (S (I, j + 1, K)%Z)) (fy (S (I, j + 1, K)%Z)) (vy h) in
    let ez (f fz : cell_values -> R) I J :=
      lim_bez r (f (S (I, J, k))) (fz (S (I, J, k))) (f (S (I, J, k + 1)%Z)) (fz (S (I, J, k + 1)%Z)) (vz h) in
    let mx := side p * vx h / 3 in let my := side q * vy h / 3 in let mz := side r * vz h / 3 in
    match dim with
    | 1%nat => ex cv cv_x j k
    | 2%nat =>
      if outer q then ex cv cv_x J k
      else if outer p then ey cv cv_y I k
      else if Nat.eqb p 1 then ex cv cv_x J k + my * (cv_y (S (I, J, k)) + mx * cv_xy (S (I, J, k)))
      else ey cv cv_y I k + mx * (cv_x (S (I, J, k)) + my * cv_xy (S (I, J, k)))
    | _ =>
      if (outer q && outer r)%bool then ex cv cv_x J K
      else if (outer p && outer r)%bool then ey cv cv_y I K
      else if (outer p && outer q)%bool then ez cv cv_z I J
      else if outer p then ey cv cv_y I K + mz * ey cv_z cv_yz I K
      else if outer r then ex cv cv_x J K + my * ex cv_y cv_xy J K
      else if outer q then
        if (Nat.eqb q 0 && Nat.eqb p 1)%bool then ez cv cv_z I J + mx * ez cv_x cv_zx I J
        else ex cv cv_x J K + mz * ex cv_z cv_zx J K
      else ex cv cv_x J K + mz * ex cv_z cv_zx J K + my * (ez cv_y cv_yz I J + mx * ez cv_xy cv_xyz I J)
    end
  end.

(** 3-D: the two constructions of control value (1, r), r = 1 or 2, inside the face y = centre of
    row j, from the edge along z (used by the cell above) and from the edge along x (used by the
    cell below). *)
Definition mismatch (S : cell -> cell_values) (h : vec3 R) (c : cell) (r : nat) : R :=
  match c with (i, j, k) =>
    let K := nearest r k in
    let a := S (i, j, k) in let b := S (i, j, k + 1)%Z in
    let u := S (i, j, K) in let v := S (i + 1, j, K)%Z in
    (lim_bez r (cv a) (cv_z a) (cv b) (cv_z b) (vz h) + vx h / 3 * lim_bez r (cv_x a) (cv_zx a) (cv_x b) (cv_zx b) (vz h))
    - (lim_bez 1 (cv u) (cv_x u) (cv v) (cv_x v) (vx h) + side r * vz h / 3 * lim_bez 1 (cv_z u) (cv_zx u) (cv_z v) (cv_zx v) (vx h))
  end.
(** How much the value changes when that face is crossed at local coordinates ex, ez. *)
Definition jump (S : cell -> cell_values) (h : vec3 R) (c : cell) (ex ez : R) : R :=
  3 * ex * (1 - ex) ^ 2 *
    (3 * ez * (1 - ez) ^ 2 * mismatch S h c 1 + 3 * ez ^ 2 * (1 - ez) * mismatch S h c 2).

(** Data sampled from the function x^2. *)
Definition square_data (n : vec3 Z) (bmin bmax : vec3 R) (c : cell) : cell_values :=
  let x := centre (vx bmin) (vx bmax) (vx n) (ccoord c AX) in CV (x ^ 2) (2 * x) 0 0 0 0 0 0.
(** x lies on a plane of node centres across the axis a. *)
Definition on_plane (n : vec3 Z) (bmin bmax x : vec3 R) (a : axis) : Prop :=
  exists m : Z, vget x a = centre (vget bmin a) (vget bmax a) (vget n a) m.
