(** Independent vocabulary for interpolation: polynomials of degree at most 3 in each variable,
    their partial derivatives, fields sampled from them, positions inside the lattice of nodes. *)
From Coq Require Import ZArith List Reals.
From Verif Require Import Base Num ModelVec ModelGrid ModelArray SpecGrid.
Open Scope R_scope.

(** a0 + a1 x + a2 x^2 + a3 x^3 and its derivative. *)
Definition cubic (a : nat -> R) (x : R) : R := a 0%nat + a 1%nat * x + a 2%nat * x ^ 2 + a 3%nat * x ^ 3.
Definition cubic' (a : nat -> R) (x : R) : R := a 1%nat + 2 * a 2%nat * x + 3 * a 3%nat * x ^ 2.
Definition P1 (d : bool) (a : nat -> R) (x : R) : R := if d then cubic' a x else cubic a x.

(** sum over i,j,k <= 3 of c i j k x^i y^j z^k, differentiated once in the variables flagged. *)
Definition tricubic (dx dy dz : bool) (c : nat -> nat -> nat -> R) (p : vec3 R) : R :=
  P1 dx (fun i => P1 dy (fun j => P1 dz (c i j) (vz p)) (vy p)) (vx p).
Definition poly (c : nat -> nat -> nat -> R) (p : vec3 R) : R := tricubic false false false c p.
(** partial derivative along an axis *)
Definition dpoly (a : axis) (c : nat -> nat -> nat -> R) (p : vec3 R) : R :=
  match a with
  | AX => tricubic true false false c p
  | AY => tricubic false true false c p
  | AZ => tricubic false false true c p
  end.

(** Unused coordinates set to 0. *)
Definition flat (dim : nat) (x : vec3 R) : vec3 R :=
  V3 (vx x) (if used dim AY then vy x else 0) (if used dim AZ then vz x else 0).

(** Position of the centre of a cell; 0 on unused axes. *)
Definition centre_pos (dim : nat) (n : vec3 Z) (bmin bmax : vec3 R) (c : cell) : vec3 R :=
  let f a := if used dim a then centre (vget bmin a) (vget bmax a) (vget n a) (ccoord c a) else 0 in
  V3 (f AX) (f AY) (f AZ).

(** All arrays of the level set belong to the grid, and each mixed-derivative entry has the
    number of components its type has (0 in 1-D, 1 in 2-D, 4 in 3-D). *)
Definition mixed_count (dim : nat) : nat := match dim with 1%nat => 0 | 2%nat => 1 | _ => 4 end%nat.
Record levelset_on {T} {NT : Num T} (g : grid T) (l : levelset T) : Prop := {
  on_phi : array_on g (ls_phi l); on_psi : array_on g (ls_psi l); on_mix : array_on g (ls_mix l);
  on_phi_prev : array_on g (ls_phi_prev l); on_psi_prev : array_on g (ls_psi_prev l);
  on_mix_prev : array_on g (ls_mix_prev l);
  on_phi_interp : array_on g (ls_phi_interp l); on_psi_interp : array_on g (ls_psi_interp l);
  on_mix_len : Forall (fun m => length m = mixed_count (g_dim g)) (a_data (ls_mix_prev l)) }.

(** The previous fields hold, in every cell including ghosts, the values of the polynomial, of its
    gradient on the used axes and of its mixed derivatives (xy; yz; zx; xyz) at the cell centre. *)
Definition sampled (ov : ovmode) (dim : nat) (n : vec3 Z) (pad : Z) (bmin bmax : vec3 R)
    (g : grid R) (l : levelset R) (c : nat -> nat -> nat -> R) : Prop :=
  forall i j k, padded_cell dim n pad (i, j, k) ->
    let p := centre_pos dim n bmin bmax (i, j, k) in
    aget ov g (ls_phi_prev l) i j k = Ok (poly c p) /\
    (exists s, aget ov g (ls_psi_prev l) i j k = Ok s /\
       forall a, used dim a = true -> vget s a = dpoly a c p) /\
    aget ov g (ls_mix_prev l) i j k = Ok
      (match dim with
       | 1%nat => []
       | 2%nat => [tricubic true true false c p]
       | _ => [tricubic true true false c p; tricubic false true true c p;
               tricubic true false true c p; tricubic true true true c p]
       end).

(** Positions between the centres of the first and the last ghost cell (padding 1), that is
    min - dx/2 <= x < max + dx/2 on each used axis. *)
Definition in_lattice (dim : nat) (n : vec3 Z) (bmin bmax x : vec3 R) : Prop :=
  forall a, used dim a = true ->
    let lo := vget bmin a in let hi := vget bmax a in let h := spacing lo hi (vget n a) in
    lo - h / 2 <= vget x a < hi + h / 2.

(** Interpolation is executed with wrap-around int arithmetic, or the grid is 3-D (see C10). *)
Definition interp_defined (ov : ovmode) (dim : nat) : Prop := ov = Wrap \/ dim = 3%nat.

(** min < max on the used axes *)
Definition proper_box (dim : nat) (bmin bmax : vec3 R) : Prop :=
  forall a, used dim a = true -> vget bmin a < vget bmax a.

(** The four Bezier control values of cubic data on one segment: end values p0, p1, end slopes s0, s1. *)
Definition bez (i : nat) (p0 s0 p1 s1 h : R) : R :=
  match i with 0%nat => p0 | 1%nat => p0 + s0 * h / 3 | 2%nat => p1 - s1 * h / 3 | _ => p1 end.

(** What the previous fields of a level set hold in a cell: value, gradient, mixed derivatives. *)
Record cell_values := CV { cv : R; cv_x : R; cv_y : R; cv_z : R; cv_xy : R; cv_yz : R; cv_zx : R; cv_xyz : R }.
Definition stores (ov : ovmode) (dim : nat) (n : vec3 Z) (pad : Z) (g : grid R) (l : levelset R)
    (S : cell -> cell_values) : Prop :=
  forall i j k, padded_cell dim n pad (i, j, k) ->
    let s := S (i, j, k) in
    aget ov g (ls_phi_prev l) i j k = Ok (cv s) /\
    aget ov g (ls_psi_prev l) i j k = Ok (V3 (cv_x s) (cv_y s) (cv_z s)) /\
    aget ov g (ls_mix_prev l) i j k = Ok
      (match dim with
       | 1%nat => [] | 2%nat => [cv_xy s] | _ => [cv_xy s; cv_yz s; cv_zx s; cv_xyz s] end).

(** The control values of a cell with lower corner (i,j,k): the 1-D construction applied along
    z, then y, then x (only along used axes). *)
Definition net (dim : nat) (S : cell -> cell_values) (h : vec3 R) (c : cell) (p q r : nat) : R :=
  match c with (i, j, k) =>
    let alongz (f fz : cell_values -> R) i j :=
      if used dim AZ then bez r (f (S (i, j, k))) (fz (S (i, j, k))) (f (S (i, j, k + 1)%Z)) (fz (S (i, j, k + 1)%Z)) (vz h)
      else f (S (i, j, k)) in
    let alongy (f fy fz fyz : cell_values -> R) i :=
      if used dim AY then bez q (alongz f fz i j) (alongz fy fyz i j) (alongz f fz i (j + 1)%Z) (alongz fy fyz i (j + 1)%Z) (vy h)
      else alongz f fz i j in
    bez p (alongy cv cv_y cv_z cv_yz i) (alongy cv_x cv_xy cv_zx cv_xyz i)
          (alongy cv cv_y cv_z cv_yz (i + 1)%Z) (alongy cv_x cv_xy cv_zx cv_xyz (i + 1)%Z) (vx h)
  end.

(** The lower corner of the cell of node centres around x. *)
Definition encloses (dim : nat) (n : vec3 Z) (bmin bmax x : vec3 R) (c : cell) : Prop :=
  forall a, if used dim a
    then centre (vget bmin a) (vget bmax a) (vget n a) (ccoord c a) <= vget x a
           < centre (vget bmin a) (vget bmax a) (vget n a) (ccoord c a + 1)
    else ccoord c a = 0%Z.
Definition spacings (n : vec3 Z) (bmin bmax : vec3 R) : vec3 R :=
  V3 (spacing (vx bmin) (vx bmax) (vx n)) (spacing (vy bmin) (vy bmax) (vy n)) (spacing (vz bmin) (vz bmax) (vz n)).

(** Gradient limiting of cubic data in terms of the deviations a, b of the two end slopes from the
    mean slope: what the inner two control values become. *)
Definition limited (p0 s0 p1 s1 h : R) : R * R :=
  let a := s0 * h - (p1 - p0) in
  let b := s1 * h - (p1 - p0) in
  if Rlt_dec 0 (a * b) then (p0 + s0 * h / 3, p1 - s1 * h / 3)
  else if Rlt_dec (a * (a + b / 2)) 0 then (p0 + s0 * h / 3, p0 + 2 * (s0 * h) / 3)
  else if Rlt_dec (b * (b + a / 2)) 0 then (p1 - 2 * (s1 * h) / 3, p1 - s1 * h / 3)
  else (p0 + (p1 - p0) / 3, p1 - (p1 - p0) / 3).

(** The previous fields hold, in every cell including ghosts, the values of the polynomial, of its
    gradient on the used axes and of its mixed derivatives at the position the grid reports for
    that cell (unused coordinates set to 0). *)
Definition sampled_nodes (ov : ovmode) (dim : nat) (n : vec3 Z) (pad : Z)
    (g : grid R) (l : levelset R) (c : nat -> nat -> nat -> R) : Prop :=
  forall i j k, padded_cell dim n pad (i, j, k) ->
    exists p0, node ov g i j k = Ok p0 /\ let p := flat dim p0 in
    aget ov g (ls_phi_prev l) i j k = Ok (poly c p) /\
    (exists s, aget ov g (ls_psi_prev l) i j k = Ok s /\
       forall a, used dim a = true -> vget s a = dpoly a c p) /\
    aget ov g (ls_mix_prev l) i j k = Ok
      (match dim with
       | 1%nat => []
       | 2%nat => [tricubic true true false c p]
       | _ => [tricubic true true false c p; tricubic false true true c p;
               tricubic true false true c p; tricubic true true true c p]
       end).

(** The cubic Bezier curve with four control values. *)
Definition bezier (b0 b1 b2 b3 t : R) : R :=
  b0 * (1 - t) ^ 3 + b1 * (3 * t * (1 - t) ^ 2) + b2 * (3 * t ^ 2 * (1 - t)) + b3 * t ^ 3.
