(** Independent vocabulary for the gradient schemes. *)
From Coq Require Import ZArith List Bool Reals.
From Verif Require Import Base Num ModelVec ModelGrid ModelArray SpecGrid SpecInterp.
Open Scope R_scope.

(** The cell s steps further along an axis. *)
Definition cshift (c : cell) (a : axis) (s : Z) : cell :=
  match c, a with
  | (i, j, k), AX => (i + s, j, k)%Z
  | (i, j, k), AY => (i, j + s, k)%Z
  | (i, j, k), AZ => (i, j, k + s)%Z
  end.

(** An array holds, in every cell including ghosts, the values of a function at the position the
    grid reports for the cell. *)
Definition samples {A} (ov : ovmode) (dim : nat) (n : vec3 Z) (pad : Z) (g : grid R) (al : array A)
    (f : vec3 R -> A) : Prop :=
  forall i j k, padded_cell dim n pad (i, j, k) ->
    exists p, node ov g i j k = Ok p /\ aget ov g al i j k = Ok (f p).

(** p moved by t along an axis *)
Definition along (p : vec3 R) (a : axis) (t : R) : vec3 R := vset p a (vget p a + t).

(** polynomial of degree at most 2 in each variable *)
Definition degree2 (c : nat -> nat -> nat -> R) : Prop :=
  forall i j, c 3%nat i j = 0 /\ c i 3%nat j = 0 /\ c i j 3%nat = 0.
(** coefficient of the third power of one variable, the other two held fixed *)
Definition third_coeff (a : axis) (c : nat -> nat -> nat -> R) (p : vec3 R) : R :=
  match a with
  | AX => cubic (fun j => cubic (c 3%nat j) (vz p)) (vy p)
  | AY => cubic (fun i => cubic (c i 3%nat) (vz p)) (vx p)
  | AZ => cubic (fun i => cubic (fun j => c i j 3%nat) (vy p)) (vx p)
  end.

(** vector field with polynomial components *)
Definition vpoly (c : axis -> nat -> nat -> nat -> R) (p : vec3 R) : vec3 R :=
  V3 (poly (c AX) p) (poly (c AY) p) (poly (c AZ) p).

(** What a gradient computation may do to the result array gr: in interior cells the components on
    used axes become D (position of the cell) axis, the others keep their value; ghost cells keep
    their value. *)
Definition grad_result (ov : ovmode) (dim : nat) (n : vec3 Z) (pad : Z) (g : grid R)
    (gr gr' : array (vec3 R)) (D : vec3 R -> axis -> R) : Prop :=
  array_on g gr' /\
  (forall i j k, interior_cell n (i, j, k) -> exists p x y,
     node ov g i j k = Ok p /\ aget ov g gr i j k = Ok x /\ aget ov g gr' i j k = Ok y /\
     forall a, vget y a = if used dim a then D p a else vget x a) /\
  (forall i j k, padded_cell dim n pad (i, j, k) -> ~ interior_cell n (i, j, k) ->
     aget ov g gr' i j k = aget ov g gr i j k).
(** the same for matrices; r is the row, d the column *)
Definition mat_result (ov : ovmode) (dim : nat) (n : vec3 Z) (pad : Z) (g : grid R)
    (gr gr' : array (mat3 R)) (D : vec3 R -> axis -> axis -> R) : Prop :=
  array_on g gr' /\
  (forall i j k, interior_cell n (i, j, k) -> exists p x y,
     node ov g i j k = Ok p /\ aget ov g gr i j k = Ok x /\ aget ov g gr' i j k = Ok y /\
     forall r d, mget y r d = if used dim r && used dim d then D p r d else mget x r d) /\
  (forall i j k, padded_cell dim n pad (i, j, k) -> ~ interior_cell n (i, j, k) ->
     aget ov g gr' i j k = aget ov g gr i j k).

(** d1, d2, ... are the successive derivatives of f on [lo,hi]. *)
Fixpoint derivs (lo hi : R) (f : R -> R) (ds : list (R -> R)) : Prop :=
  match ds with
  | nil => True
  | cons d ds => (forall t, lo <= t <= hi -> derivable_pt_lim f t (d t)) /\ derivs lo hi d ds
  end.

