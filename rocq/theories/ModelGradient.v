(** Model of the gradient schemes: src/cpu/gradient/*.cc, dispatched by src/cpu/gradient.cc:44-56. *)
From Coq Require Import ZArith List.
From Verif Require Import Base Num ModelVec ModelGrid ModelArray.
Open Scope Z_scope.

Section Gradient.
Context {T : Type} {NT : Num T}.

(** grid.h:250-252 axis_vectors(axis, c): the identity matrix *)
Definition ev (a c : axis) : Z := if axis_eqb a c then 1 else 0.

(** alpha(i + s*axis_vectors(axis,0), j + s*axis_vectors(axis,1), k + s*axis_vectors(axis,2));
    the int additions are checked *)
Definition ashift {A} ov (g : grid T) (al : array A) (i j k : Z) (a : axis) (s : Z) : outcome A :=
  i' <- iadd ov i (s * ev a AX) ;; j' <- iadd ov j (s * ev a AY) ;; k' <- iadd ov k (s * ev a AZ) ;;
  aget ov g al i' j' k'.

(** second-order-central.cc:58-62 *)
Definition soc_formula (p m dx : T) : T := ((p - m) * (nofZ 1 / dx) * half)%num.

(** second-order-central.cc:44-65 scalar field.  grad_alpha(i,j,k)[axis] = ... reads and
    rewrites the cell; ga is the grid of grad_alpha. *)
Definition soc_cell ov (g : grid T) (al : array T) (ga : grid T)
    (gr : array (vec3 T)) (c : Z * Z * Z) (a : axis) : outcome (array (vec3 T)) :=
  match c with (i, j, k) =>
    p <- ashift ov g al i j k a 1 ;;
    m <- ashift ov g al i j k a (-1) ;;
    old <- aget ov ga gr i j k ;;
    aset ov ga gr i j k (vset old a (soc_formula p m (vget (g_dx g) a)))
  end.
Definition soc_scalar ov g (al : array T) ga (gr : array (vec3 T)) : outcome (array (vec3 T)) :=
  forM (interior (array_cells al))
    (fun gr c => forM (axes (g_dim g)) (fun gr a => soc_cell ov g al ga gr c a) gr) gr.

(** second-order-central.cc:67-90 vector field: component [axis] shifted along [axis],
    divided by dx[cmpt], stored at (axis, cmpt) *)
Definition soc_vcell ov (g : grid T) (al : array (vec3 T)) (ga : grid T)
    (gr : array (mat3 T)) (c : Z * Z * Z) (ac : axis * axis) : outcome (array (mat3 T)) :=
  match c, ac with (i, j, k), (a, cmpt) =>
    p <- ashift ov g al i j k a 1 ;;
    m <- ashift ov g al i j k a (-1) ;;
    old <- aget ov ga gr i j k ;;
    aset ov ga gr i j k
      (mset old a cmpt (soc_formula (vget p a) (vget m a) (vget (g_dx g) cmpt)))
  end.
Definition soc_vector ov g (al : array (vec3 T)) ga (gr : array (mat3 T)) : outcome (array (mat3 T)) :=
  forM (interior (array_cells al))
    (fun gr c => forM (list_prod (axes (g_dim g)) (axes (g_dim g)))
                   (fun gr ac => soc_vcell ov g al ga gr c ac) gr) gr.

(** third-order.cc:57-63 *)
Definition third_formula (p c m mm dx : T) : T :=
  ((nofZ 2 * p + nofZ 3 * c - nofZ 6 * m + nofZ 1 * mm) * (nofZ 1 / (nofZ 6 * dx)))%num.

(** third-order.cc:44-66 scalar field *)
Definition third_cell ov (g : grid T) (al : array T) (ga : grid T)
    (gr : array (vec3 T)) (c : Z * Z * Z) (a : axis) : outcome (array (vec3 T)) :=
  match c with (i, j, k) =>
    p <- ashift ov g al i j k a 1 ;;
    z <- aget ov g al i j k ;;
    m <- ashift ov g al i j k a (-1) ;;
    mm <- ashift ov g al i j k a (-2) ;;
    old <- aget ov ga gr i j k ;;
    aset ov ga gr i j k (vset old a (third_formula p z m mm (vget (g_dx g) a)))
  end.
Definition third_scalar ov g (al : array T) ga (gr : array (vec3 T)) : outcome (array (vec3 T)) :=
  forM (interior (array_cells al))
    (fun gr c => forM (axes (g_dim g)) (fun gr a => third_cell ov g al ga gr c a) gr) gr.

(** third-order.cc:68-93 vector field *)
Definition third_vcell ov (g : grid T) (al : array (vec3 T)) (ga : grid T)
    (gr : array (mat3 T)) (c : Z * Z * Z) (ac : axis * axis) : outcome (array (mat3 T)) :=
  match c, ac with (i, j, k), (a, cmpt) =>
    p <- ashift ov g al i j k a 1 ;;
    z <- aget ov g al i j k ;;
    m <- ashift ov g al i j k a (-1) ;;
    mm <- ashift ov g al i j k a (-2) ;;
    old <- aget ov ga gr i j k ;;
    aset ov ga gr i j k
      (mset old a cmpt (third_formula (vget p a) (vget z a) (vget m a) (vget mm a) (vget (g_dx g) cmpt)))
  end.
Definition third_vector ov g (al : array (vec3 T)) ga (gr : array (mat3 T)) : outcome (array (mat3 T)) :=
  forM (interior (array_cells al))
    (fun gr c => forM (list_prod (axes (g_dim g)) (axes (g_dim g)))
                   (fun gr ac => third_vcell ov g al ga gr c ac) gr) gr.
End Gradient.
