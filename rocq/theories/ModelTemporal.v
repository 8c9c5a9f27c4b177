(** Model of the temporal schemes, dispatched by src/cpu/temporal.cc:44-50. *)
From Coq Require Import ZArith List.
From Verif Require Import Base Num ModelVec ModelGrid ModelArray ModelInterp.
Open Scope Z_scope.

Section Temporal.
Context {T : Type} {NT : Num T}.

(** src/cpu/temporal-schemes/euler.cc:46-61; velocity and level set on the same grid g *)
Definition euler_body ov (g : grid T) (dt : T) (lv : ls_velocity T)
    (l : levelset T) (c : Z * Z * Z) : outcome (levelset T) :=
  match c with (i, j, k) =>
    p <- aget ov g (ls_phi_prev l) i j k ;;
    v <- aget ov g (lv_vel lv) i j k ;;
    a <- aset ov g (ls_phi l) i j k (p - dt * vx v)%num ;;
    Ok (with_phi l a)
  end.
Definition euler_compute ov g dt lv (l : levelset T) : outcome (levelset T) :=
  forM (interior (array_cells (ls_phi l))) (euler_body ov g dt lv) l.

(** src/cpu/temporal-schemes/semi-lagrangian/euler.cc:60-65 x_root *)
Definition sl_root_body ov (g : grid T) (dt : T) (lv : ls_velocity T)
    (xr : array (vec3 T)) (c : Z * Z * Z) : outcome (array (vec3 T)) :=
  match c with (i, j, k) =>
    x <- node ov g i j k ;;
    v <- aget ov g (lv_vel lv) i j k ;;
    aset ov g xr i j k (vsub x (vscale v dt))
  end.
Definition sl_root ov g dt lv : outcome (array (vec3 T)) :=
  forM (interior (num_cells g)) (sl_root_body ov g dt lv) (array_ctor g vzero).

(** euler.cc:70-77 x_root_grad *)
Definition sl_rgrad_body ov (g : grid T) (dt : T) (lv : ls_velocity T)
    (xg : array (mat3 T)) (c : Z * Z * Z) : outcome (array (mat3 T)) :=
  match c with (i, j, k) =>
    m <- aget ov g (lv_grad lv) i j k ;;
    aset ov g xg i j k (msub midentity (mscale m dt))
  end.
Definition sl_rgrad ov g dt lv : outcome (array (mat3 T)) :=
  forM (interior (num_cells g)) (sl_rgrad_body ov g dt lv) (array_ctor g mzero).

(** euler.cc:82-88 update of phi and psi *)
Definition sl_update_body ov (g : grid T) (xg : array (mat3 T))
    (l : levelset T) (c : Z * Z * Z) : outcome (levelset T) :=
  match c with (i, j, k) =>
    p <- aget ov g (ls_phi_interp l) i j k ;;
    a <- aset ov g (ls_phi l) i j k p ;;
    m <- aget ov g xg i j k ;;
    s <- aget ov g (ls_psi_interp l) i j k ;;
    b <- aset ov g (ls_psi l) i j k (mdot m s) ;;
    Ok (with_psi (with_phi l a) b)
  end.

(** euler.cc:48-89 compute *)
Definition sl_compute ov (g : grid T) (dt : T) (lv : ls_velocity T) (l : levelset T)
  : outcome (levelset T) :=
  xr <- sl_root ov g dt lv ;;
  l1 <- hermite_compute ov g xr g l ;;
  xg <- sl_rgrad ov g dt lv ;;
  forM (interior (num_cells g)) (sl_update_body ov g xg) l1.
End Temporal.
