(** Model of Array<T_GRID,T_ARRAY>, Levelset and LevelsetVelocity. *)
From Coq Require Import ZArith List.
From Verif Require Import Base Num ModelVec ModelGrid.
Open Scope Z_scope.

(** array.h:150-153: m_nx,m_ny,m_nz,m_pad are copied from the grid when the array is
    built; m_data is the storage.  m_grid is a reference to the grid, so the grid is
    passed to each access in its current state. *)
Record array (A : Type) := mkArray { a_n : vec3 Z; a_pad : Z; a_data : list A }.
Arguments mkArray {A}.
Arguments a_n {A}. Arguments a_pad {A}. Arguments a_data {A}.

Section Array.
Context {T : Type} {NT : Num T} {A : Type}.

(** array.cc:37-50 constructor: resize to grid.size(), every element T_ARRAY() *)
Definition array_ctor (g : grid T) (default : A) : array A :=
  {| a_n := num_cells g; a_pad := g_pad g;
     a_data := repeat default (Z.to_nat (grid_size g)) |}.

(** array.cc:59-63 size() *)
Definition array_size (a : array A) : Z := Z.of_nat (length (a_data a)).

(** array.cc:65-76 grid(), numCells() (the copied counts) *)
Definition array_cells (a : array A) : vec3 Z := a_n a.

(** array.cc:78-88 operator[] *)
Definition araw (a : array A) (idx : Z) : outcome A := vread (a_data a) idx.
Definition araw_set (a : array A) (idx : Z) (x : A) : outcome (array A) :=
  d <- vwrite (a_data a) idx x ;; Ok {| a_n := a_n a; a_pad := a_pad a; a_data := d |}.

(** array.cc:90-102 operator()(i,j,k), read and assignment through the reference *)
Definition aget ov (g : grid T) (a : array A) (i j k : Z) : outcome A :=
  idx <- index ov g i j k ;; vread (a_data a) idx.
Definition aset ov (g : grid T) (a : array A) (i j k : Z) (x : A) : outcome (array A) :=
  idx <- index ov g i j k ;; araw_set a idx x.

(** array.cc:104-113 operator()(node_id) *)
Definition aget_v ov g a (n : vec3 Z) := aget ov g a (vx n) (vy n) (vz n).

(** array.cc:115-119 operator=: copies the data vector only *)
Definition array_assign (dst src : array A) : array A :=
  {| a_n := a_n dst; a_pad := a_pad dst; a_data := a_data src |}.
End Array.

(** the cells visited by  for i<n[0], for j<n[1], for k<n[2] *)
Definition interior (n : vec3 Z) : list (Z * Z * Z) :=
  cells3 (range 0 (vx n)) (range 0 (vy n)) (range 0 (vz n)).

(** levelset.h:66-174 the eight arrays of a Levelset; mixed derivatives are
    VecN<T, num_mixed_derivatives(dim)>, here lists. *)
Record levelset (T : Type) := mkLS {
  ls_phi : array T; ls_psi : array (vec3 T); ls_mix : array (list T);
  ls_phi_prev : array T; ls_psi_prev : array (vec3 T); ls_mix_prev : array (list T);
  ls_phi_interp : array T; ls_psi_interp : array (vec3 T) }.
Arguments mkLS {T}.
Arguments ls_phi {T}. Arguments ls_psi {T}. Arguments ls_mix {T}.
Arguments ls_phi_prev {T}. Arguments ls_psi_prev {T}. Arguments ls_mix_prev {T}.
Arguments ls_phi_interp {T}. Arguments ls_psi_interp {T}.

(** levelset-velocity.h: velocity and its gradient *)
Record ls_velocity (T : Type) := mkLV { lv_vel : array (vec3 T); lv_grad : array (mat3 T) }.
Arguments mkLV {T}. Arguments lv_vel {T}. Arguments lv_grad {T}.

Section Levelset.
Context {T : Type} {NT : Num T}.

(** levelset.cc:36-48 constructor *)
Definition levelset_ctor (g : grid T) : levelset T :=
  let nm := Z.to_nat (num_mixed_derivatives (g_dim g)) in
  {| ls_phi := array_ctor g (nofZ 0); ls_psi := array_ctor g vzero;
     ls_mix := array_ctor g (vecN_zero nm);
     ls_phi_prev := array_ctor g (nofZ 0); ls_psi_prev := array_ctor g vzero;
     ls_mix_prev := array_ctor g (vecN_zero nm);
     ls_phi_interp := array_ctor g (nofZ 0); ls_psi_interp := array_ctor g vzero |}.

(** levelset-velocity.cc:36-40 constructor *)
Definition ls_velocity_ctor (g : grid T) : ls_velocity T :=
  {| lv_vel := array_ctor g vzero; lv_grad := array_ctor g mzero |}.

(** assignments to single fields, through the non-const accessors (levelset.h:92-160) *)
Definition with_phi (l : levelset T) a := mkLS a (ls_psi l) (ls_mix l) (ls_phi_prev l)
  (ls_psi_prev l) (ls_mix_prev l) (ls_phi_interp l) (ls_psi_interp l).
Definition with_psi (l : levelset T) a := mkLS (ls_phi l) a (ls_mix l) (ls_phi_prev l)
  (ls_psi_prev l) (ls_mix_prev l) (ls_phi_interp l) (ls_psi_interp l).
Definition with_phi_prev (l : levelset T) a := mkLS (ls_phi l) (ls_psi l) (ls_mix l) a
  (ls_psi_prev l) (ls_mix_prev l) (ls_phi_interp l) (ls_psi_interp l).
Definition with_psi_prev (l : levelset T) a := mkLS (ls_phi l) (ls_psi l) (ls_mix l)
  (ls_phi_prev l) a (ls_mix_prev l) (ls_phi_interp l) (ls_psi_interp l).
Definition with_phi_interp (l : levelset T) a := mkLS (ls_phi l) (ls_psi l) (ls_mix l)
  (ls_phi_prev l) (ls_psi_prev l) (ls_mix_prev l) a (ls_psi_interp l).
Definition with_psi_interp (l : levelset T) a := mkLS (ls_phi l) (ls_psi l) (ls_mix l)
  (ls_phi_prev l) (ls_psi_prev l) (ls_mix_prev l) (ls_phi_interp l) a.
End Levelset.
