(** Independent vocabulary for the CUDA program: flat arrays read as rows, the data after a step. *)
From Coq Require Import ZArith List String Reals.
From Verif Require Import Base Num ModelVec ModelRefMath ModelRefMem ModelRef SpecRefRun.
Open Scope Z_scope.

(** flat arrays of nx elements per row as arrays of rows *)
Definition rows_of {T} (nx : Z) (m : mem T) : mem T := fun l => match l with (a, i, j) => m (a, i * nx + j, 0) end.

Section Spec.
Context {T : Type} {NT : Num T}.

(** the device holds the data f: dphi, dpsix, dpsiy, dpsixy and masterdphi, masterdpsix, masterdpsiy *)
Definition device_holds (nx ny : Z) (f : fields T) (m : mem T) : Prop :=
  let g := rows_of nx m in
  holds Phi ny nx (f_phi f) g /\ holds Psix ny nx (f_x f) g /\ holds Psiy ny nx (f_y f) g /\ holds Psixy ny nx (f_xy f) g /\
  holds MPhi ny nx (f_phi f) g /\ holds MPsix ny nx (f_x f) g /\ holds MPsiy ny nx (f_y f) g.
(** all these arrays have an element for each node *)
Definition device_arrays (nx ny : Z) (m : mem T) : Prop :=
  forall a, List.In a [Phi; Psix; Psiy; Psixy; MPhi; MPsix; MPsiy] -> present a ny nx (rows_of nx m).

(** the settings with the schemes that are compiled in *)
Definition compiled (s : settings T) : settings T :=
  mkSet (s_xlim1 s) (s_xlim2 s) (s_nx s) (s_ylim1 s) (s_ylim2 s) (s_ny s) (s_dt s) (s_Tfinal s) (s_Tp s) (s_option s) (s_printstep s)
    "SuperConsistent" "RK3".
(** the mixed derivative of the kernel: another difference at node (ny-1,0) *)
Definition mixed_cuda (nx ny : Z) (dx dy : T) (px py : Z -> Z -> T) (k l : Z) : T :=
  if ((k =? ny - 1) && (l =? 0))%bool then
    comb (sy dy px (ny - 1) (ny - 2) 0) (sx dx py (ny - 1) 1 0) ((px (ny - 1)%Z 0%Z - px (ny - 2)%Z 1%Z) / dy)%num (sx dx py (ny - 2) 1 0)
  else mixed_val nx ny dx dy px py k l.
(** the data after one step: those of the OpenMP program but for that node *)
Definition next_cuda (F : flow T) (s : settings T) (x y : Z -> T) (t : Z) (f : fields T) : fields T :=
  let n := next true F (compiled s) x y t f in
  mkFields (f_phi n) (f_x n) (f_y n) (mixed_cuda (s_nx s) (s_ny s) (s_dx s) (s_dy s) (f_x n) (f_y n)).
Fixpoint after_cuda (F : flow T) (s : settings T) (x y : Z -> T) (k : nat) (f : fields T) : fields T :=
  match k with O => f | S k' => next_cuda F s x y (Z.of_nat k') (after_cuda F s x y k' f) end.
End Spec.

(** the tile sizes CUDA accepts that divide the grid, and grids whose nodes have an unsigned index *)
Definition tiles (tile nx ny : Z) : Prop := 1 <= tile <= 32 /\ (tile | nx) /\ (tile | ny).
Definition indexable (nx ny : Z) : Prop := 0 <= nx < 4294967296 /\ 0 <= ny < 4294967296 /\ nx * ny < 4294967296.
(** node (i,j) is traced to a position outside the box on both axes *)
Definition past_corner (F : flow R) (s : settings R) (t i j : Z) : Prop :=
  let p := back_trace F true (node_x s j) (node_y s i) t (s_dt s) (s_Tp s) in
  ~ inside (s_xlim1 s) (s_xlim2 s) (fst p) /\ ~ inside (s_ylim1 s) (s_ylim2 s) (snd p).

(** what the host arrays hold when a block is printed: f the data on the device, f0 the initial data;
    of psiy the second half, and all of psixy, are never copied from the device *)
Definition printed_cuda {T} (nx ny : Z) (f f0 : fields T) (m : mem T) : Prop :=
  let g := rows_of nx m in
  holds MPhi ny nx (f_phi f) g /\ holds MPsix ny nx (f_x f) g /\ holds MPsixy ny nx (f_xy f0) g /\
  forall i j, 0 <= i < ny -> 0 <= j < nx ->
    (2 * (i * nx + j) + 2 <= nx * ny -> g (MPsiy, i, j) = Some (D (f_y f i j))) /\
    (nx * ny <= 2 * (i * nx + j) -> g (MPsiy, i, j) = Some (D (f_y f0 i j))).
