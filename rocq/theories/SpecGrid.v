(** Independent vocabulary about grids: which cells a padded grid has, where the
    cell centres are.  Nothing here refers to the model's index arithmetic. *)
From Coq Require Import ZArith List Reals.
From Verif Require Import Base Num ModelVec ModelGrid ModelArray.
Open Scope Z_scope.

(** Axes that a grid of dimension [dim] uses. *)
Definition used (dim : nat) (a : axis) : bool :=
  match a with AX => true | AY => Nat.leb 2 dim | AZ => Nat.leb 3 dim end.

(** Number of cells along one axis, ghost layers included. *)
Definition extent (dim : nat) (n : vec3 Z) (pad : Z) (a : axis) : Z :=
  if used dim a then vget n a + 2 * pad else 1.

(** Number of cells of the grid, ghost cells included. *)
Definition padded_count (dim : nat) (n : vec3 Z) (pad : Z) : Z :=
  extent dim n pad AX * extent dim n pad AY * extent dim n pad AZ.

(** The sizes for which a grid makes sense: dimension 1, 2 or 3, at least one cell on
    every used axis, one on unused axes, a padding, and a cell count that fits an int. *)
Definition good_sizes (dim : nat) (n : vec3 Z) (pad : Z) : Prop :=
  (1 <= dim <= 3)%nat /\ 0 <= pad /\
  (forall a, if used dim a then 1 <= vget n a else vget n a = 1) /\
  padded_count dim n pad <= INT_MAX.

(** A cell is named by three integers. *)
Definition cell : Type := (Z * Z * Z)%type.
Definition ccoord (c : cell) (a : axis) : Z :=
  match c with (i, j, k) => match a with AX => i | AY => j | AZ => k end end.

(** Cells of the grid including the ghost layers / without them. *)
Definition padded_cell (dim : nat) (n : vec3 Z) (pad : Z) (c : cell) : Prop :=
  forall a, if used dim a then - pad <= ccoord c a < vget n a + pad else ccoord c a = 0.
Definition interior_cell (n : vec3 Z) (c : cell) : Prop :=
  forall a, 0 <= ccoord c a < vget n a.

(** The terms of the index computation that the mask multiplies by 0 still fit an int
    (trivially true in 3-D, where no term is masked). *)
Definition masked_terms_fit (dim : nat) (n : vec3 Z) (pad : Z) : Prop :=
  dim = 3%nat \/ pad * (vx n + 2 * pad) * (vy n + 2 * pad) <= INT_MAX.

(** Conditions under which the int arithmetic of the grid is defined, per overflow semantics. *)
Definition arith_ok (ov : ovmode) (dim : nat) (n : vec3 Z) (pad : Z) : Prop :=
  match ov with
  | Trap => masked_terms_fit dim n pad
  | Wrap => True
  end.

(** The API calls that build a grid: constructor, setPadding, generate. *)
Definition make_grid {T} {NT : Num T} (ov : ovmode) (dim : nat) (n : vec3 Z) (pad : Z)
    (bmin bmax : vec3 T) : outcome (grid T) :=
  g <- grid_ctor ov dim (vx n) (vy n) (vz n) ;;
  generate ov (set_padding g pad) bmin bmax.

(** Centre of cell number i (ghost cells: i < 0 or i >= n) of the uniform partition of
    [lo,hi] into n cells. *)
Definition spacing (lo hi : R) (n : Z) : R := ((hi - lo) / IZR n)%R.
Definition centre (lo hi : R) (n i : Z) : R := (lo + (IZR i + / 2) * spacing lo hi n)%R.

(** g was built by these calls, with sizes and arithmetic as required above. *)
Definition built {T} {NT : Num T} (ov : ovmode) (dim : nat) (n : vec3 Z) (pad : Z)
    (bmin bmax : vec3 T) (g : grid T) : Prop :=
  good_sizes dim n pad /\ arith_ok ov dim n pad /\ make_grid ov dim n pad bmin bmax = Ok g.

(** An array that belongs to a grid: same cell counts, one slot per cell. *)
Definition array_on {T A} {NT : Num T} (g : grid T) (a : array A) : Prop :=
  array_cells a = num_cells g /\ array_size a = grid_size g.

(** Executes a list of assignments a(i,j,k) = v in order. *)
Definition run_writes {T A} {NT : Num T} (ov : ovmode) (g : grid T) (ws : list (cell * A)) (a : array A)
  : outcome (array A) :=
  forM ws (fun a w => match w with ((i, j, k), v) => aset ov g a i j k v end) a.

Definition cell_eqb (c d : cell) : bool :=
  match c, d with (i, j, k), (i', j', k') => (i =? i') && (j =? j') && (k =? k') end.

(** The last value a list of assignments gives to a cell, if any. *)
Definition last_write {A} (ws : list (cell * A)) (c : cell) : option A :=
  fold_left (fun r w => if cell_eqb (fst w) c then Some (snd w) else r) ws None.

(** The coordinate of a position in units of cells, measured from the first cell centre. *)
Definition lattice_coord (lo hi : R) (n : Z) (x : R) : R := ((x - lo) / spacing lo hi n - / 2)%R.

(** On every used axis the lattice coordinate, rounded down, is an int. *)
Definition lat_fits (dim : nat) (n : vec3 Z) (bmin bmax x : vec3 R) : Prop :=
  forall a, used dim a = true ->
    (IZR INT_MIN <= lattice_coord (vget bmin a) (vget bmax a) (vget n a) (vget x a) < IZR INT_MAX + 1)%R.
