(** Model of Grid<T,DIM>: include/gals/utilities/grid.h, src/cpu/grid.cc. *)
From Coq Require Import ZArith List.
From Verif Require Import Base Num ModelVec.
Open Scope Z_scope.

(** The data members, grid.h:230-262.  [g_dim] is the template argument DIM (1, 2 or 3).
    m_dimension duplicates it. *)
Record grid (T : Type) := mkGrid {
  g_dim : nat;
  g_n : vec3 Z;          (* m_nx, m_ny, m_nz *)
  g_pad : Z;             (* m_pad *)
  g_total : Z;           (* m_total_cells *)
  g_box_min : vec3 T;
  g_box_max : vec3 T;
  g_dx : vec3 T;
  g_odx : vec3 T;        (* m_one_over_dx *)
  g_nodes : list (vec3 T) (* m_grid *)
}.
Arguments mkGrid {T}.
Arguments g_dim {T}. Arguments g_n {T}. Arguments g_pad {T}. Arguments g_total {T}.
Arguments g_box_min {T}. Arguments g_box_max {T}. Arguments g_dx {T}. Arguments g_odx {T}.
Arguments g_nodes {T}.

(** grid.cc:44-49 m_mask *)
Definition mask (dim : nat) : vec3 Z :=
  match dim with
  | 2%nat => V3 1 1 0
  | 3%nat => V3 1 1 1
  | _ => V3 1 0 0
  end.

(** grid.h:46-61 num_mixed_derivatives *)
Definition num_mixed_derivatives (dim : nat) : Z :=
  match dim with 1%nat => 0 | 2%nat => 1 | 3%nat => 4 | _ => -1 end.

Section Grid.
Context {T : Type} {NT : Num T}.

(** grid.cc:40-55 Grid(nx,ny,nz).  m_total_cells(nx*ny*nz): int product
    (left to right) converted to size_t. *)
Definition grid_ctor (ov : ovmode) (dim : nat) (nx ny nz : Z) : outcome (grid T) :=
  p <- imul ov nx ny ;; q <- imul ov p nz ;;
  Ok {| g_dim := dim; g_n := V3 nx ny nz; g_pad := 1; g_total := to_size_t q;
        g_box_min := V3 (nofZ INT_MIN) (nofZ INT_MIN) (nofZ INT_MIN);
        g_box_max := V3 (nofZ INT_MAX) (nofZ INT_MAX) (nofZ INT_MAX);
        g_dx := V3 (nofZ INT_MAX) (nofZ INT_MAX) (nofZ INT_MAX);
        g_odx := V3 (nofZ INT_MIN) (nofZ INT_MIN) (nofZ INT_MIN);
        g_nodes := [] |}.

(** grid.cc:57-65 the delegating constructors *)
Definition grid_ctor2 ov dim nx ny := grid_ctor ov dim nx ny 1.
Definition grid_ctor1 ov dim nx := grid_ctor ov dim nx 1 1.

(** grid.cc:87-90 size(), 98-102 numCells(), 104-108 totalCells(), 110-114 getPadding();
    size() converts size_t to int (value-preserving here up to INT_MAX). *)
Definition grid_size (g : grid T) : Z := wrap32 (Z.of_nat (length (g_nodes g))).
Definition num_cells (g : grid T) : vec3 Z := g_n g.
Definition total_cells (g : grid T) : Z := g_total g.

(** grid.cc:116-123 index(i,j,k): every subexpression is an int, left-associated;
    the sum is then converted to std::size_t. *)
Definition index (ov : ovmode) (g : grid T) (i j k : Z) : outcome Z :=
  let nx := vx (g_n g) in let ny := vy (g_n g) in let pad := g_pad g in
  let m := mask (g_dim g) in
  kp <- iadd ov k pad ;; p2 <- imul ov 2 pad ;; sx <- iadd ov nx p2 ;; sy <- iadd ov ny p2 ;;
  k1 <- imul ov kp sx ;; k2 <- imul ov k1 sy ;; k3 <- imul ov k2 (vz m) ;;
  jp <- iadd ov j pad ;; j1 <- imul ov jp sx ;; j2 <- imul ov j1 (vy m) ;;
  s1 <- iadd ov k3 j2 ;;
  ip <- iadd ov i pad ;; i1 <- imul ov ip (vx m) ;;
  s2 <- iadd ov s1 i1 ;;
  Ok (to_size_t s2).

(** grid.cc:125-129 index(Vec3<int>) *)
Definition index_v ov g (n : vec3 Z) := index ov g (vx n) (vy n) (vz n).

(** grid.cc:76-79 x(i,j,k), 155-165 operator() *)
Definition node ov (g : grid T) (i j k : Z) : outcome (vec3 T) :=
  idx <- index ov g i j k ;; vread (g_nodes g) idx.
Definition node_v ov g (n : vec3 Z) := node ov g (vx n) (vy n) (vz n).

(** grid.cc:131-141 baseNodeId: starts from INT_MAX on every axis and overwrites the used ones *)
Definition baseNodeId (g : grid T) (x : vec3 T) : outcome (vec3 Z) :=
  forM (axes (g_dim g))
    (fun b a =>
       f <- float_to_int (nfloor ((vget x a - vget (g_box_min g) a) * vget (g_odx g) a - half)%num) ;;
       Ok (vset b a f))
    (V3 INT_MAX INT_MAX INT_MAX).

(** grid.cc:167-171 setPadding *)
Definition set_padding (g : grid T) (pad : Z) : grid T :=
  {| g_dim := g_dim g; g_n := g_n g; g_pad := pad; g_total := g_total g;
     g_box_min := g_box_min g; g_box_max := g_box_max g; g_dx := g_dx g; g_odx := g_odx g;
     g_nodes := g_nodes g |}.

Definition with_nodes (g : grid T) (l : list (vec3 T)) : grid T :=
  {| g_dim := g_dim g; g_n := g_n g; g_pad := g_pad g; g_total := g_total g;
     g_box_min := g_box_min g; g_box_max := g_box_max g; g_dx := g_dx g; g_odx := g_odx g;
     g_nodes := l |}.

(** grid.cc:181 the number of slots: int arithmetic, then size_t *)
Definition resize_count (ov : ovmode) (g : grid T) : outcome Z :=
  let n := g_n g in let m := mask (g_dim g) in
  p2 <- imul ov 2 (g_pad g) ;;
  pz <- imul ov p2 (vz m) ;; py <- imul ov p2 (vy m) ;; px <- imul ov p2 (vx m) ;;
  sz <- iadd ov (vz n) pz ;; sy <- iadd ov (vy n) py ;; sx <- iadd ov (vx n) px ;;
  q1 <- imul ov sz sy ;; q2 <- imul ov q1 sx ;;
  Ok (to_size_t q2).

(** grid.cc:185-187: m_dx on all three axes *)
Definition gen_dx (g : grid T) (bmin bmax : vec3 T) : vec3 T :=
  V3 ((vx bmax - vx bmin) / nofZ (vx (g_n g)))%num
     ((vy bmax - vy bmin) / nofZ (vy (g_n g)))%num
     ((vz bmax - vz bmin) / nofZ (vz (g_n g)))%num.

(** grid.cc:189: m_one_over_dx on the axes below DIM only *)
Definition gen_odx (g : grid T) (dx : vec3 T) : vec3 T :=
  fold_left (fun o a => vset o a (nofZ 1 / vget dx a)%num) (axes (g_dim g)) (g_odx g).

(** grid.cc:183,191: domain_min_new, zero-initialised, set on the axes below DIM *)
Definition gen_min (g : grid T) (bmin dx : vec3 T) : vec3 T :=
  fold_left (fun o a => vset o a
      (vget bmin a + vget dx a * half - vget dx a * nofZ (vget (mask (g_dim g)) a))%num)
    (axes (g_dim g)) vzero.

(** grid.cc:206 the position stored for the cell with loop offsets vec; elem (193) is
    zero on unused axes *)
Definition gen_elem (g : grid T) (mn dx : vec3 T) (vec : vec3 Z) : vec3 T :=
  fold_left (fun o a => vset o a (vget mn a + nofZ (vget vec a) * vget dx a)%num)
    (axes (g_dim g)) vzero.

(** grid.cc:195-212 the cells visited by the triple loop of generate *)
Definition gen_cells (ov : ovmode) (g : grid T) : outcome (list (Z*Z*Z)) :=
  let n := g_n g in let m := mask (g_dim g) in
  np <- isub ov 0 (g_pad g) ;;
  i0 <- imul ov np (vx m) ;; j0 <- imul ov np (vy m) ;; k0 <- imul ov np (vz m) ;;
  pi <- imul ov (g_pad g) (vx m) ;; pj <- imul ov (g_pad g) (vy m) ;; pk <- imul ov (g_pad g) (vz m) ;;
  i1 <- iadd ov (vx n) pi ;; j1 <- iadd ov (vy n) pj ;; k1 <- iadd ov (vz n) pk ;;
  Ok (cells3 (range i0 i1) (range j0 j1) (range k0 k1)).

(** grid.cc:173-216 generate.  A count that does not fit the address space would throw
    std::bad_alloc; that is outside the model (the count is at most INT_MAX in all theorems). *)
Definition generate (ov : ovmode) (g : grid T) (bmin bmax : vec3 T) : outcome (grid T) :=
  cnt <- resize_count ov g ;;
  let dx := gen_dx g bmin bmax in
  let odx := gen_odx g dx in
  let mn := gen_min g bmin dx in
  let g1 := {| g_dim := g_dim g; g_n := g_n g; g_pad := g_pad g; g_total := g_total g;
               g_box_min := bmin; g_box_max := bmax; g_dx := dx; g_odx := odx;
               g_nodes := repeat vzero (Z.to_nat cnt) |} in
  cs <- gen_cells ov g ;;
  let m := mask (g_dim g) in
  nodes <- forM cs
    (fun l c => match c with (i, j, k) =>
       let vec := V3 (i + g_pad g * vx m) (j + g_pad g * vy m) (k + g_pad g * vz m) in
       idx <- index ov g1 i j k ;;
       vwrite l idx (gen_elem g mn dx vec)
     end)
    (g_nodes g1) ;;
  let total := fold_left (fun t a => (t * vget (g_n g) a) mod 18446744073709551616)
                 (axes (g_dim g)) 1 in
  Ok {| g_dim := g_dim g; g_n := g_n g; g_pad := g_pad g; g_total := total;
        g_box_min := bmin; g_box_max := bmax; g_dx := dx; g_odx := odx; g_nodes := nodes |}.

End Grid.
