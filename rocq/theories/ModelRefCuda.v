(** Model of the CUDA reference program: src/reference/CUDA/*.cu and CUDA/Allocation.h.

    Device arrays are flat; element k of array a is the location (a, k, 0).  dphi, dpsix, dpsiy, dpsixy
    are Phi, Psix, Psiy, Psixy; masterdphi.. are MPhi..; the host arrays mphi.. are MPhi.. of a second
    memory.  The threads of a kernel run in any interleaving of their reads and writes.  Kernels of the
    default stream run one after the other. *)
From Coq Require Import ZArith List String.
From Verif Require Import Base Num NumB64 ModelVec ModelRefMath ModelRefMem ModelRef.
Open Scope num_scope.

(** GALS_Advection.cu:69-70: the grid has nx/TileSize by ny/TileSize blocks of TileSize x TileSize
    threads.  AdvectionPointCalcsCUDA.cu:25-26 and the same lines of the other kernels: the node
    (index_y, index_x) of a thread.  A launch without blocks or with more than 1024 threads per block
    is refused by CUDA and, as the result is not tested, nothing runs. *)
Definition launch (tile nx ny : Z) : list (Z * Z) :=
  if (1024 <? tile * tile)%Z then [] else
  flat_map (fun by_ => flat_map (fun bx => flat_map (fun ty => map (fun tx =>
    (u32 (by_ * tile + ty), u32 (bx * tile + tx))) (range 0 tile)) (range 0 tile)) (range 0 (nx / tile))) (range 0 (ny / tile)).

Section Cuda.
Context {T : Type} {NT : Num T}.

(** indexToWrite = index_y * nx + index_x, AdvectionPointCalcsCUDA.cu:31 *)
Definition fl (a : arr) (nx i j : Z) : loc := (a, u32 (i * nx + j), 0%Z).

(** CUDA/Allocation.h:12-37 *)
Definition init_kernel {TG : Trig T} (nx : Z) (ij : Z * Z) (p px py pxy : arr) : prog T :=
  match ij with (i, j) =>
    rd (AX1, j, 0%Z) (fun x => rd (AY1, i, 0%Z) (fun y =>
    let e := nexp (#0 - (sqr (x - init_xo) + sqr (y - init_yo))) in
    Wr (fl p nx i j) (D ((#0 - nexp (#0 - rcircle * rcircle)) + e))
    (Wr (fl px nx i j) (D (#(-2) * (x - init_xo) * e))
    (Wr (fl py nx i j) (D (#(-2) * (y - init_yo) * e))
    (Wr (fl pxy nx i j) (D (#4 * (y - init_yo) * (x - init_xo) * e)) Ret))))) end.

(** AdvectionPointCalcsCUDA.cu:12-50, one thread.  Simplification: x[index_x], y[index_y] and each
    stored intermediate position are read once. *)
Definition adv_kernel (F : flow T) (nx t : Z) (dt Tp : T) (ij : Z * Z) : prog T :=
  match ij with (i, j) =>
    let xl := fl Xadv nx i j in let yl := fl Yadv nx i j in
    rd (AX1, j, 0%Z) (fun x => rd (AY1, i, 0%Z) (fun y =>
    let a := euler_back F x y t dt Tp in
    Wr xl (D (fst a)) (Wr yl (D (snd a))
    (rd xl (fun xa => rd yl (fun ya =>
     let b := second_back F x y xa ya t dt Tp in
     Wr xl (D (fst b)) (Wr yl (D (snd b))
     (rd xl (fun xb => rd yl (fun yb =>
      let c := third_back F x y xa ya xb yb t dt Tp in
      Wr xl (D (fst c)) (Wr yl (D (snd c)) Ret))))))))))) end.

(** AdvectionPointCalcsCUDA.cu:55-56: while (x[location] < xadv && location < nx) location++; the
    element is read before the bound is tested.  The rounds that can be left are nx - location. *)
Fixpoint scan (a : arr) (v : T) (n : Z) (left_ : nat) (location : Z) (k : Z -> prog T) : prog T :=
  rd (a, location, 0%Z) (fun x =>
    if ((x <? v) && (location <? n)%Z)%bool
    then match left_ with O => Err OutOfBounds | S left' => scan a v n left' (location + 1)%Z k end
    else k location).
(** AdvectionPointCalcsCUDA.cu:52-61 *)
Definition locationAlgo (a : arr) (v : T) (n : Z) (k : Z -> prog T) : prog T :=
  scan a v n (Z.to_nat n) 0 (fun location => k (if (location =? 0)%Z then 0%Z else (location - 1)%Z)).

(** AdvectionPointCalcsCUDA.cu:63-117, one thread.  Simplification: the position is read once. *)
Definition find_kernel (nx ny : Z) (xlim1 xlim2 ylim1 ylim2 : T) (ij : Z * Z) : prog T :=
  match ij with (i, j) =>
    rd (fl Xadv nx i j) (fun xa => rd (fl Yadv nx i j) (fun ya =>
    let xout := negb ((xlim1 <? xa) && (xa <? xlim2))%bool in
    let yout := negb ((ylim1 <? ya) && (ya <? ylim2))%bool in
    let put a v p := Wr (fl a nx i j) (U v) p in
    match xout, yout with
    | false, false => put Tracker 1%Z (locationAlgo AX1 xa nx (fun c => put Cellx c
        (locationAlgo AY1 ya ny (fun c => put Celly c Ret))))
    | false, true => put Tracker 2%Z (locationAlgo AX1 xa nx (fun c => put Cellx c
        (if ya <=? ylim1 then put Celly 0%Z Ret else if ylim2 <=? ya then put Celly (u32 (ny - 2)) Ret else Ret)))
    | true, false => put Tracker 3%Z (locationAlgo AY1 ya ny (fun c => put Celly c
        (if xa <=? xlim1 then put Cellx 0%Z Ret else if xlim2 <=? xa then put Cellx (u32 (nx - 2)) Ret else Ret)))
    | true, true => put Tracker 4%Z Ret
    end)) end.

(** AdvectionPointCalcsCUDA.cu:146-149: the four corner values of array a from cellindex on *)
Definition rdquad_flat (a : arr) (nx c : Z) (k : quad T -> prog T) : prog T :=
  rd (a, c, 0%Z) (fun v0 => rd (a, u32 (c + 1), 0%Z) (fun v1 =>
  rd (a, u32 (c + nx), 0%Z) (fun v2 => rd (a, u32 (c + nx + 1), 0%Z) (fun v3 => k (mkQuad v0 v1 v2 v3))))).

(** AdvectionPointCalcsCUDA.cu:119-196, one thread; the schemes of the settings are ignored (:161-168,
    TimeSteppingMethodsCUDA.cu:76-80).  Simplifications: as in ModelRef.update_body. *)
Definition update_kernel (F : flow T) (nx t : Z) (dt Tp : T) (ij : Z * Z) : prog T :=
  match ij with (i, j) =>
    let at_ a := fl a nx i j in
    rd (AX1, 2%Z, 0%Z) (fun x2 => rd (AX1, 1%Z, 0%Z) (fun x1 => rd (AY1, 2%Z, 0%Z) (fun y2 => rd (AY1, 1%Z, 0%Z) (fun y1 =>
    let dx := x2 - x1 in let dy := y2 - y1 in
    rdu (at_ Cellx) (fun cx => rdu (at_ Celly) (fun cy =>
    let c := u32 (cx + cy * nx) in
    rdquad_flat MPhi nx c (fun phi => rdquad_flat MPsix nx c (fun psix =>
    rdquad_flat MPsiy nx c (fun psiy => rdquad_flat Psixy nx c (fun psixy =>
    rd (AX1, cx, 0%Z) (fun xo => rd (AY1, cy, 0%Z) (fun yo =>
    rd (AX1, j, 0%Z) (fun xj => rd (AY1, i, 0%Z) (fun yi =>
    rd (at_ Xadv) (fun xa => rd (at_ Yadv) (fun ya =>
    rdu (at_ Tracker) (fun tr =>
    let t0 := time_at t dt in
    match tr with
    | 1%Z =>
        let rx := hermx phi psix psiy psixy xa ya xo yo dx dy in
        let ry := hermy phi psix psiy psixy xa ya xo yo dx dy in
        let r := SuperConsistentScheme F true xj yi rx ry t dt Tp in
        Wr (at_ Phi) (D (hp phi psix psiy psixy xa ya xo yo dx dy))
        (Wr (at_ Psix) (D (fst r)) (Wr (at_ Psiy) (D (snd r)) Ret))
    | 2%Z =>
        let rx := hermx phi psix psiy psixy xa yi xo yo dx dy in
        rd (at_ Psiy) (fun ry =>
        Wr (at_ Phi) (D (hp phi psix psiy psixy xa yi xo yo dx dy - dt * Vely F xj yi t0 Tp * ry))
        (rd (at_ Psixy) (fun pxy => rd (at_ Psix) (fun px =>
         Wr (at_ Psix) (D (Heuns_X F xj yi rx ry pxy px t dt Tp)) Ret))))
    | 3%Z =>
        rd (at_ Psix) (fun rx =>
        let ry := hermy phi psix psiy psixy xj ya xo yo dx dy in
        Wr (at_ Phi) (D (hp phi psix psiy psixy xj ya xo yo dx dy - dt * Velx F xj yi t0 Tp * rx))
        (rd (at_ Psixy) (fun pxy => rd (at_ Psiy) (fun py =>
         Wr (at_ Psiy) (D (Heuns_Y F xj yi rx ry pxy py t dt Tp)) Ret))))
    | 4%Z =>
        rd (at_ Phi) (fun p => rd (at_ Psix) (fun px => rd (at_ Psiy) (fun py =>
        Wr (at_ Phi) (D (p - dt * (Velx F xj yi t0 Tp * px + Vely F xj yi t0 Tp * py))) Ret)))
    | _ => Ret
    end))))))))))))))))) end.

(** HermiteCUDA.cu:9-26, one thread *)
Definition copy_kernel (nx : Z) (ij : Z * Z) : prog T :=
  match ij with (i, j) =>
    let cp a b p := Rd (fl b nx i j) (fun v => Wr (fl a nx i j) v p) in
    cp MPhi Phi (cp MPsix Psix (cp MPsiy Psiy Ret)) end.

(** (a[k] - a[k']) / h *)
Definition diff (a : arr) (k k' : Z) (h : T) (c : T -> prog T) : prog T :=
  rd (a, u32 k, 0%Z) (fun v => rd (a, u32 k', 0%Z) (fun v' => c ((v - v') / h))).
(** AdvectionPointCalcsCUDA.cu:198-256, one thread; d1.., dxy1, dxy2 are variables of the thread *)
Definition mixed_kernel (nx ny : Z) (dx dy : T) (kl : Z * Z) : prog T :=
  match kl with (k, l) =>
    let at_ := u32 (k * nx + l) in
    let put v := Wr (Psixy, at_, 0%Z) (D v) Ret in
    let top := u32 (ny - 1) in let last := u32 (nx - 1) in
    let ky := ((k =? 0) || (k =? top))%Z%bool in let lx := ((l =? 0) || (l =? last))%Z%bool in
    let corner a b c d := put (#3 / #4 * (a + b) - #1 / #4 * (c + d)) in
    if (ky && negb lx)%bool then diff Psiy (at_ + 1) (at_ - 1) (#2 * dx) put
    else if (negb ky && lx)%bool then diff Psix (at_ + nx) (at_ - nx) (#2 * dy) put
    else if (ky && lx)%bool then
      if ((k =? 0) && (l =? 0))%Z%bool then
        diff Psiy 1 0 dx (fun d1 => diff Psix nx 0 dy (fun d2 => diff Psix (nx + 1) 1 dy (fun d3 => diff Psiy (nx + 1) nx dx (fun d4 =>
        corner d1 d2 d3 d4))))
      else if ((k =? 0) && (l =? last))%Z%bool then
        diff Psiy (nx - 1) (nx - 2) dx (fun d1 => diff Psix (nx + nx - 2) (nx - 2) dy (fun d2 =>
        diff Psix (nx + nx - 1) (nx - 1) dy (fun d3 => diff Psiy (nx + nx - 1) (nx + nx - 2) dx (fun d4 =>
        corner d1 d3 d2 d4))))
      else if ((k =? top) && (l =? 0))%Z%bool then
        diff Psiy (nx * (ny - 2) + 1) (nx * (ny - 2)) dx (fun d1 => diff Psix (nx * (ny - 1)) (nx * (ny - 2)) dy (fun d2 =>
        diff Psix (nx * (ny - 1)) (nx * (ny - 2) + 1) dy (fun d3 => diff Psiy (nx * (ny - 1) + 1) (nx * (ny - 1)) dx (fun d4 =>
        corner d2 d4 d3 d1))))
      else if ((k =? top) && (l =? last))%Z%bool then
        diff Psiy (nx * (ny - 2) + nx - 1) (nx * (ny - 2) + nx - 2) dx (fun d1 =>
        diff Psix (nx * (ny - 1) + nx - 2) (nx * (ny - 2) + nx - 2) dy (fun d2 =>
        diff Psix (nx * (ny - 1) + nx - 1) (nx * (ny - 2) + nx - 1) dy (fun d3 =>
        diff Psiy (nx * (ny - 1) + nx - 1) (nx * (ny - 1) + nx - 2) dx (fun d4 =>
        corner d3 d4 d1 d2))))
      else Ret
    else
      diff Psiy (at_ + 1) (at_ - 1) (#2 * dx) (fun dxy1 => diff Psix (at_ + nx) (at_ - nx) (#2 * dy) (fun dxy2 =>
      put ((dxy1 + dxy2) / #2))) end.

(** kernels launched one after the other; an undefined access ends the program *)
Inductive launches : list (list (prog T)) -> mem T -> outcome (mem T) -> Prop :=
| no_kernel m : launches [] m (Ok m)
| kernel_ok k ks m m1 r : interleaved k m (Ok m1) -> launches ks m1 r -> launches (k :: ks) m r
| kernel_ub k ks m e : interleaved k m (UB e) -> launches (k :: ks) m (UB e).

(** GALS_Advection.cu:63: nx * ny is computed in unsigned int *)
Definition gridcells (nx ny : Z) : Z := u32 (nx * ny).
(** cudaMalloc: the memory is not initialised *)
Definition cuda_malloc (n : Z) (arrs : list arr) (m : mem T) : mem T :=
  fold_left (fun m a => alloc a n 1 Undef m) arrs m.
(** GALS_Advection.cu:139-190: allocations and the five kernels of a time step; the cudaFree of
    :211-215 is the next allocation *)
Definition step_arrays (nx ny : Z) (m : mem T) : mem T := cuda_malloc (gridcells nx ny) [Xadv; Yadv; Cellx; Celly; Tracker] m.
Definition step_kernels (F : flow T) (s : settings T) (tile t : Z) : list (list (prog T)) :=
  let nx := s_nx s in let ny := s_ny s in
  let run_ body := map body (launch tile nx ny) in
  [ run_ (adv_kernel F nx t (s_dt s) (s_Tp s));
    run_ (find_kernel nx ny (s_xlim1 s) (s_xlim2 s) (s_ylim1 s) (s_ylim2 s));
    run_ (update_kernel F nx t (s_dt s) (s_Tp s));
    run_ (copy_kernel nx);
    run_ (mixed_kernel nx ny (s_dx s) (s_dy s)) ].
Definition cuda_step (F : flow T) (s : settings T) (tile t : Z) (m : mem T) (r : outcome (mem T)) : Prop :=
  launches (step_kernels F s tile t) (step_arrays (s_nx s) (s_ny s) m) r.

(** GALS_Advection.cu:80-108 and CUDA/Allocation.h:64-72: the device after the node coordinates have
    been copied, before and after the two initialising kernels *)
Definition cuda_arrays (s : settings T) : outcome (mem T) :=
  m <- gridnodes (s_xlim1 s) (s_ylim1 s) (s_dx s) (s_dy s) (s_nx s) (s_ny s) (fun _ => None) ;;
  Ok (cuda_malloc (gridcells (s_nx s) (s_ny s)) [MPhi; MPsix; MPsiy; MPsixy; Phi; Psix; Psiy; Psixy] m).
Definition init_kernels {TG : Trig T} (s : settings T) (tile : Z) : list (list (prog T)) :=
  let run_ body := map body (launch tile (s_nx s) (s_ny s)) in
  [ run_ (fun ij => init_kernel (s_nx s) ij MPhi MPsix MPsiy MPsixy); run_ (fun ij => init_kernel (s_nx s) ij Phi Psix Psiy Psixy) ].

(** CUDA/Allocation.h:39-51, one node *)
Definition host_init_body {TG : Trig T} (nx : Z) (ij : Z * Z) : prog T :=
  match ij with (i, j) =>
    rd (AX1, j, 0%Z) (fun x => rd (AY1, i, 0%Z) (fun y =>
    Wr (fl MPhi nx i j) (D (initialize x y)) (Wr (fl MPsix nx i j) (D (derivxinit x y))
    (Wr (fl MPsiy nx i j) (D (derivyinit x y)) (Wr (fl MPsixy nx i j) (D (derivxyinit x y)) Ret))))) end.
(** GALS_Advection.cu:75-77, :87-90, :110 *)
Definition host_setup {TG : Trig T} (s : settings T) : outcome (mem T) :=
  m <- gridnodes (s_xlim1 s) (s_ylim1 s) (s_dx s) (s_dy s) (s_nx s) (s_ny s) (fun _ => None) ;;
  runs (map (host_init_body (s_nx s)) (nodes (s_ny s) 0 (s_nx s)))
    (cuda_malloc (gridcells (s_nx s) (s_ny s)) [MPhi; MPsix; MPsiy; MPsixy] m).

(** GALS_Advection.cu:197-204: mphi and mpsix are copied; of mpsiy gridmemoryint = 4 n bytes, which is
    n/2 doubles and, for odd n, half of one more ([torn]: old and new value); mpsixy is not copied. *)
Definition copy_back (torn : option (val T) -> option (val T) -> option (val T)) (n : Z) (dev host : mem T) : mem T :=
  fun l => match l with (a, i, j) =>
    match a with
    | MPhi | MPsix => if ((0 <=? i) && (i <? n))%Z%bool then dev l else host l
    | MPsiy => if ((0 <=? i) && (2 * i + 2 <=? n))%Z%bool then dev l
               else if ((0 <=? i) && (2 * i + 1 =? n))%Z%bool then torn (host l) (dev l) else host l
    | _ => host l
    end end.

(** GALS_Advection.cu:137-216: the printed states are the host memories with their times *)
Inductive cuda_loop (torn : option (val T) -> option (val T) -> option (val T)) (F : flow T) (s : settings T) (tile every : Z) :
  Z -> nat -> mem T -> mem T -> list (T * mem T) -> outcome (mem T * list (T * mem T)) -> Prop :=
| loop_end t dev host out : cuda_loop torn F s tile every t O dev host out (Ok (dev, out))
| loop_ub t k dev host out e : cuda_step F s tile t dev (UB e) -> cuda_loop torn F s tile every t (S k) dev host out (UB e)
| loop_zero t k dev dev' host out : cuda_step F s tile t dev (Ok dev') -> every = 0%Z ->
    cuda_loop torn F s tile every t (S k) dev host out (UB DivByZero)
| loop_print t k dev dev' host out r : cuda_step F s tile t dev (Ok dev') -> every <> 0%Z -> (u32 (t + 1) mod every = 0)%Z ->
    let host' := copy_back torn (gridcells (s_nx s) (s_ny s)) dev' host in
    cuda_loop torn F s tile every (t + 1) k dev' host' (out ++ [(time_at (t + 1) (s_dt s), host')]) r ->
    cuda_loop torn F s tile every t (S k) dev host out r
| loop_quiet t k dev dev' host out r : cuda_step F s tile t dev (Ok dev') -> every <> 0%Z -> (u32 (t + 1) mod every <> 0)%Z ->
    cuda_loop torn F s tile every (t + 1) k dev' host out r -> cuda_loop torn F s tile every t (S k) dev host out r.

(** GALS_Advection.cu:39-216.  TileSize 0 divides by zero at :70. *)
Inductive cuda_main {TG : Trig T} (torn : option (val T) -> option (val T) -> option (val T)) (F : flow T) (s : settings T) (tile : Z) :
  outcome (mem T * list (T * mem T)) -> Prop :=
| main_count e : step_count s = UB e -> cuda_main torn F s tile (UB e)
| main_tile n : step_count s = Ok n -> tile = 0%Z -> cuda_main torn F s tile (UB DivByZero)
| main_init n m e : step_count s = Ok n -> tile <> 0%Z -> cuda_arrays s = Ok m ->
    launches (init_kernels s tile) m (UB e) -> cuda_main torn F s tile (UB e)
| main_host n e : step_count s = Ok n -> tile <> 0%Z -> host_setup s = UB e -> cuda_main torn F s tile (UB e)
| main_run n m dev host r : step_count s = Ok n -> tile <> 0%Z -> cuda_arrays s = Ok m ->
    launches (init_kernels s tile) m (Ok dev) -> host_setup s = Ok host ->
    cuda_loop torn F s tile (print_every s n) 0 (Z.to_nat n) dev host [(#0, host)] r ->
    cuda_main torn F s tile r.
End Cuda.
