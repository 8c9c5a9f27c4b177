(** The unit tests of the repository (tests/), transcribed.

    A test program is a function to [outcome bool]: it runs the functions of the model in double and returns whether
    every expectation of the test holds. Output to the terminal is left out, and the tests of integer vectors and VecN. *)
From Coq Require Import ZArith List Bool String.
From Flocq Require Import Core BinarySingleNaN.
From Verif Require Import Base Num NumB64 ModelVec ModelGrid ModelArray ModelInterp ModelGradient ModelTemporal ModelAnalytic
  ModelParser ModelOutput ModelFiles.
Import ListNotations.
Open Scope Z_scope.

(** ** Numbers *)

(** the decimal literal m * 10^-k, for m below 2^53 and k up to 22, where the division is correctly rounded *)
Definition dec (m k : Z) : b64 := Bdiv mode_NE (b64_make m 0) (b64_make (10 ^ k) 0).

(** exp of <math.h>: the double nearest to a partial sum of the series, computed with integers in units of 2^-70.
    Simplification: the library function may differ in the last place. *)
Fixpoint exp_terms (n : nat) (k x t acc : Z) : Z :=
  match n with
  | O => acc
  | S n' => let t' := Z.shiftr (t * x) 70 / k in exp_terms n' (k + 1) x t' (acc + t')
  end.
Definition fixed (x : b64) : Z :=
  match x with
  | B754_finite s m e _ => let z := if s then Z.neg m else Z.pos m in
      if 0 <=? e + 70 then Z.shiftl z (e + 70) else Z.shiftr z (- (e + 70))
  | _ => 0
  end.
Definition exp64 (x : b64) : b64 := b64_make (exp_terms 36 1 (fixed x) (2 ^ 70) (2 ^ 70)) (-70).

Definition nsum (l : list b64) : b64 := fold_left (fun a b => nadd a b) l (nofZ 0).
Definition near (tol a b : b64) : bool := nltb (nabs (nsub a b)) tol.
Definition tol12 : b64 := dec 1 12.
Definition tol10 : b64 := dec 1 10.

(** an array whose slot for every node holds f of the position of the node.
    Simplification: the loops over i, j, k of the tests assign every slot once; here the slots are filled in storage order. *)
Definition filled {A} (g : grid b64) (f : vec3 b64 -> A) : array A := mkArray (g_n g) (g_pad g) (map f (g_nodes g)).

(** ** tests/hermite-interpolation.cc *)

(** lines 44-45, 171-186, 323-347: exp of the squared distance minus ro^2, ro = 0.5, and its derivatives, in the axes used *)
Definition r2 (dim : nat) (x : vec3 b64) : b64 :=
  match dim with
  | 1%nat => nsub (nmul (vx x) (vx x)) (dec 25 2)
  | 2%nat => nsub (nadd (nmul (vx x) (vx x)) (nmul (vy x) (vy x))) (dec 25 2)
  | _ => nsub (nadd (nadd (nmul (vx x) (vx x)) (nmul (vy x) (vy x))) (nmul (vz x) (vz x))) (dec 25 2)
  end.
Definition bump (dim : nat) (x : vec3 b64) : b64 := exp64 (r2 dim x).
Definition bump_grad (dim : nat) (x : vec3 b64) : vec3 b64 :=
  let e := bump dim x in
  let d t := nmul (nmul (nofZ 2) t) e in
  V3 (d (vx x)) (if (2 <=? dim)%nat then d (vy x) else nofZ 0) (if (3 <=? dim)%nat then d (vz x) else nofZ 0).
Definition bump_mix (dim : nat) (x : vec3 b64) : list b64 :=
  let e := bump dim x in
  let d a b := nmul (nmul (nmul (nofZ 4) a) b) e in
  match dim with
  | 1%nat => []
  | 2%nat => [d (vx x) (vy x)]
  | _ => [d (vx x) (vy x); d (vy x) (vz x); d (vx x) (vz x); nmul (nmul (nmul (nmul (nofZ 8) (vx x)) (vy x)) (vz x)) e]
  end.

Definition cells_of (dim : nat) (n : Z) : vec3 Z :=
  match dim with 1%nat => V3 n 1 1 | 2%nat => V3 n n 1 | _ => V3 n n n end.

(** lines 54-125 test_oned, 188-282 test_twod, 349-468 test_threed: mean errors of phi and psi at the 11^dim points of a
    grid on [-0.9, 0.9], interpolated from n^dim cells on [-1, 1] *)
Definition errors (dim : nat) (n : Z) : outcome (b64 * vec3 b64) :=
  let nn := cells_of dim n in
  g0 <- grid_ctor Trap dim (vx nn) (vy nn) (vz nn) ;;
  g <- generate Trap g0 (V3 (nofZ (-1)) (nofZ (-1)) (nofZ (-1))) (V3 (nofZ 1) (nofZ 1) (nofZ 1)) ;;
  let l0 := levelset_ctor g in
  let phi := filled g (bump dim) in
  let psi := filled g (bump_grad dim) in
  let mix := filled g (bump_mix dim) in
  let l := mkLS phi psi mix phi psi mix (ls_phi_interp l0) (ls_psi_interp l0) in
  let mm := cells_of dim 11 in
  h0 <- grid_ctor Trap dim (vx mm) (vy mm) (vz mm) ;;
  let lo := V3 (dec (-9) 1) (if (2 <=? dim)%nat then dec (-9) 1 else nofZ (-1)) (if (3 <=? dim)%nat then dec (-9) 1 else nofZ (-1)) in
  let hi := V3 (dec 9 1) (if (2 <=? dim)%nat then dec 9 1 else nofZ 1) (if (3 <=? dim)%nat then dec 9 1 else nofZ 1) in
  h <- generate Trap h0 lo hi ;;
  let cut x := V3 (vx x) (if (2 <=? dim)%nat then vy x else nofZ 0) (if (3 <=? dim)%nat then vz x else nofZ 0) in
  xi <- forM (interior (num_cells h)) (fun a c => match c with (i, j, k) => p <- node Trap h i j k ;; aset Trap h a i j k (cut p) end)
          (array_ctor h vzero) ;;
  l' <- hermite_compute Wrap h xi g l ;;
  es <- forM (interior (num_cells h)) (fun e c => match c with (i, j, k) =>
          x <- aget Trap h xi i j k ;;
          p <- aget Trap g (ls_phi_interp l') i j k ;;
          q <- aget Trap g (ls_psi_interp l') i j k ;;
          let gx := bump_grad dim x in
          let up s a b := nadd s (nabs (nsub a b)) in
          Ok (up (fst e) p (bump dim x), V3 (up (vx (snd e)) (vx q) (vx gx)) (up (vy (snd e)) (vy q) (vy gx)) (up (vz (snd e)) (vz q) (vz gx))) end)
          (nofZ 0, vzero) ;;
  let t := nofZ (total_cells h) in
  Ok (ndiv (fst es) t, V3 (ndiv (vx (snd es)) t) (ndiv (vy (snd es)) t) (ndiv (vz (snd es)) t)).


(** lines 146-148, 306-309: the errors are within 1e-12 of the reference values, which were "obtained from matlab" *)
Definition hermite_test (dim : nat) (n : Z) (phi : b64) (psi : vec3 b64) : outcome bool :=
  e <- errors dim n ;;
  Ok (near tol12 (fst e) phi && near tol12 (vx (snd e)) (vx psi) && ((dim <? 2)%nat || near tol12 (vy (snd e)) (vy psi)))%bool.

(** ** tests/grid.cc *)

Definition all3 (f : axis -> bool) : bool := (f AX && f AY && f AZ)%bool.
Definition zeq3 (u v : vec3 Z) : bool := all3 (fun a => vget u a =? vget v a).

(** the constructors with one, two or three arguments give grids of padding one; setPadding and getPadding; generate on
    [-1,1]^3 *)
Definition cube_grid (dim : nat) (nn : vec3 Z) (pad : Z) : outcome (grid b64) :=
  g0 <- grid_ctor Trap dim (vx nn) (vy nn) (vz nn) ;;
  generate Trap (set_padding g0 pad) (V3 (nofZ (-1)) (nofZ (-1)) (nofZ (-1))) (V3 (nofZ 1) (nofZ 1) (nofZ 1)).

(** lines 40-99 GRID_1D, 101-160 GRID_2D, 162-210 GRID_3D, for 10 cells on every axis used: numCells, padding, totalCells,
    index of the first node, base node of x, positions (also read with INT_MAX on the axes without cells), size, mask, spacings. *)
Definition grid_test (dim : nat) (x : vec3 b64) (base : vec3 Z) (first size : Z) (masks : vec3 Z) : outcome bool :=
  let nn := cells_of dim 10 in
  g1 <- grid_ctor1 (T := b64) Trap dim 10 ;;
  g0 <- grid_ctor Trap dim (vx nn) (vy nn) (vz nn) ;;
  let set2 := g_pad (set_padding g0 2) in
  g <- cube_grid dim nn 1 ;;
  f <- index Wrap g 0 0 0 ;;
  b <- baseNodeId g x ;;
  let dx := ndiv (nofZ 2) (nofZ 10) in
  let mn := nadd (nofZ (-1)) (nmul dx (dec 5 1)) in
  ok <- forM (interior (num_cells g)) (fun ok c => match c with (i, j, k) =>
          p <- node Wrap g i j k ;;
          q <- node Wrap g i (if (2 <=? dim)%nat then j else INT_MAX) (if (3 <=? dim)%nat then k else INT_MAX) ;;
          let want a := nadd mn (nmul (nofZ (match a with AX => i | AY => j | AZ => k end)) dx) in
          Ok (ok && forallb (fun a => near tol10 (vget p a) (want a) && near tol10 (vget q a) (want a)) (axes dim))%bool end) true ;;
  Ok ((vx (num_cells g1) =? 10) && (vy (num_cells g1) =? 1) && zeq3 (num_cells g) nn && (set2 =? 2) &&
      (total_cells g =? vx nn * vy nn * vz nn) && (f =? first) && zeq3 b base && ok && (grid_size g =? size) && zeq3 (mask dim) masks &&
      forallb (fun a => near tol10 (vget (g_dx g) a) dx && near tol10 (vget (g_odx g) a) (ndiv (nofZ 1) dx)) (axes dim) &&
      (negb (dim =? 2)%nat || (near tol10 (vz (g_dx g)) (nofZ 2) && near tol10 (vz (g_odx g)) (nofZ INT_MIN))))%bool.

(** ** tests/array.cc *)

(** lines 41-102: size, write and read by cell, by node id and by slot, assignment *)
Definition array_test : outcome bool :=
  g <- cube_grid 1 (V3 10 1 1) 1 ;;
  let ls0 := array_ctor g (nofZ 0 : b64) in
  let two0 := array_ctor g (vecN_zero (T := b64) 2) in
  let v := [dec 9 1; dec 12 2] in
  two1 <- aset Wrap g two0 0 0 0 v ;;
  a <- aget Wrap g two1 0 0 0 ;;
  b <- aget_v Wrap g two1 (V3 0 0 0) ;;
  c <- araw two1 1 ;;
  two2 <- araw_set two1 1 [dec 95 2; nth 1 c (nofZ 0)] ;;
  d <- araw two2 1 ;;
  ls1 <- araw_set ls0 2 (dec (-21) 1) ;;
  e <- araw ls1 2 ;;
  ls2 <- aset Wrap g ls1 1 0 0 (dec (-22) 1) ;;
  f <- aget_v Wrap g ls2 (V3 1 0 0) ;;
  h <- aget_v Wrap g (array_assign (array_ctor g (nofZ 0)) ls2) (V3 1 0 0) ;;
  let fst0 l := nth 0 l (nofZ 0) in
  Ok ((array_size ls0 =? 12) && (array_size two0 =? 12) && near tol10 (fst0 a) (dec 9 1) && near tol10 (nth 1 a (nofZ 0)) (dec 12 2) &&
      near tol10 (fst0 b) (dec 9 1) && near tol10 (fst0 c) (dec 9 1) && near tol10 (fst0 d) (dec 95 2) && (vx (array_cells two2) =? 10) &&
      is_equal e (dec (-21) 1) && is_equal f (dec (-22) 1) && is_equal h (dec (-22) 1))%bool.

(** ** tests/gradient.cc *)

(** every cell, ghost cells included *)
Definition padded (g : grid b64) : list (Z * Z * Z) :=
  let lo a := - g_pad g * vget (mask (g_dim g)) a in
  let hi a := vget (g_n g) a + g_pad g * vget (mask (g_dim g)) a in
  cells3 (range (lo AX) (hi AX)) (range (lo AY) (hi AY)) (range (lo AZ) (hi AZ)).

(** tests 1-3 (second order, padding one) and 4-6 (third order, padding two): data i, and velocity (i, j, k), have derivative
    5 along x in every interior cell *)
Definition gradient_test (third : bool) (dim : nat) (n : Z) : outcome bool :=
  g <- cube_grid dim (cells_of dim n) (if third then 2 else 1) ;;
  al <- forM (padded g) (fun a c => match c with (i, j, k) => aset Trap g a i j k (nofZ i : b64) end) (array_ctor g (nofZ 0)) ;;
  gr <- (if third then third_scalar Trap g al g (array_ctor g vzero) else soc_scalar Trap g al g (array_ctor g vzero)) ;;
  ok <- forM (interior (num_cells g)) (fun ok c => match c with (i, j, k) =>
          v <- aget Trap g gr i j k ;; Ok (ok && is_equal (ndiv (nofZ n) (nofZ 2)) (vx v))%bool end) true ;;
  ve <- forM (padded g) (fun a c => match c with (i, j, k) => aset Trap g a i j k (V3 (nofZ i) (nofZ j) (nofZ k) : vec3 b64) end) (array_ctor g vzero) ;;
  gv <- (if third then third_vector Trap g ve g (array_ctor g mzero) else soc_vector Trap g ve g (array_ctor g mzero)) ;;
  forM (interior (num_cells g)) (fun ok c => match c with (i, j, k) =>
          m <- aget Trap g gv i j k ;; Ok (ok && is_equal (ndiv (nofZ n) (nofZ 2)) (mget m AX AX))%bool end) ok.

(** ** tests/semi-lagrangian-euler.cc, tests/euler.cc *)

(** one step of length 1 from zero fields runs *)
Definition step_test (dim : nat) (n : Z) : outcome bool :=
  g <- cube_grid dim (cells_of dim n) 1 ;;
  do_ sl_compute Wrap g (nofZ 1) (ls_velocity_ctor g) (levelset_ctor g) ;;
  Ok true.
Definition euler_test : outcome bool :=
  g <- cube_grid 1 (V3 10 1 1) 1 ;;
  do_ euler_compute Wrap g (nofZ 1) (ls_velocity_ctor g) (levelset_ctor g) ;;
  Ok true.

(** ** tests/vec3.cc, VEC3_DOUBLE *)
Definition vec3_test : outcome bool :=
  let v := V3 (dec (-19) 1) (dec 12 1) (dec 21 1) in
  let w := V3 (dec 11 1) (dec 22 1) (dec 33 1) in
  let t := V3 (dec 11 1) (dec 21 1) (dec 31 1) in
  let eq3 u x y z := (is_equal (vx u) x && is_equal (vy u) y && is_equal (vz u) z)%bool in
  s <- vec3_of_vector true [dec 2 1; dec 134 2; dec 212 2] ;;
  Ok (is_equal (vmin v) (dec (-19) 1) && is_equal (vmag v) (dec 30757112998459397 16) && veqb w w &&
      eq3 (vsub t w) (nofZ 0) (dec (-1) 1) (dec (-2) 1) &&
      eq3 (vmul t w) (nmul (dec 11 1) (dec 11 1)) (nmul (dec 21 1) (dec 22 1)) (nmul (dec 31 1) (dec 33 1)) &&
      eq3 (vscale t (nofZ 2)) (nmul (dec 11 1) (nofZ 2)) (nmul (dec 21 1) (nofZ 2)) (nmul (dec 31 1) (nofZ 2)) &&
      eq3 (vdiv t w) (nofZ 1) (ndiv (dec 21 1) (dec 22 1)) (ndiv (dec 31 1) (dec 33 1)) &&
      eq3 s (dec 2 1) (dec 134 2) (dec 212 2))%bool.

(** ** tests/mat3.cc, MAT3_DOUBLE *)
Definition mat3_test : bool :=
  let m := M3 (V3 (dec 11 1) (dec 22 1) (dec 33 1)) vzero vzero in
  let s := dec 221 2 in
  let cells := list_prod (axes 3) (axes 3) in
  (meqb m m && forallb (fun rc => is_equal (mget (msub (mscale m s) m) (fst rc) (snd rc))
                                     (nsub (nmul (mget m (fst rc) (snd rc)) s) (mget m (fst rc) (snd rc)))) cells &&
   forallb (fun rc => is_equal (mget (mscale m s) (fst rc) (snd rc)) (nmul (mget m (fst rc) (snd rc)) s)) cells)%bool.

(** ** tests/file-utils.cc, without the last line (removeDirectory is not modelled) *)
Definition files_test : outcome bool :=
  let u := setRootDirectory fu_new "root_dir/proj/case/" in
  let r := createDirectory u [] (getRootDirectory u) in
  g <- cube_grid 1 (V3 10 1 1) 1 ;;
  text <- print_array (fun _ : b64 => "0"%string) Wrap g (show_vec3 (fun _ : b64 => "0"%string)) (array_ctor g vzero) ;;
  let s := fu_write u (snd r) (getRootDirectory u ++ "file.txt")%string text in
  Ok (fst r && fst (removeFile u s (getRootDirectory u ++ "file.txt")%string))%bool.

(** ** tests/inputs, the document tree of the file *)
Definition inputs_doc : yaml :=
  let sc := YScalar in
  YMap [("general", YMap [("output_directory", sc "project-1/case-1")]);
        ("grid", YMap [("box", YMap [("x_min", sc "-1.0"); ("x_max", sc "1.0"); ("y_min", sc "-1.0"); ("y_max", sc "1.0"); ("z_min", sc "-1.0"); ("z_max", sc "1.0")]);
                       ("cells", YSeq [sc "10"; sc "10"; sc "1"])]);
        ("time", YMap [("start", sc "0"); ("end", sc "0.1"); ("dt", sc "1e-4"); ("constant_dt", sc "NO")]);
        ("velocity", YMap [("name", sc "CIRCULAR"); ("vector", YSeq [sc "1."; sc "0"; sc "0"]); ("center", YSeq [sc "0."; sc "0."; sc "0."]);
                           ("gradient", YMap [("scheme", sc "ANALYTICAL")])]);
        ("levelset", YMap [("name", sc "CIRCLE"); ("center", YSeq [sc "0."; sc "0."; sc "0."]); ("radius", sc "0.5");
                           ("gradient", YMap [("scheme", sc "CENTRAL")])])]%string.
(** the numbers that occur in it *)
Definition doubles (s : string) : option b64 :=
  map_find [("-1.0", dec (-1) 0); ("1.0", dec 1 0); ("0", dec 0 0); ("0.1", dec 1 1); ("1e-4", dec 1 4); ("1.", dec 1 0); ("0.", dec 0 0);
            ("0.5", dec 5 1)]%string s.
Definition ints (s : string) : option Z := map_find [("10", 10); ("1", 1)]%string s.

(** tests/input-parser.cc, tests/analytical-fields-levelset.cc and -velocity.cc: the file is parsed; the circle and the circular
    velocity are computed on 10 x 10 cells *)
Definition fields_test : outcome bool :=
  fs <- parse doubles ints None true inputs_doc fields0 ;;
  g <- cube_grid 2 (V3 10 10 1) 1 ;;
  match if_ls fs with
  | Some li =>
      let pos := filled g (fun x => x) in
      do_ als_compute Wrap g ls_map0 li pos (levelset_ctor g) ;;
      do_ av_compute Wrap true g vel_map0 (if_vel fs) pos (nofZ 0) (ls_velocity_ctor g) ;;
      Ok true
  | None => Ok false
  end.
