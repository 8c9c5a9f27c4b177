(** Model of the small value types: Vec3, Mat3, VecN and utilities.h. *)
From Coq Require Import ZArith List String.
From Verif Require Import Base Num.
Open Scope num_scope.

(** ** include/gals/utilities/vec3.h, src/cpu/vec3.cc *)

(** Vec3<T>: m_data[3] (vec3.h:52-140). *)
Record vec3 (A : Type) := V3 { vx : A; vy : A; vz : A }.
Arguments V3 {A} _ _ _.
Arguments vx {A} _.
Arguments vy {A} _.
Arguments vz {A} _.

(** vec3.cc:84-94 operator[] (const and mutable); the code only uses the
    constant indices 0, 1, 2 and loop variables bounded by DIM or 3, here the type
    [axis], so the out-of-range case does not arise. *)
Definition vget {A} (v : vec3 A) (a : axis) : A :=
  match a with AX => vx v | AY => vy v | AZ => vz v end.
Definition vset {A} (v : vec3 A) (a : axis) (x : A) : vec3 A :=
  match a with
  | AX => V3 x (vy v) (vz v) | AY => V3 (vx v) x (vz v) | AZ => V3 (vx v) (vy v) x
  end.

(** ** include/gals/utilities/mat3.h, src/cpu/mat3.cc *)

(** Mat3<T>: m_data[9], row-major (mat3.cc:36-48); rows as vectors. *)
Record mat3 (A : Type) := M3 { row0 : vec3 A; row1 : vec3 A; row2 : vec3 A }.
Arguments M3 {A} _ _ _.
Arguments row0 {A} _.
Arguments row1 {A} _.
Arguments row2 {A} _.

(** mat3.cc:91-101 operator()(i_row,i_col) = m_data[i_row*3+i_col] *)
Definition mrow {A} (m : mat3 A) (r : axis) : vec3 A :=
  match r with AX => row0 m | AY => row1 m | AZ => row2 m end.
Definition mget {A} (m : mat3 A) (r c : axis) : A := vget (mrow m r) c.
Definition mset {A} (m : mat3 A) (r c : axis) (x : A) : mat3 A :=
  match r with
  | AX => M3 (vset (row0 m) c x) (row1 m) (row2 m)
  | AY => M3 (row0 m) (vset (row1 m) c x) (row2 m)
  | AZ => M3 (row0 m) (row1 m) (vset (row2 m) c x)
  end.

Section Generic.
Context {T : Type} {NT : Num T}.

(** utilities.h:57-59; 1e-10, 1/3 and 2/3 as exact fractions
    (simplification: the C++ constants are the nearest doubles). *)
Definition VSMALL : T := #1 / #10000000000.
Definition one_third : T := #1 / #3.
Definition two_thirds : T := #2 / #3.

(** 0.5 and 1.5 as they appear in the sources. *)
Definition half : T := #1 / #2.
Definition three_halves : T := #3 / #2.

(** utilities.h:75-87 sqr, cube *)
Definition sqr (a : T) : T := a * a.
Definition cube (a : T) : T := a * a * a.

(** fabs *)
Definition nabs (a : T) : T := if a <? #0 then #0 - a else a.

(** utilities.h:70 is_equal(double,double) *)
Definition is_equal (a b : T) : bool := nabs (a - b) <=? VSMALL.

(** vec3.cc:54-57 default constructor *)
Definition vzero : vec3 T := V3 #0 #0 #0.

(** vec3.cc:102-106 operator== *)
Definition veqb (u v : vec3 T) : bool :=
  (is_equal (vx u) (vx v) && is_equal (vy u) (vy v) && is_equal (vz u) (vz v))%bool.

(** vec3.cc:108-112 operator- *)
Definition vsub (u v : vec3 T) : vec3 T := V3 (vx u - vx v) (vy u - vy v) (vz u - vz v).
(** vec3.cc:114-118 operator*(Vec3) *)
Definition vmul (u v : vec3 T) : vec3 T := V3 (vx u * vx v) (vy u * vy v) (vz u * vz v).
(** vec3.cc:120-124 operator*(T) *)
Definition vscale (u : vec3 T) (s : T) : vec3 T := V3 (vx u * s) (vy u * s) (vz u * s).
(** vec3.cc:126-130 operator/ (division by zero is not modelled for the
    exact instances: callers must exclude it) *)
Definition vdiv (u v : vec3 T) : vec3 T := V3 (vx u / vx v) (vy u / vy v) (vz u / vz v).

(** vec3.cc:76-82 min *)
Definition vmin (v : vec3 T) : T :=
  if ((vx v <? vy v) && (vx v <? vz v))%bool then vx v
  else if ((vy v <? vx v) && (vy v <? vz v))%bool then vy v
  else vz v.

(** vec3.cc:70-74 mag, without the square root (see ModelAnalytic for sqrt) *)
Definition vmag2 (v : vec3 T) : T := vx v * vx v + vy v * vy v + vz v * vz v.

(** mat3.cc:50-55 default constructor *)
Definition mzero : mat3 T := M3 vzero vzero vzero.

(** grid.h:250-254 identity_mat *)
Definition midentity : mat3 T := M3 (V3 #1 #0 #0) (V3 #0 #1 #0) (V3 #0 #0 #1).

(** mat3.cc:68-77 dot: for i, for j: res[i] += m_data[j*3+i] * vec[j] *)
Definition mdot (m : mat3 T) (v : vec3 T) : vec3 T :=
  fold_left (fun res i =>
    fold_left (fun res j => vset res i (vget res i + mget m j i * vget v j))
      [AX; AY; AZ] res)
    [AX; AY; AZ] vzero.

(** mat3.cc:109-116 operator-, 118-125 operator*(T): elementwise on the 9 entries *)
Definition msub (a b : mat3 T) : mat3 T :=
  M3 (vsub (row0 a) (row0 b)) (vsub (row1 a) (row1 b)) (vsub (row2 a) (row2 b)).
Definition mscale (a : mat3 T) (s : T) : mat3 T :=
  M3 (vscale (row0 a) s) (vscale (row1 a) s) (vscale (row2 a) s).

(** mat3.cc:127-133 operator== : the nine entries in order *)
Definition meqb (a b : mat3 T) : bool :=
  (veqb (row0 a) (row0 b) && veqb (row1 a) (row1 b) && veqb (row2 a) (row2 b))%bool.

(** src/cpu/vec_n.cc:34-40 VecN<T,SIZE>() : SIZE zeros *)
Definition vecN_zero (size : nat) : list T := repeat #0 size.

End Generic.

(** ** Abort macros, utilities.h:39-53

    Both macros expand to statements, not to one braced block.  In a release build
    (BUILD_TESTS undefined) the expansion is two statements, print and exit(0);
    in a test build it is the single print statement.  A statement list acts on the
    printed text. *)
Inductive stmt := Print | ExitStmt.
Definition macro_expansion (build_tests : bool) : list stmt :=
  if build_tests then [Print] else [Print; ExitStmt].

(** Executes a statement list; the count of printed messages is kept. *)
Fixpoint exec_stmts (l : list stmt) (printed : nat) : outcome nat :=
  match l with
  | [] => Ok printed
  | Print :: l' => exec_stmts l' (S printed)
  | ExitStmt :: _ => Exit 0
  end.

(** [if (c) MACRO(..)]: without braces only the FIRST statement of the expansion is
    guarded by the condition. *)
Definition if_macro (build_tests c : bool) : outcome nat :=
  match macro_expansion build_tests with
  | [] => Ok 0%nat
  | first :: rest => exec_stmts (if c then first :: rest else rest) 0
  end.

(** vec3.cc:44-52 Vec3(const std::vector<T> a) *)
Definition vec3_of_vector {A} (build_tests : bool) (a : list A) : outcome (vec3 A) :=
  do_ if_macro build_tests (negb (Nat.eqb (List.length a) 3)) ;;
  x <- vread a 0 ;; y <- vread a 1 ;; z <- vread a 2 ;;
  Ok (V3 x y z).
