(** Model of the objects of src/cpu/input-fields/input-fields.cc on the heap and of what the parser of src/cpu/input-parser.cc
    and src/cpu/input-parser/*.cc has stored at each moment, so also when it fails half way.

    ModelParser gives the result of a parse that succeeds; here every assignment is one step. *)
From Coq Require Import ZArith List String.
From Verif Require Import Base Num ModelVec ModelAnalytic ModelParser.
Open Scope string_scope.
Open Scope Z_scope.

(** input-fields.h:59-63: the five records an InputFields object points to *)
Inductive sec := SGeneral | SGrid | STime | SVelocity | SLevelset.
Definition secs : list sec := [SGeneral; SGrid; STime; SVelocity; SLevelset].
Definition sec_eqb (a b : sec) : bool :=
  match a, b with SGeneral, SGeneral | SGrid, SGrid | STime, STime | SVelocity, SVelocity | SLevelset, SLevelset => true | _, _ => false end.
(** the members of the records: include/gals/input-fields/general.h:41, grid.h:39-40, time.h:41-42, velocity.h:41-44,
    levelset.h:42-45.  [name], [center] and [gradient_scheme] occur in two records. *)
Inductive fld := output_directory | x_min | x_max | y_min | y_max | z_min | z_max | nx | ny | nz | start | end_ | dt | constant_dt |
  name | vector | center | gradient_scheme | radius.
Definition fld_eq_dec (a b : fld) : {a = b} + {a <> b}. Proof. decide equality. Defined.
Definition fld_eqb (a b : fld) : bool := if fld_eq_dec a b then true else false.
Inductive value (T : Type) := VStr (s : string) | VNum (x : T) | VInt (z : Z) | VList (l : list T) | VVec (v : vec3 T).
Arguments VStr {T}. Arguments VNum {T}. Arguments VInt {T}. Arguments VList {T}. Arguments VVec {T}.
(** the members of one record; [None]: indeterminate, or not a member of this record *)
Definition cell (T : Type) : Type := fld -> option (value T).
Definition put {T} (c : cell T) (f : fld) (v : value T) : cell T := fun f' => if fld_eqb f f' then Some v else c f'.

Section Owner.
Context {T : Type} {NT : Num T} (to_double : string -> option T) (to_int : string -> option Z) (null_text : option string) (bt : bool).

(** new General, new Grid, ... of input-fields.cc:35-39: strings and vectors are empty, Vec3() is zero (vec3.cc:55), the
    numbers are indeterminate *)
Definition new_cell (s : sec) : cell T :=
  match s with
  | SGeneral => put (fun _ => None) output_directory (VStr "")
  | SGrid => fun _ => None
  | STime => put (fun _ => None) constant_dt (VStr "")
  | SVelocity => put (put (put (put (fun _ => None) name (VStr "")) vector (VList [])) center (VList [])) gradient_scheme (VStr "")
  | SLevelset => put (put (put (fun _ => None) name (VStr "")) center (VVec (V3 (nofZ 0) (nofZ 0) (nofZ 0)))) gradient_scheme (VStr "")
  end.

(** *** the parser, one assignment after the other *)
(** the right-hand sides of the assignments *)
Definition text (k : option yaml -> outcome (option yaml)) (y : option yaml) : outcome (value T) := n <- k y ;; s <- yas_string null_text n ;; Ok (VStr s).
Definition number (k : option yaml -> outcome (option yaml)) (y : option yaml) : outcome (value T) := n <- k y ;; x <- yas to_double n ;; Ok (VNum x).
Definition list_ (k : option yaml -> outcome (option yaml)) (y : option yaml) : outcome (value T) := n <- k y ;; l <- yas_vector to_double n ;; Ok (VList l).
Definition key (a : string) (y : option yaml) : outcome (option yaml) := ysub y a.
Definition key2 (a b : string) (y : option yaml) : outcome (option yaml) := n <- ysub y a ;; ysub n b.
(** the assignments of the five sections in program order: general.cc:44, grid.cc:46-56, time.cc:44-47, velocity.cc:45-48,
    levelset.cc:45-48 *)
Definition lines (s : sec) : list (fld * (option yaml -> outcome (value T))) :=
  let count i y := n <- ysub y "cells" ;; l <- yas_vector to_int n ;; z <- vread l i ;; Ok (VInt z) in
  match s with
  | SGeneral => [(output_directory, text (key "output_directory"))]
  | SGrid => [(x_min, number (key2 "box" "x_min")); (x_max, number (key2 "box" "x_max")); (y_min, number (key2 "box" "y_min"));
              (y_max, number (key2 "box" "y_max")); (z_min, number (key2 "box" "z_min")); (z_max, number (key2 "box" "z_max"));
              (nx, count 0); (ny, count 1); (nz, count 2)]
  | STime => [(start, number (key "start")); (end_, number (key "end")); (dt, number (key "dt")); (constant_dt, text (key "constant_dt"))]
  | SVelocity => [(name, text (key "name")); (vector, list_ (key "vector")); (center, list_ (key "center"));
                  (gradient_scheme, text (key2 "gradient" "scheme"))]
  | SLevelset => [(name, text (key "name"));
                  (center, fun y => n <- ysub y "center" ;; l <- yas_vector to_double n ;; v <- vec3_of_vector bt l ;; Ok (VVec v));
                  (radius, number (key "radius")); (gradient_scheme, text (key2 "gradient" "scheme"))]
  end.
Definition sec_key (s : sec) : string :=
  match s with SGeneral => "general" | SGrid => "grid" | STime => "time" | SVelocity => "velocity" | SLevelset => "levelset" end.

(** *** the heap: the records that exist with their addresses.  Simplification: an address is not used again after a delete (a
    program that could tell the difference uses a deleted record, which is undefined); memory does not run out. *)
Record heap := mkHeap { h_next : Z; h_cells : list (Z * cell T) }.
Definition load (h : heap) (p : Z) : outcome (cell T) :=
  match find (fun e => fst e =? p) (h_cells h) with Some (_, c) => Ok c | None => UB Dangling end.
Definition store (h : heap) (p : Z) (c : cell T) : outcome heap :=
  match find (fun e => fst e =? p) (h_cells h) with
  | Some _ => Ok (mkHeap (h_next h) (map (fun e => if fst e =? p then (p, c) else e) (h_cells h)))
  | None => UB Dangling end.
Definition new_ (h : heap) (c : cell T) : Z * heap := (h_next h, mkHeap (h_next h + 1) ((h_next h, c) :: h_cells h)).
Definition delete (h : heap) (p : Z) : outcome heap :=
  match find (fun e => fst e =? p) (h_cells h) with
  | Some _ => Ok (mkHeap (h_next h) (filter (fun e => negb (fst e =? p)) (h_cells h)))
  | None => UB Dangling end.

(** an InputFields object: its five pointers *)
Definition handle : Type := sec -> Z.
(** input-fields.cc:34-41 *)
Fixpoint construct (l : list sec) (h : heap) (o : handle) : heap * handle :=
  match l with
  | [] => (h, o)
  | s :: l' => match new_ h (new_cell s) with (p, h') => construct l' h' (fun s' => if sec_eqb s s' then p else o s') end
  end.
(** input-fields.cc:43-50 *)
Fixpoint destroy (l : list sec) (o : handle) (h : heap) : outcome heap :=
  match l with [] => Ok h | s :: l' => h' <- delete h (o s) ;; destroy l' o h' end.

(** the assignments of one section through the pointer p: the heap at the end or at the failure, and how it ended *)
Fixpoint assign (ls : list (fld * (option yaml -> outcome (value T)))) (y : option yaml) (p : Z) (h : heap) : heap * outcome unit :=
  match ls with
  | [] => (h, Ok tt)
  | (f, r) :: ls' =>
      match r y with
      | Ok v => match (c <- load h p ;; store h p (put c f v)) with Ok h' => assign ls' y p h' | UB e => (h, UB e) | Exit n => (h, Exit n) | Throw => (h, Throw) end
      | UB e => (h, UB e) | Exit n => (h, Exit n) | Throw => (h, Throw)
      end
  end.
(** input-parser.cc:48-57 *)
Fixpoint parse_secs (l : list sec) (doc : yaml) (o : handle) (h : heap) : heap * outcome unit :=
  match l with
  | [] => (h, Ok tt)
  | s :: l' =>
      match ysub (Some doc) (sec_key s) with
      | Ok None => parse_secs l' doc o h
      | Ok (Some y) => match assign (lines s) (Some y) (o s) h with (h', Ok _) => parse_secs l' doc o h' | r => r end
      | UB e => (h, UB e) | Exit n => (h, Exit n) | Throw => (h, Throw)
      end
  end.

(** *** programs that use InputFields objects (no code of /repo): variables are numbers *)
Inductive op :=
| Make (v : Z)               (* InputFields v; *)
| Copy (v w : Z)             (* InputFields v(w);  the implicit copy constructor: input-fields.h declares none *)
| Assign (v w : Z)           (* v = w;  the implicit assignment *)
| Parse (v : Z) (doc : yaml) (* try { InputParser().parse(file, &v); } catch (...) {} *)
| Read (v : Z) (s : sec) (f : fld) (* v.m_grid->nx and the like *)
| Destroy (v : Z).           (* the end of the life of v *)
(** what the program sees *)
Inductive seen := Saw (x : value T) | Parsed | Failed.
Record world := mkWorld { w_heap : heap; w_vars : list (Z * handle) }.
Definition var (w : world) (v : Z) : outcome handle :=
  match find (fun e => fst e =? v) (w_vars w) with Some (_, o) => Ok o | None => UB Dangling end.
Definition set_var (w : world) (v : Z) (o : handle) : world := mkWorld (w_heap w) ((v, o) :: filter (fun e => negb (fst e =? v)) (w_vars w)).
(** one statement.  Making a variable that exists is not C++; it is reported as Dangling too. *)
Definition exec (w : world) (a : op) : outcome (world * list seen) :=
  match a with
  | Make v => match var w v with
      | Ok _ => UB Dangling
      | _ => match construct secs (w_heap w) (fun _ => 0) with (h, o) => Ok (set_var (mkWorld h (w_vars w)) v o, []) end
      end
  | Copy v v' => match var w v with Ok _ => UB Dangling | _ => o <- var w v' ;; Ok (set_var w v o, []) end
  | Assign v v' => do_ var w v ;; o <- var w v' ;; Ok (set_var w v o, [])
  | Parse v doc => o <- var w v ;;
      match parse_secs secs doc o (w_heap w) with
      | (h, Ok _) => Ok (mkWorld h (w_vars w), [Parsed])
      | (h, Throw) => Ok (mkWorld h (w_vars w), [Failed])
      | (_, UB e) => UB e | (_, Exit n) => Exit n
      end
  | Read v s f => o <- var w v ;; c <- load (w_heap w) (o s) ;; match c f with Some x => Ok (w, [Saw x]) | None => UB Uninitialised end
  | Destroy v => o <- var w v ;; h <- destroy secs o (w_heap w) ;; Ok (mkWorld h (filter (fun e => negb (fst e =? v)) (w_vars w)), [])
  end.
Fixpoint program (w : world) (l : list op) : outcome (world * list seen) :=
  match l with
  | [] => Ok (w, [])
  | a :: l' => r <- exec w a ;; r' <- program (fst r) l' ;; Ok (fst r', snd r ++ snd r')%list
  end.
Definition world0 : world := mkWorld (mkHeap 1 []) [].
End Owner.
Arguments op : clear implicits.
