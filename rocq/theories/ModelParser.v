(** Model of src/cpu/input-parser.cc and the files in src/cpu/input-parser.

    YAML::LoadFile is outside the model: the parser starts from the document tree it
    returns.  The conversions of scalars to double and int are parameters. *)
From Coq Require Import ZArith List String.
From Verif Require Import Base Num ModelVec ModelAnalytic.
Open Scope Z_scope.
Open Scope string_scope.

Inductive yaml :=
| YNull
| YScalar (s : string)
| YSeq (l : list yaml)
| YMap (l : list (string * yaml)).

Fixpoint yfind (l : list (string * yaml)) (key : string) : option yaml :=
  match l with
  | [] => None
  | (k, v) :: l' => if String.eqb k key then Some v else yfind l' key
  end.

(** YAML::Node::operator[](key) of yaml-cpp.  [None] is an undefined node: subscripting it or
    converting it throws; subscripting a scalar throws. *)
Definition ysub (n : option yaml) (key : string) : outcome (option yaml) :=
  match n with
  | None => Throw
  | Some (YMap l) => Ok (yfind l key)
  | Some (YScalar _) => Throw
  | Some YNull | Some (YSeq _) => Ok None
  end.

(** Node::as<A>() for a scalar type *)
Definition yas {A} (conv : string -> option A) (n : option yaml) : outcome A :=
  match n with
  | Some (YScalar s) => match conv s with Some a => Ok a | None => Throw end
  | _ => Throw
  end.
(** Node::as<std::string>().  Which yaml-cpp is used is not recorded in /repo (ext/yaml-cpp is an
    empty submodule): converting a null node throws up to 0.6 and gives "null" from 0.7 on, so the
    result, [null_text], is a parameter. *)
Definition yas_string (null_text : option string) (n : option yaml) : outcome string :=
  match n with
  | Some (YScalar s) => Ok s
  | Some YNull => match null_text with Some s => Ok s | None => Throw end
  | _ => Throw
  end.
(** Node::as<std::vector<A>>() *)
Fixpoint yas_list {A} (conv : string -> option A) (l : list yaml) : outcome (list A) :=
  match l with
  | [] => Ok []
  | n :: l' => a <- yas conv (Some n) ;; r <- yas_list conv l' ;; Ok (a :: r)
  end.
Definition yas_vector {A} (conv : string -> option A) (n : option yaml) : outcome (list A) :=
  match n with Some (YSeq l) => yas_list conv l | _ => Throw end.

(** include/gals/input-fields/grid.h:38-41, time.h:38-41 *)
Record grid_inputs (T : Type) := mkGI { gi_min : vec3 T; gi_max : vec3 T; gi_n : vec3 Z }.
Arguments mkGI {T}. Arguments gi_min {T}. Arguments gi_max {T}. Arguments gi_n {T}.
Record time_inputs (T : Type) := mkTI { ti_start : T; ti_end : T; ti_dt : T; ti_constant_dt : string }.
Arguments mkTI {T}. Arguments ti_start {T}. Arguments ti_end {T}. Arguments ti_dt {T}. Arguments ti_constant_dt {T}.

(** include/gals/input-fields/input-fields.h:50-66.  [None]: the numbers of the section are
    indeterminate (the struct is default-initialised, input-fields.cc:34-41).  The strings and
    vectors of a fresh velocity or general section are empty. *)
Record input_fields (T : Type) := mkIF {
  if_general : string; if_grid : option (grid_inputs T); if_time : option (time_inputs T);
  if_vel : vel_inputs T; if_ls : option (ls_inputs T) }.
Arguments mkIF {T}. Arguments if_general {T}. Arguments if_grid {T}. Arguments if_time {T}.
Arguments if_vel {T}. Arguments if_ls {T}.

Section Parser.
Context {T : Type} (to_double : string -> option T) (to_int : string -> option Z) (null_text : option string).

(** input-fields.cc:34-41 *)
Definition fields0 : input_fields T := mkIF "" None None (mkVI "" [] [] "") None.

(** general.cc:39-45 *)
Definition parse_general (f : option yaml) : outcome string := n <- ysub f "output_directory" ;; yas_string null_text n.

(** grid.cc:41-57; each cells access converts the list again, then indexes it unchecked *)
Definition parse_grid (f : option yaml) : outcome (grid_inputs T) :=
  let bound key := b <- ysub f "box" ;; n <- ysub b key ;; yas to_double n in
  let count idx := c <- ysub f "cells" ;; l <- yas_vector to_int c ;; vread l idx in
  x0 <- bound "x_min" ;; x1 <- bound "x_max" ;; y0 <- bound "y_min" ;; y1 <- bound "y_max" ;;
  z0 <- bound "z_min" ;; z1 <- bound "z_max" ;;
  nx <- count 0 ;; ny <- count 1 ;; nz <- count 2 ;;
  Ok (mkGI (V3 x0 y0 z0) (V3 x1 y1 z1) (V3 nx ny nz)).

(** time.cc:39-48 *)
Definition parse_time (f : option yaml) : outcome (time_inputs T) :=
  s <- (n <- ysub f "start" ;; yas to_double n) ;;
  e <- (n <- ysub f "end" ;; yas to_double n) ;;
  d <- (n <- ysub f "dt" ;; yas to_double n) ;;
  c <- (n <- ysub f "constant_dt" ;; yas_string null_text n) ;;
  Ok (mkTI s e d c).

(** velocity.cc:41-49 *)
Definition parse_velocity (f : option yaml) : outcome (vel_inputs T) :=
  nm <- (n <- ysub f "name" ;; yas_string null_text n) ;;
  v <- (n <- ysub f "vector" ;; yas_vector to_double n) ;;
  c <- (n <- ysub f "center" ;; yas_vector to_double n) ;;
  s <- (g <- ysub f "gradient" ;; n <- ysub g "scheme" ;; yas_string null_text n) ;;
  Ok (mkVI nm v c s).

(** levelset.cc:41-49; [bt]: BUILD_TESTS defined *)
Definition parse_levelset (bt : bool) (f : option yaml) : outcome (ls_inputs T) :=
  nm <- (n <- ysub f "name" ;; yas_string null_text n) ;;
  c <- (n <- ysub f "center" ;; l <- yas_vector to_double n ;; vec3_of_vector bt l) ;;
  r <- (n <- ysub f "radius" ;; yas to_double n) ;;
  s <- (g <- ysub f "gradient" ;; n <- ysub g "scheme" ;; yas_string null_text n) ;;
  Ok (mkLSI nm c r s).

(** if (inputs[key]) SECTION()(inputs[key], ..): a section that is present is parsed *)
Definition section {A} (doc : option yaml) (key : string) (p : option yaml -> outcome A) : outcome (option A) :=
  n <- ysub doc key ;;
  match n with None => Ok None | Some y => a <- p (Some y) ;; Ok (Some a) end.
Definition keep {A} (r : option A) (old : A) : A := match r with Some a => a | None => old end.

(** input-parser.cc:45-58 after LoadFile.  This gives the fields of a parse that ends well; what an
    exception leaves behind is in ModelOwner (C136 shows that the two agree). *)
Definition parse (bt : bool) (doc : yaml) (fs : input_fields T) : outcome (input_fields T) :=
  ge <- section (Some doc) "general" parse_general ;;
  gr <- section (Some doc) "grid" parse_grid ;;
  ti <- section (Some doc) "time" parse_time ;;
  ve <- section (Some doc) "velocity" parse_velocity ;;
  ls <- section (Some doc) "levelset" (parse_levelset bt) ;;
  Ok (mkIF (keep ge (if_general fs)) (match gr with Some a => Some a | None => if_grid fs end)
        (match ti with Some a => Some a | None => if_time fs end) (keep ve (if_vel fs))
        (match ls with Some a => Some a | None => if_ls fs end)).
End Parser.
