(** Model of the output operators: array.h, vec3.h, mat3.h, vec_n.h.

    The formatting of one number by std::ostream is a parameter; ModelShow gives it for doubles. *)
From Coq Require Import ZArith List String Ascii.
From Verif Require Import Base Num ModelVec ModelGrid ModelArray.
Open Scope Z_scope.

Definition tab : string := String (ascii_of_nat 9) EmptyString.
Definition newline : string := String (ascii_of_nat 10) EmptyString.

Section Output.
Context {T : Type} {NT : Num T} (fmt : T -> string).

(** vec3.h:168-173 *)
Definition show_vec3 (v : vec3 T) : string :=
  (fmt (vx v) ++ tab ++ fmt (vy v) ++ tab ++ fmt (vz v))%string.
(** mat3.h:161-166: every one of the nine entries is followed by a tab *)
Definition show_mat3 (m : mat3 T) : string :=
  fold_left (fun out x => (out ++ fmt x ++ tab)%string)
    [vx (row0 m); vy (row0 m); vz (row0 m); vx (row1 m); vy (row1 m); vz (row1 m); vx (row2 m); vy (row2 m); vz (row2 m)]
    EmptyString.
(** vec_n.h:88-93 *)
Definition show_vecN (l : list T) : string := fold_left (fun out x => (out ++ fmt x ++ tab)%string) l EmptyString.

(** array.h:155-165; [show] prints one element *)
Definition print_body {A} ov (g : grid T) (show : A -> string) (a : array A) (out : string) (c : Z * Z * Z) : outcome string :=
  match c with (i, j, k) =>
    p <- node ov g i j k ;;
    x <- aget ov g a i j k ;;
    Ok (out ++ show_vec3 p ++ tab ++ show x ++ newline)%string
  end.
Definition print_array {A} ov (g : grid T) (show : A -> string) (a : array A) : outcome string :=
  forM (interior (array_cells a)) (print_body ov g show a) EmptyString.
End Output.
