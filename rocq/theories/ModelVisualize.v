(** Model of the plotting script tools/octave/Visualize.m, run on the files written by operator<< of
    an array (ModelOutput).

    Octave functions (textscan, reshape, surfc, quiver) are modelled by what their manual says.
    The reading of one number is a parameter. *)
From Coq Require Import ZArith List String Ascii.
From Verif Require Import Base Num ModelVec.
Open Scope Z_scope.

Section Visualize.
Context {T : Type} (parse : string -> option T).

(** the pieces of a text between the separators (no code of /repo) *)
Fixpoint pieces (sep : ascii) (s : string) : list string :=
  match s with
  | EmptyString => [EmptyString]
  | String c s' => if Ascii.eqb c sep then EmptyString :: pieces sep s'
      else match pieces sep s' with [] => [String c EmptyString] | p :: r => String c p :: r end
  end.
Fixpoint all_numbers (l : list string) : option (list T) :=
  match l with
  | [] => Some []
  | w :: l' => match parse w, all_numbers l' with Some v, Some vs => Some (v :: vs) | _, _ => None end
  end.
(** Visualize.m:29, :48: textscan with k times %f.  The result has a row for every line of the file.
    Simplification: a file whose lines do not have k numbers each is refused (textscan would stop at
    the first such line and return what it has). *)
Fixpoint scan_lines (k : nat) (l : list string) : option (list (list T)) :=
  match l with
  | [] => Some []
  | [EmptyString] => Some []
  | w :: l' => match all_numbers (pieces (ascii_of_nat 9) w), scan_lines k l' with
      | Some vs, Some r => if Nat.eqb (List.length vs) k then Some (vs :: r) else None
      | _, _ => None
      end
  end.
Definition textscan (k : nat) (text : string) : option (list (list T)) := scan_lines k (pieces (ascii_of_nat 10) text).
(** ts{m}; m counts from 1 *)
Definition column (m : nat) (ts : list (list T)) : list (option T) := map (fun r => nth_error r (m - 1)) ts.

(** A matrix: its size and its entries; rows and columns count from 0. *)
Record matrix (A : Type) := mkMatrix { m_rows : Z; m_cols : Z; entry : Z -> Z -> option A }.
(** reshape(l, nx, ny): column after column; an error unless there are nx*ny entries *)
Definition reshape {A} (l : list A) (nx ny : Z) : option (matrix A) :=
  if Z.of_nat (List.length l) =? nx * ny
  then Some (mkMatrix A nx ny (fun r c => if ((0 <=? r) && (r <? nx) && (0 <=? c) && (c <? ny))%bool then nth_error l (Z.to_nat (c * nx + r)) else None))
  else None.

(** What is drawn.  surfc(x, y, a) puts a vertex at (x(r,c), y(r,c), a(r,c)) and joins entries that are
    next to each other in a row or in a column.  quiver(x, y, u, v) draws an arrow (u,v) at (x,y). *)
Inductive drawing :=
| Surface (x y a : matrix (option T))
| Arrows (l : list (option T * option T * option T * option T))
| Nothing.

(** Visualize.m:26-43; None: the script stops with an error *)
Definition ShowScalar (text : string) (dim nx ny : Z) : option drawing :=
  match textscan 4 text with
  | None => None
  | Some ts =>
      match reshape (column 1 ts) nx ny, reshape (column 2 ts) nx ny, reshape (column 4 ts) nx ny with
      | Some x, Some y, Some a => Some (if dim =? 2 then Surface x y a else Nothing)
      | _, _, _ => None
      end
  end.
(** Visualize.m:45-65 *)
Definition ShowVector (text : string) (dim : Z) : option drawing :=
  match textscan 6 text with
  | None => None
  | Some ts => Some (if dim =? 2
      then Arrows (combine (combine (combine (column 1 ts) (column 2 ts)) (column 4 ts)) (column 5 ts)) else Nothing)
  end.
(** Visualize.m:10-24: the files phi and velocity of the directory, None if there is no such file; the
    drawings in their order, or None for an error.  nz is not used. *)
Definition Visualize (phi velocity : option string) (dim nx ny nz : Z) : option (list (drawing)) :=
  let show (f : option string) (g : string -> option drawing) := match f with None => Some [] | Some text => option_map (fun d => [d]) (g text) end in
  match show phi (fun text => ShowScalar text dim nx ny) with
  | None => None
  | Some a => option_map (app a) (show velocity (fun text => ShowVector text dim))
  end.
End Visualize.
Arguments mkMatrix {A}.
Arguments m_rows {A}.
Arguments m_cols {A}.
Arguments entry {A}.
Arguments drawing T : clear implicits.
