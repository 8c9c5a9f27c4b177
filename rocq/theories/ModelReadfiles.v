(** Model of what src/reference/Readfiles.m plots and reports once it has read the files (ModelRefPrint has the reading):
    the axes, the time in the title of each plot, and the error and spacing it prints.  SerialCode has the same script. *)
From Coq Require Import ZArith List Ascii Reals.
From Verif Require Import Base Num ModelRefPrint.
Import ListNotations.
Open Scope Z_scope.

(** Readfiles.m:15-20: fields 5 to 8 and 10 of details.txt: xlim1, xlim2, ylim1, ylim2 and dt *)
Definition rf_reals (t : text) : option (R * R * R * R * R) :=
  match split (Ascii.eqb comma) t [] with
  | [_; _; _; _; a; b; c; d; _; e; _] =>
      match read_number a, read_number b, read_number c, read_number d, read_number e with
      | Some x1, Some x2, Some y1, Some y2, Some dt => Some (x1, x2, y1, y2, dt)
      | _, _, _, _, _ => None
      end
  | _ => None
  end.
(** linspace(a, b, n), n >= 2: n equally spaced numbers (Octave) *)
Definition linspace (a b : R) (n : Z) : list R := map (fun j => (a + IZR j * ((b - a) / IZR (n - 1)))%R) (range 0 n).
(** max(max(abs(abs(a) - abs(b)))); the entries are not negative *)
Definition row_max (a b : list R) : R := fold_right (fun p m => Rmax (Rabs (Rabs (fst p) - Rabs (snd p))) m) 0%R (combine a b).
Definition table_max (a b : list (list R)) : R := fold_right (fun p m => Rmax (row_max (fst p) (snd p)) m) 0%R (combine a b).
(** what the user sees: the axes of the plots, the time in the title of each of them, [e] and [edx] *)
Record shown := mkShown { sh_x : list R; sh_y : list R; sh_times : list R; sh_e : R; sh_edx : R }.
(** Readfiles.m:23-28 (x(2) and y(2) do not exist on an axis with one node), :89 (the loop variable counts from 1), :107-108.
    None: the script stops with an error. *)
Definition rf_show (d phi : text) : option shown :=
  match rf_details d, rf_reals d, rf_load d phi with
  | Some (nx, ny, n, p), Some (x1, x2, y1, y2, dt), Some blocks =>
      if ((nx <? 2) || (ny <? 2))%bool then None else
      match blocks with
      | [] => None
      | first :: _ =>
          Some (mkShown (linspace x1 x2 nx) (linspace y1 y2 ny)
            (map (fun i => IZR (i - 1) * dt * IZR p)%R (range 1 (rf_count n p + 1)))
            (table_max (last blocks first) first)
            ((x1 + 1 * ((x2 - x1) / IZR (nx - 1))) - (x1 + 0 * ((x2 - x1) / IZR (nx - 1))))%R)
      end
  | _, _, _ => None
  end.
