(** Model of the output files of the reference programs (fileprint of src/reference/Allocation.h,
    details.txt) and of the script that reads them, src/reference/Readfiles.m.

    Simplification: opening, writing and closing the files succeeds. *)
From Coq Require Import ZArith List String Ascii Reals.
From Verif Require Import Base Num NumB64 ModelVec ModelRefMath ModelRefMem ModelRef.
Open Scope Z_scope.

Definition text := list ascii.
Definition chr (n : nat) : ascii := ascii_of_nat n.
Definition comma : ascii := ",".
Definition nl : ascii := chr 10.
Definition dot : ascii := ".".
Definition minus : ascii := "-".

(** *** one number (no code of /repo: std::ostream) *)
Definition digit (d : Z) : ascii := chr (48 + Z.to_nat d).
Fixpoint digits_from (fuel : nat) (n : Z) (acc : text) : text :=
  match fuel with
  | O => acc
  | S fuel' => let acc := digit (n mod 10) :: acc in if n / 10 =? 0 then acc else digits_from fuel' (n / 10) acc
  end.
(** a nonnegative integer in decimal *)
Definition decimal (n : Z) : text := digits_from (S (Z.to_nat (Z.log2 n))) n [].
(** the last k decimal digits *)
Fixpoint last_digits (k : nat) (n : Z) (acc : text) : text :=
  match k with O => acc | S k' => last_digits k' (n / 10) (digit (n mod 10) :: acc) end.
(** nearest integer, ties to the even one *)
Definition round_even (x : R) : Z :=
  let f := Rfloor x in let r := (x - IZR f)%R in
  if Rltb r (1 / 2)%R then f else if Rltb (1 / 2)%R r then f + 1 else if Z.even f then f else f + 1.
Definition ten10 : Z := 10000000000.
(** operator<< after std::fixed and std::setprecision(10): the value rounded to ten decimals.
    Simplification: no infinities, NaNs and negative zeros. *)
Definition fixed10 (x : R) : text :=
  let n := round_even (Rabs x * IZR ten10)%R in
  (if Rltb x 0%R then [minus] else []) ++ decimal (n / ten10) ++ [dot] ++ last_digits 10 (n mod ten10) [].

(** *** fileprint *)
Definition rd_out {T} (m : mem T) (l : loc) : outcome T :=
  match m l with Some (D v) => Ok v | Some _ => UB Uninitialised | None => UB OutOfBounds end.
(** Allocation.h:71-90, one row of one file: the first value, then a comma before every other *)
Definition print_row {T} (fmt : T -> text) (get : Z -> outcome T) (nx : Z) : outcome text :=
  v <- get 0 ;;
  forM (range 1 nx) (fun acc j => v <- get j ;; Ok (acc ++ [comma] ++ fmt v)) (fmt v).
(** Allocation.h:71-98, one file: a line for every row and an empty line *)
Definition print_block {T} (fmt : T -> text) (get : Z -> Z -> outcome T) (nx ny : Z) : outcome text :=
  t <- forM (range 0 ny) (fun acc i => r <- print_row fmt (get i) nx ;; Ok (acc ++ r ++ [nl])) [] ;;
  Ok (t ++ [nl]).
(** the six files, Allocation.h:64-69 *)
Inductive file := FPhi | FPsix | FPsiy | FPsixy | FVelx | FVely.
Definition file_eqb (f g : file) : bool :=
  match f, g with FPhi, FPhi | FPsix, FPsix | FPsiy, FPsiy | FPsixy, FPsixy | FVelx, FVelx | FVely, FVely => true | _, _ => false end.
(** what is printed to a file at node (i,j); the velocities are computed by
    allocate_levelset_velocity, Allocation.h:29-42 *)
Definition printed_value {T} {NT : Num T} (F : flow T) (Tp time : T) (m : mem T) (f : file) (i j : Z) : outcome T :=
  match f with
  | FPhi => rd_out m (MPhi, i, j) | FPsix => rd_out m (MPsix, i, j)
  | FPsiy => rd_out m (MPsiy, i, j) | FPsixy => rd_out m (MPsixy, i, j)
  | FVelx => x <- rd_out m (AX1, j, 0) ;; y <- rd_out m (AY1, i, 0) ;; Ok (Velx F x y time Tp)
  | FVely => x <- rd_out m (AX1, j, 0) ;; y <- rd_out m (AY1, i, 0) ;; Ok (Vely F x y time Tp)
  end.
(** the contents of the files *)
Definition files := file -> text.
(** Allocation.h:56-99; files are opened for appending.  Simplification: the six files are written
    one after the other, not row by row. *)
Definition fileprint {T} {NT : Num T} (fmt : T -> text) (F : flow T) (nx ny : Z) (Tp time : T) (m : mem T) (fs : files) : outcome files :=
  forM [FPhi; FPsix; FPsiy; FPsixy; FVelx; FVely]
    (fun fs f => b <- print_block fmt (printed_value F Tp time m f) nx ny ;; Ok (fun g => if file_eqb f g then fs g ++ b else fs g)) fs.

(** SerialCode/GALS_Advection.cpp:81-93: earlier files are removed, the first block is printed, the
    parameters go to details.txt; then main_ prints the others.  The programs differ only in the
    order of details.txt and the first block. *)
Definition no_files : files := fun _ => [].
Definition details {T} {NT : Num T} (fmt : T -> text) (s : settings T) (n : Z) : text :=
  decimal (s_nx s) ++ [comma] ++ decimal (s_ny s) ++ [comma] ++ fmt (s_dx s) ++ [comma] ++ fmt (s_dy s) ++ [comma] ++
  fmt (s_xlim1 s) ++ [comma] ++ fmt (s_xlim2 s) ++ [comma] ++ fmt (s_ylim1 s) ++ [comma] ++ fmt (s_ylim2 s) ++ [comma] ++
  decimal n ++ [comma] ++ fmt (s_dt s) ++ [comma] ++ decimal (print_every s n).
Definition run_files {T} {NT : Num T} {TG : Trig T} (fmt : T -> text) (whole : bool) (F : flow T) (s : settings T) : outcome (text * files) :=
  n <- step_count s ;;
  r <- main_ whole F s ;;
  fs <- forM (snd r) (fun fs b => fileprint fmt F (s_nx s) (s_ny s) (s_Tp s) (fst b) (snd b) fs) no_files ;;
  Ok (details fmt s n, fs).

(** *** Readfiles.m *)
(** the pieces between the separators *)
Fixpoint split (sep : ascii -> bool) (l acc : text) : list text :=
  match l with
  | [] => [rev acc]
  | c :: l' => if sep c then rev acc :: split sep l' [] else split sep l' (c :: acc)
  end.
Definition is_digit (c : ascii) : bool := (Nat.leb 48 (nat_of_ascii c) && Nat.leb (nat_of_ascii c) 57)%bool.
Definition value_of (l : text) : Z := fold_left (fun a c => 10 * a + (Z.of_nat (nat_of_ascii c) - 48)) l 0.
(** %d on a whole piece *)
Definition read_int (l : text) : option Z :=
  match l with [] => None | _ => if forallb is_digit l then Some (value_of l) else None end.
(** %f on a whole piece: digits, optionally a point and digits, optionally a sign before *)
Definition read_unsigned (l : text) : option R :=
  match split (Ascii.eqb dot) l [] with
  | [a] => match read_int a with Some z => Some (IZR z) | None => None end
  | [a; b] => match read_int a, read_int b with Some z, Some y => Some (IZR z + IZR y / 10 ^ List.length b)%R | _, _ => None end
  | _ => None
  end.
Definition read_number (l : text) : option R :=
  match l with
  | c :: l' => if Ascii.eqb c minus then match read_unsigned l' with Some r => Some (- r)%R | None => None end else read_unsigned l
  | [] => None
  end.
(** Readfiles.m:12-22: nx, ny, n and printstep; %d gives an int32, which saturates *)
Definition int32 (z : Z) : Z := Z.max (-2147483648) (Z.min 2147483647 z).
Definition rf_details (t : text) : option (Z * Z * Z * Z) :=
  match split (Ascii.eqb comma) t [] with
  | [a; b; _; _; _; _; _; _; c; _; d] =>
      match read_int a, read_int b, read_int c, read_int d with
      | Some nx, Some ny, Some n, Some p => Some (int32 nx, int32 ny, int32 n, int32 p)
      | _, _, _, _ => None
      end
  | _ => None
  end.
(** Readfiles.m:28: n/printstep + 1; the quotient of two int32 is rounded to the nearest, ties away
    from zero; x/0 is the largest int32, 0/0 is 0 *)
Definition rf_count (n p : Z) : Z :=
  int32 ((if p =? 0 then if n =? 0 then 0 else 2147483647 else (2 * n + p) / (2 * p)) + 1).
(** Readfiles.m:53-65: textscan(f, '%f', nx, 'Delimiter', ',') takes the next nx numbers; line ends
    are white space.  Fewer numbers do not fit the row: the script stops with an error. *)
Fixpoint rf_row (k : nat) (l : list text) : option (list R * list text) :=
  match k with
  | O => Some ([], l)
  | S k' =>
      match l with
      | [] => None
      | w :: l' => match read_number w, rf_row k' l' with Some v, Some (vs, l'') => Some (v :: vs, l'') | _, _ => None end
      end
  end.
Fixpoint rf_times {A} (k : nat) (f : list text -> option (A * list text)) (l : list text) : option (list A * list text) :=
  match k with
  | O => Some ([], l)
  | S k' => match f l with
      | Some (a, l') => match rf_times k' f l' with Some (r, l'') => Some (a :: r, l'') | None => None end
      | None => None
      end
  end.
Definition words_of (t : text) : list text := filter (fun w => negb (Nat.eqb (List.length w) 0)) (split (fun c => (Ascii.eqb comma c || Ascii.eqb nl c)%bool) t []).
(** the array of one of the six files: blocks of rows of numbers *)
Definition rf_load (d t : text) : option (list (list (list R))) :=
  match rf_details d with
  | Some (nx, ny, n, p) => match rf_times (Z.to_nat (rf_count n p)) (rf_times (Z.to_nat ny) (rf_row (Z.to_nat nx))) (words_of t) with
      | Some (r, _) => Some r | None => None end
  | None => None
  end.
