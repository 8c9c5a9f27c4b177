(** Independent vocabulary for the output files of the reference programs. *)
From Coq Require Import ZArith List Ascii Reals.
From Verif Require Import Base Num NumB64 ModelVec ModelRefMath ModelRefMem ModelRef ModelRefPrint SpecRefRun.
Open Scope Z_scope.

(** at most half a unit of the tenth decimal apart *)
Definition near (v w : R) : Prop := (Rabs (v - w) <= / 2 * / 10 ^ 10)%R.
(** a decimal number with ten decimals: a sign or none, digits, a point, ten digits *)
Definition ten_decimals (w : text) : Prop := exists sg a b, w = sg ++ a ++ dot :: b /\ (sg = [] \/ sg = [minus]) /\ a <> [] /\
  List.length b = 10%nat /\ forallb is_digit (a ++ b) = true.
(** words with a separator between every two *)
Fixpoint join (sep : ascii) (l : list text) : text :=
  match l with [] => [] | [w] => w | w :: l' => w ++ sep :: join sep l' end.
(** a block of rows of words: a line for each row, an empty line at the end *)
Definition block_text (b : list (list text)) : text := flat_map (fun r => join comma r ++ [nl]) b ++ [nl].
(** what a file should show at node (i,j) after q steps *)
Definition file_value (whole : bool) (F : flow R) (s : settings R) (f : file) (q : nat) (i j : Z) : R :=
  let d := after whole F s (node_x s) (node_y s) q (initial (node_x s) (node_y s)) in let tm := (INR q * s_dt s)%R in
  match f with
  | FPhi => f_phi d i j | FPsix => f_x d i j | FPsiy => f_y d i j | FPsixy => f_xy d i j
  | FVelx => Velx F (node_x s j) (node_y s i) tm (s_Tp s) | FVely => Vely F (node_x s j) (node_y s i) tm (s_Tp s)
  end.
(** a table with ny rows of nx entries each, entry (i,j) being related to i and j by P *)
Definition table {A} (nx ny : Z) (P : Z -> Z -> A -> Prop) (b : list (list A)) : Prop :=
  Z.of_nat (List.length b) = ny /\ forall i r, nth_error b i = Some r -> Z.of_nat (List.length r) = nx /\
    forall j w, nth_error r j = Some w -> P (Z.of_nat i) (Z.of_nat j) w.
