(** Vocabulary for the shared output files of the MPI program. *)
From Coq Require Import List Ascii.
From Verif Require Import ModelRefPrint ModelRefMpiFiles.
Import ListNotations.

(** the elements of two lists, each in its order *)
Inductive interleaved {A} : list A -> list A -> list A -> Prop :=
| il_nil : interleaved [] [] []
| il_left x a b c : interleaved a b c -> interleaved (x :: a) b (x :: c)
| il_right x a b c : interleaved a b c -> interleaved a (x :: b) (x :: c).

(** Some process removed the file after another one had opened it. *)
Definition overtaken (f : name) (t : list (nat * op)) : Prop :=
  exists t1 t2 t3 a b, a <> b /\ t = t1 ++ (a, Open f) :: t2 ++ (b, Unlink f) :: t3.

(** The text a process gives to a file at the start, and what rank 0 adds later. *)
Definition first_text (d : text) (b : file -> text) (f : name) : text := match f with Details => d | Out g => b g end.
Definition later_text (bs : list (file -> text)) (f : name) : text :=
  match f with Details => [] | Out g => flat_map (fun b => b g) bs end.

(** t consists of two copies of u, each cut into pieces and the pieces mixed in some way *)
Definition two_copies (u t : text) : Prop :=
  exists cs cs' m, concat cs = u /\ concat cs' = u /\ interleaved cs cs' m /\ t = concat m.
