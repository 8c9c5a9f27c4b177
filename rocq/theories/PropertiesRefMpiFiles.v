(** Properties of the output files of the MPI program. *)
From Coq Require Import List Ascii.
From Verif Require Import ModelRefPrint ModelRefMpiFiles SpecRefMpiFiles ProofsRefMpiFilesTwo ProofsRefMpiFilesRun.
Import ListNotations.

(** C111, two processes; hybrid chooses the MPI+OpenMP program: d is the text of details.txt, b the first block of each of the other six
    files, later the blocks rank 0 prints afterwards; w is any start, the directory may hold old files.
    In every run every file ends with the later blocks of rank 0, each once.  Before them it holds the
    first text once if one process removed the file after the other had opened it, and two mixed
    copies of it otherwise. *)
Theorem C111_two_processes_partial : forall hybrid steps d b later w t w' f,
  launched hybrid 2 steps d b later w -> (steps = false -> later = []) -> history w t w' -> completed w' ->
  exists X, contents w' f = Some (X ++ later_text later f) /\
    (overtaken f t /\ X = first_text d b f \/ ~ overtaken f t /\ two_copies (first_text d b f) X).
Proof. exact pair_files. Qed.
Print Assumptions C111_two_processes_partial.
(** There is always a run whose files are right, *)
Theorem C111_right_possible : forall hybrid steps d b later w,
  launched hybrid 2 steps d b later w -> (steps = false -> later = []) ->
  exists t w', history w t w' /\ completed w' /\ forall f, contents w' f = Some (first_text d b f ++ later_text later f).
Proof. exact run_single. Qed.
Print Assumptions C111_right_possible.
(** and always one in which every file has its first text twice; *)
Theorem C111_doubled_refuted : forall hybrid steps d b later w,
  launched hybrid 2 steps d b later w -> (steps = false -> later = []) ->
  exists t w', history w t w' /\ completed w' /\
    forall f, exists X, contents w' f = Some (X ++ later_text later f) /\ two_copies (first_text d b f) X.
Proof. exact run_doubled. Qed.
Print Assumptions C111_doubled_refuted.
(** the plotting script stops at such a details.txt. *)
Theorem C111_doubled_unreadable : forall d t x, rf_details d <> None -> two_copies d t -> rf_load t x = None.
Proof. exact doubled_unreadable. Qed.
Print Assumptions C111_doubled_unreadable.
(** With more than two processes there is always a run in which everything but one first block is lost. *)
Theorem C111_lost_refuted : forall hybrid procs steps d b later w,
  launched hybrid procs steps d b later w -> 3 <= procs ->
  exists t w', history w t w' /\ completed w' /\ forall f, contents w' f = Some (first_text d b f).
Proof. exact run_lost. Qed.
Print Assumptions C111_lost_refuted.
(** In every run with any number of processes every file holds at least one first text. *)
Theorem C111_some_block : forall hybrid procs steps d b later w t w' f,
  launched hybrid procs steps d b later w -> 1 <= procs -> history w t w' -> completed w' ->
  exists cs others m, concat cs = first_text d b f /\ interleaved cs others m /\ contents w' f = Some (concat m).
Proof. exact some_block. Qed.
Print Assumptions C111_some_block.
Example C111_case : forall hybrid procs steps d b later dir0,
  (forall f k, entry (dir0 f) = Some k -> k < length (stored (dir0 f))) ->
  exists w, launched hybrid procs steps d b later w /\ dir w = dir0.
Proof. exact launch_exists. Qed.
