(** Specification for C112: an ending of the two-process program as one of the program with any number of processes. *)
From Coq Require Import List.
From Verif Require Import Base ModelRefOmp ModelRefHybN.
Import ListNotations.

Definition as_world {S M} (r : pending S M) : pwending S M :=
  match r with PFinished a b l => PWFinished a b l [] | PUndefined e => PWUndefined e | PDeadlock => PWDeadlock end.
