(** Vocabulary for file names: components separated by slashes. *)
From Coq Require Import List String Ascii Bool.
From Verif Require Import SpecFiles.
Import ListNotations.

(** a component of a file name: not empty, no slash *)
Definition component (c : string) : Prop := c <> EmptyString /\ forall x y, c <> (x ++ String "/"%char y)%string.
(** the name with these components *)
Definition joined (l : list string) : string := String.concat "/" l.
(** the calls that take a file name *)
Definition names_file (o : string -> fop) : Prop :=
  o = Exists \/ o = Remove \/ o = MkDir \/ exists text, o = fun name => Write name text.
