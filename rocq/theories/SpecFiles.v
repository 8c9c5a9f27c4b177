(** Vocabulary for file operations. *)
From Coq Require Import List String Bool.
From Verif Require Import ModelFiles.
Import ListNotations.

(** the calls a program can make on a FileUtils object *)
Inductive fop := SetRoot (r : string) | Exists (name : string) | Remove (name : string)
  | MkDir (name : string) | Write (name text : string).
(** one call: the answer (true where the call returns nothing), the object and the file system *)
Definition call (o : fop) (u : file_utils) (s : fs) : bool * file_utils * fs :=
  match o with
  | SetRoot r => (true, setRootDirectory u r, s)
  | Exists f => (fileExists u s f, u, s)
  | Remove f => let '(b, s') := removeFile u s f in (b, u, s')
  | MkDir d => let '(b, s') := createDirectory u s d in (b, u, s')
  | Write f t => (true, u, fu_write u s f t)
  end.
(** answers and final file system of a history *)
Fixpoint history (os : list fop) (u : file_utils) (s : fs) : list bool * fs :=
  match os with
  | [] => ([], s)
  | o :: os' => let '(b, u', s') := call o u s in let '(bs, s'') := history os' u' s' in (b :: bs, s'')
  end.

(** q lies on the way to p: a non-empty prefix of it *)
Definition on_the_way (q p : path) : Prop := q <> [] /\ exists r, p = (q ++ r)%list.
(** a file system as operating systems keep it: everything lies in a directory *)
Definition is_tree (s : fs) : Prop := forall p, p <> [] -> fs_get s p <> None -> fs_get s (removelast p) = Some FDir.
