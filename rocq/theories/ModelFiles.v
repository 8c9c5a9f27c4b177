(** Model of src/cpu/file-utils.cc.

    The library ext/filesystem is not part of /repo.  Its path class and the operating system
    are represented by the operations [fs_...] below: this part is an assumption about the
    environment.  removeDirectory is not modelled (the behaviour of remove_directories is not
    known from /repo). *)
From Coq Require Import ZArith List String Ascii Bool.
From Verif Require Import Base.
Open Scope Z_scope.

(** ** File systems: entries by path; a path is the list of its components *)
Definition path := list string.
Inductive fnode := FFile (content : string) | FDir.
Definition fs := list (path * fnode).

Fixpoint path_eqb (p q : path) : bool :=
  match p, q with
  | [], [] => true
  | a :: p', b :: q' => String.eqb a b && path_eqb p' q'
  | _, _ => false
  end.
Fixpoint fs_find (s : fs) (p : path) : option fnode :=
  match s with [] => None | (q, n) :: s' => if path_eqb q p then Some n else fs_find s' p end.
(** the root of the name space is a directory *)
Definition fs_get (s : fs) (p : path) : option fnode :=
  match p with [] => Some FDir | _ => fs_find s p end.
Definition fs_put (s : fs) (p : path) (n : fnode) : fs := (p, n) :: filter (fun e => negb (path_eqb (fst e) p)) s.
Definition fs_del (s : fs) (p : path) : fs := filter (fun e => negb (path_eqb (fst e) p)) s.

(** splitting a file name at '/', dropping empty components; an absolute name starts with "/" *)
Fixpoint split_slash (s acc : string) : list string :=
  match s with
  | EmptyString => if String.eqb acc "" then [] else [acc]
  | String c s' =>
      if Ascii.eqb c "/"%char then (if String.eqb acc "" then split_slash s' "" else acc :: split_slash s' "")
      else split_slash s' (acc ++ String c EmptyString)
  end.
Definition path_of (name : string) : path :=
  match name with
  | String c _ => if Ascii.eqb c "/"%char then "/"%string :: split_slash name "" else split_slash name ""
  | EmptyString => []
  end.

Definition parent (p : path) : path := removelast p.
Definition has_child (s : fs) (p : path) : bool :=
  existsb (fun e => match fst e with [] => false | q => path_eqb (parent q) p end) s.

(** path::exists() *)
Definition fs_exists (s : fs) (p : path) : bool := match fs_get s p with Some _ => true | None => false end.
(** path::remove_file(), i.e. std::remove: a file, or a directory without entries *)
Definition fs_remove (s : fs) (p : path) : bool * fs :=
  match p with
  | [] => (false, s)
  | _ => match fs_get s p with
         | None => (false, s)
         | Some (FFile _) => (true, fs_del s p)
         | Some FDir => if has_child s p then (false, s) else (true, fs_del s p)
         end
  end.
(** create_directories: makes every missing directory on the way; fails at a file *)
Fixpoint fs_mkdirs (s : fs) (done todo : path) : bool * fs :=
  match todo with
  | [] => (true, s)
  | c :: rest =>
      let p := done ++ [c] in
      match fs_get s p with
      | Some FDir => fs_mkdirs s p rest
      | Some (FFile _) => (false, s)
      | None => fs_mkdirs (fs_put s p FDir) p rest
      end
  end.
(** std::ofstream(name) << text; close(): creates or truncates, silently nothing when the
    directory does not exist or the name is a directory *)
Definition fs_write (s : fs) (p : path) (text : string) : fs :=
  match p with
  | [] => s
  | _ => match fs_get s (parent p) with
         | Some FDir => match fs_get s p with Some FDir => s | _ => fs_put s p (FFile text) end
         | _ => s
         end
  end.

(** ** class FileUtils, file-utils.h:47-114: one string, m_root_dir *)
Record file_utils := mkFU { fu_root : string }.
(** file-utils.cc:43 constructor *)
Definition fu_new : file_utils := mkFU EmptyString.
(** file-utils.cc:47 *)
Definition setRootDirectory (u : file_utils) (r : string) : file_utils := mkFU r.
(** file-utils.cc:49 *)
Definition getRootDirectory (u : file_utils) : string := fu_root u.
(** file-utils.cc:51-56 *)
Definition fileExists (u : file_utils) (s : fs) (name : string) : bool := fs_exists s (path_of name).
(** file-utils.cc:58-63 *)
Definition removeFile (u : file_utils) (s : fs) (name : string) : bool * fs := fs_remove s (path_of name).
(** file-utils.cc:65-74 *)
Definition createDirectory (u : file_utils) (s : fs) (name : string) : bool * fs :=
  let p := path_of name in
  if negb (fs_exists s p) then fs_mkdirs s [] p else (true, s).
(** file-utils.cc:83-90; [text] is what operator<< prints for the field *)
Definition fu_write (u : file_utils) (s : fs) (name : string) (text : string) : fs := fs_write s (path_of name) text.
