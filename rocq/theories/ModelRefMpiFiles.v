(** Model of the output files of src/reference/GALS_Advection_MPI.cpp: every process removes and
    writes the same seven files in the same directory.

    File operations follow POSIX: remove unlinks a name, a process that holds the file open goes on
    writing to the unlinked file; a file opened for appending is created if the name does not exist,
    and every write goes to the end of the file at that moment. *)
From Coq Require Import ZArith List String Ascii.
From Verif Require Import Base ModelRefPrint.
Import ListNotations.

(** *** the directory (no code of /repo) *)
Inductive name := Details | Out (f : file).
Definition name_eqb (a b : name) : bool :=
  match a, b with Details, Details => true | Out f, Out g => file_eqb f g | _, _ => false end.
(** [Await]: rank 0 waits for the first message of rank 1 *)
Inductive op := Unlink (f : name) | Open (f : name) | Write (f : name) (t : text) | Close (f : name) | Await.
(** All files that ever had a given name, and the one that has it now.
    Simplification: files are numbered separately for each name. *)
Record inodes := mkInodes { entry : option nat; stored : list text }.
(** for each name the file a process has open *)
Definition handle := name -> option nat.
Definition on_name {A} (f : name) (v : A) (m : name -> A) : name -> A := fun g => if name_eqb f g then v else m g.
Fixpoint append_at (k : nat) (t : text) (l : list text) : list text :=
  match l, k with
  | [], _ => []
  | u :: l', O => (u ++ t) :: l'
  | u :: l', S k' => u :: append_at k' t l'
  end.
Definition do_op (o : op) (d : name -> inodes) (h : handle) : (name -> inodes) * handle :=
  match o with
  | Unlink f => (on_name f (mkInodes None (stored (d f))) d, h)
  | Open f =>
      match entry (d f) with
      | Some k => (d, on_name f (Some k) h)
      | None => let k := List.length (stored (d f)) in
          (on_name f (mkInodes (Some k) (stored (d f) ++ [[]])) d, on_name f (Some k) h)
      end
  | Write f t => match h f with
      | Some k => (on_name f (mkInodes (entry (d f)) (append_at k t (stored (d f)))) d, h)
      | None => (d, h)
      end
  | Close f => (d, on_name f None h)
  | Await => (d, h)
  end.

(** *** the processes *)
Record rank := mkRank { todo : list op; handles : handle }.
Record world := mkWorld { dir : name -> inodes; ranks : list rank }.
Fixpoint set_rank (r : nat) (k : rank) (l : list rank) : list rank :=
  match l, r with [], _ => [] | _ :: l', O => k :: l' | x :: l', S r' => x :: set_rank r' k l' end.
(** Rank 1 sends its first message after its last file operation, GALS_Advection_MPI.cpp:80-110 and :238 *)
Definition told (w : world) : Prop := exists k, nth_error (ranks w) 1 = Some k /\ todo k = [].
(** one operation of one process *)
Inductive acts : world -> nat * op -> world -> Prop :=
| act w r o p h : nth_error (ranks w) r = Some (mkRank (o :: p) h) -> (o = Await -> told w) ->
    acts w (r, o) (mkWorld (fst (do_op o (dir w) h)) (set_rank r (mkRank p (snd (do_op o (dir w) h))) (ranks w))).
Inductive history : world -> list (nat * op) -> world -> Prop :=
| hi_nil w : history w [] w
| hi_cons w e w' t w'' : acts w e w' -> history w' t w'' -> history w (e :: t) w''.
Definition completed (w : world) : Prop := Forall (fun k => todo k = []) (ranks w).
(** what one finds in the directory *)
Definition contents (w : world) (f : name) : option text :=
  match entry (dir w f) with Some k => nth_error (stored (dir w f)) k | None => None end.

(** *** GALS_Advection_MPI.cpp; GALS_Advection_MPI_OpenMP.cpp:94-117, :153, :220 does the same *)
Definition six : list name := map Out [FPhi; FPsix; FPsiy; FPsixy; FVelx; FVely].
(** :81-87; [hybrid]: GALS_Advection_MPI_OpenMP.cpp:94-95 removes them in another order *)
Definition removes (hybrid : bool) : list op :=
  map Unlink (if hybrid then [Out FPhi; Out FPsix; Out FPsiy; Out FPsixy; Out FVelx; Out FVely; Details]
              else [Out FPhi; Out FPsix; Out FPsiy; Out FPsixy; Details; Out FVelx; Out FVely]).
(** Writes to the files ns that together put text t f to each file f.  A stream hands its text to the
    system in pieces of its own choice, at its own times, at the latest when it is closed. *)
Definition piece (f : name) (o : op) : text := match o with Write g t => if name_eqb g f then t else [] | _ => [] end.
Definition puts (ns : list name) (t : name -> text) (ws : list op) : Prop :=
  Forall (fun o => exists f c, o = Write f c /\ In f ns) ws /\ forall f, In f ns -> flat_map (piece f) ws = t f.
(** fileprint, Allocation.h:62-97, with the text b of each file.
    Simplification: the six closes (:97) come after all writes; in the program each stream passes on its
    last piece when it is closed itself.  A close changes nothing but the process's own handle of that file. *)
Definition prints (b : file -> text) (p : list op) : Prop :=
  exists ws, puts six (fun f => match f with Out g => b g | Details => [] end) ws /\ p = map Open six ++ ws ++ map Close six.
(** :81-110, all processes: d goes to details.txt *)
Definition first_part (hybrid : bool) (d : text) (b : file -> text) (p : list op) : Prop :=
  exists pb wd, prints b pb /\ puts [Details] (fun _ => d) wd /\
    p = removes hybrid ++ pb ++ [Open Details] ++ wd ++ [Close Details].
(** :206-207, rank 0 *)
Inductive later_part : list (file -> text) -> list op -> Prop :=
| lp_nil : later_part [] []
| lp_cons b bs p q : prints b p -> later_part bs q -> later_part (b :: bs) (p ++ q).
(** The file operations of a process.  [steps]: there is at least one time step; then rank 0 receives
    from rank 1 (:149) before its first later block.  Only rank 0 prints later blocks. *)
Definition program (hybrid steps : bool) (d : text) (b : file -> text) (later : list (file -> text)) (r : nat) (p : list op) : Prop :=
  exists p1, first_part hybrid d b p1 /\
    if (Nat.eqb r 0 && steps)%bool then exists p2, later_part later p2 /\ p = p1 ++ Await :: p2 else p = p1.
(** the start of a run in a directory that may hold files of earlier runs *)
Definition launched (hybrid : bool) (procs : nat) (steps : bool) (d : text) (b : file -> text) (later : list (file -> text)) (w : world) : Prop :=
  List.length (ranks w) = procs /\
  (forall f k, entry (dir w f) = Some k -> (k < List.length (stored (dir w f)))%nat) /\
  forall r k, nth_error (ranks w) r = Some k -> program hybrid steps d b later r (todo k) /\ handles k = fun _ => None.
