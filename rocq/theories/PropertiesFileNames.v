(** Property C49, file names: which names denote the same file. *)
From Coq Require Import List String.
From Verif Require Import Base ModelFiles SpecFiles SpecFileNames ProofsFileNames.
Import ListNotations.
Open Scope string_scope.

(** *** C49 *)
(** a repeated slash changes neither the answer nor the effect of a call *)
Theorem C49_repeated_slash : forall o a b u s, names_file o -> call (o (a ++ "//" ++ b)) u s = call (o (a ++ "/" ++ b)) u s.
Proof. exact call_double. Qed.
Print Assumptions C49_repeated_slash.
(** a name denotes the path of its components, relative or from the root *)
Theorem C49_name : forall l, Forall component l -> path_of (joined l) = l /\ path_of ("/" ++ joined l) = "/" :: l.
Proof. exact path_joined. Qed.
Print Assumptions C49_name.
Example C49_name_example : Forall component ["out"; "run"] /\ joined ["out"; "run"] = "out/run" /\ names_file MkDir /\
  call (MkDir ("out" ++ "//" ++ "run")) fu_new [] = (true, fu_new, [(["out"; "run"], FDir); (["out"], FDir)]).
Proof. exact (conj component_case (conj eq_refl (conj (or_intror (or_intror (or_introl eq_refl))) eq_refl))). Qed.
