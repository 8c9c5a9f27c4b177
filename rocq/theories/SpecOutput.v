(** Vocabulary for printed output: cutting a text at a separator character. *)
From Coq Require Import List String Ascii.
Import ListNotations.
Open Scope string_scope.

(** the pieces between the separators; "a|b|" has the pieces a, b and the empty one *)
Fixpoint split_at (sep : ascii) (s : string) : list string :=
  match s with
  | EmptyString => [EmptyString]
  | String c s' =>
      if Ascii.eqb c sep then EmptyString :: split_at sep s'
      else match split_at sep s' with
           | [] => [String c EmptyString]
           | p :: r => String c p :: r
           end
  end.
Fixpoint occurs (sep : ascii) (s : string) : bool :=
  match s with EmptyString => false | String c s' => (Ascii.eqb c sep || occurs sep s')%bool end.

Definition TAB : ascii := ascii_of_nat 9.
Definition NL : ascii := ascii_of_nat 10.
(** lines of a text whose last line is terminated *)
Definition lines_of (s : string) (ls : list string) : Prop := split_at NL s = (ls ++ [EmptyString])%list.
Definition columns (s : string) : list string := split_at TAB s.
