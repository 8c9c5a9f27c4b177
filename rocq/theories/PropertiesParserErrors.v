(** Property C46, documents that are refused: a wrong input document ends in an exception. *)
From Coq Require Import ZArith List String.
From Verif Require Import Base Num ModelVec ModelAnalytic ModelParser SpecParser ProofsParserErrors.
Import ListNotations.
Open Scope string_scope.

(** *** C46 *)
(** whatever the document, parsing ends well or throws, unless the list of cells or the centre of the level set has fewer
    than three numbers *)
Theorem C46_errors : forall T (dbl : string -> option T) int nul doc fs,
  (exists new, parse dbl int nul true doc fs = Ok new) \/ parse dbl int nul true doc fs = Throw \/
  parse dbl int nul true doc fs = UB OutOfBounds /\
    ((exists vs, list_at int ["grid"; "cells"] doc vs /\ (List.length vs < 3)%nat) \/
     (exists vs, list_at dbl ["levelset"; "center"] doc vs /\ (List.length vs < 3)%nat)).
Proof. exact @parse_errors. Qed.
Print Assumptions C46_errors.
(** plain text is refused; an empty document and a list are accepted and say nothing *)
Theorem C46_not_a_mapping : forall T (dbl : string -> option T) int nul bt fs,
  (forall s, parse dbl int nul bt (YScalar s) fs = Throw) /\
  (forall l, parse dbl int nul bt (YSeq l) fs = Ok fs) /\ parse dbl int nul bt YNull fs = Ok fs.
Proof. exact @parse_not_a_map. Qed.
Print Assumptions C46_not_a_mapping.
(** so is plain text in the place of a section *)
Theorem C46_plain_section : forall T (dbl : string -> option T) int nul bt kvs fs key s,
  In key ["general"; "grid"; "time"; "velocity"; "levelset"] -> entry kvs key = Some (YScalar s) ->
  (forall k n, k <> key -> entry kvs k <> Some n) -> parse dbl int nul bt (YMap kvs) fs = Throw.
Proof. exact @parse_scalar_section. Qed.
Print Assumptions C46_plain_section.
Example C46_errors_example : exists n,
  list_at (fun s => if String.eqb s "4" then Some 4%Z else None) ["grid"; "cells"] (YMap [("grid", n)]) [4%Z; 4%Z] /\
  entry [("grid", YScalar "4 4")] "grid" = Some (YScalar "4 4").
Proof. exact parser_errors_case. Qed.
