(** C135, C136: objects that hold the input, and what a parse stores in them. *)
From Coq Require Import ZArith QArith List String.
From Verif Require Import Base Num ModelVec ModelAnalytic ModelParser SpecParser ModelOwner SpecOwner ProofsOwner ProofsOwnerCases.
Import ListNotations.
Open Scope string_scope.
Open Scope list_scope.
Open Scope Z_scope.

Section Owner.
Context {T : Type} {NT : Num T} (dbl : string -> option T) (int : string -> option Z) (nul : option string) (bt : bool).

(** C135: a program that makes, parses into, reads and destroys any number of objects, but copies none, sees what it would see
    if each object held its values itself; five records exist for each live object. *)
Theorem C135_values l : copy_free l ->
  sights (program dbl int nul bt world0 l) = sights (value_program dbl int nul bt [] l) /\
  forall w s, program dbl int nul bt world0 l = Ok (w, s) -> length (h_cells (w_heap w)) = (5 * length (w_vars w))%nat.
Proof. exact (values_kept dbl int nul bt l). Qed.

(** C135: in a new object text and lists are empty, the centre of the level set is zero, and reading a number is undefined. *)
Theorem C135_new_object w v s f : In f (members s) -> (forall o, var w v <> Ok o) ->
  sights (program dbl int nul bt w [Make v; Read v s f]) = match initial (T := T) s f with Some x => Ok [Saw x] | None => UB Uninitialised end.
Proof. exact (new_read dbl int nul bt w v s f). Qed.

(** C135: but a copy is not another object: whatever happened before, destroying the copy and the original is undefined, in
    either order, and so is reading the copy once the original is gone. *)
Theorem C135_copy_refuted l w s v v' : copy_free l -> program dbl int nul bt world0 l = Ok (w, s) ->
  In v' (map fst (w_vars w)) -> ~ In v (map fst (w_vars w)) ->
  (program dbl int nul bt world0 (l ++ [Copy v v'; Destroy v; Destroy v']) = UB Dangling /\
   program dbl int nul bt world0 (l ++ [Copy v v'; Destroy v'; Destroy v]) = UB Dangling /\
   forall sc f, program dbl int nul bt world0 (l ++ [Copy v v'; Destroy v'; Read v sc f]) = UB Dangling) /\
  sights (value_program dbl int nul bt [] (l ++ [Copy v v'; Destroy v; Destroy v'])) = Ok s /\
  sights (value_program dbl int nul bt [] (l ++ [Copy v v'; Destroy v'; Destroy v])) = Ok s.
Proof. exact (copies dbl int nul bt l w s v v'). Qed.

(** C135: the same for an assignment between two objects. *)
Theorem C135_assign_refuted l w s v v' : copy_free l -> program dbl int nul bt world0 l = Ok (w, s) ->
  In v (map fst (w_vars w)) -> In v' (map fst (w_vars w)) -> v <> v' ->
  (program dbl int nul bt world0 (l ++ [Assign v v'; Destroy v; Destroy v']) = UB Dangling /\
   program dbl int nul bt world0 (l ++ [Assign v v'; Destroy v'; Destroy v]) = UB Dangling /\
   forall sc f, program dbl int nul bt world0 (l ++ [Assign v v'; Destroy v'; Read v sc f]) = UB Dangling) /\
  sights (value_program dbl int nul bt [] (l ++ [Assign v v'; Destroy v; Destroy v'])) = Ok s.
Proof. exact (assignments dbl int nul bt l w s v v'). Qed.

(** C135: a parse into the copy is a parse into the original. *)
Theorem C135_alias_refuted l w s v v' doc sc f : copy_free l -> program dbl int nul bt world0 l = Ok (w, s) ->
  In v' (map fst (w_vars w)) -> ~ In v (map fst (w_vars w)) ->
  sights (program dbl int nul bt world0 (l ++ [Copy v v'; Parse v doc; Read v' sc f])) =
  sights (program dbl int nul bt world0 (l ++ [Parse v' doc; Read v' sc f])).
Proof. exact (aliases dbl int nul bt l w s v v' doc sc f). Qed.

(** C136: a parse, whether it ends well or not, has stored exactly the entries of the document that come before the first one
    that cannot be read, and has touched no other object. *)
Theorem C136_stored doc o h fs : owns (T := T) h o fs ->
  let r := parse_secs dbl int nul bt secs doc o h in
  exists done rest, entries dbl int nul bt doc = map (fun e => (fst e, Ok (snd e))) done ++ rest /\ owns (fst r) o (filled done fs) /\
    (snd r = Ok tt /\ rest = [] \/ exists e more, rest = e :: more /\ omap (fun _ => tt) (snd e) = snd r /\ snd r <> Ok tt) /\
    forall o' fs', owns h o' fs' -> (forall s s', o s <> o' s') -> owns (fst r) o' fs'.
Proof. exact (parse_stores dbl int nul bt doc o h fs). Qed.

(** C136: the records at the end of a parse that ends well are those of the parser of ModelParser (C46 and others), which also
    says how the parse ends. *)
Theorem C136_agrees doc o h fs x : owns (T := T) h o fs -> holds fs x ->
  let r := parse_secs dbl int nul bt secs doc o h in let q := parse dbl int nul bt doc x in
  snd r = omap (fun _ => tt) q /\ forall x', q = Ok x' -> exists fs', owns (fst r) o fs' /\ holds fs' x'.
Proof. exact (parse_agrees dbl int nul bt doc o h fs x). Qed.

(** C136: a document with all five sections gives the same members and the same outcome whatever the object held before, so
    also after a parse that failed. *)
Theorem C136_anew kvs o h fs o2 h2 fs2 : (forall s, entry kvs (sec_key s) <> None) -> owns (T := T) h o fs -> owns h2 o2 fs2 ->
  let r := parse_secs dbl int nul bt secs (YMap kvs) o h in let r2 := parse_secs dbl int nul bt secs (YMap kvs) o2 h2 in
  snd r = snd r2 /\ (snd r = Ok tt -> forall s f, In f (members s) ->
    omap (fun c => c f) (load (fst r) (o s)) = omap (fun c => c f) (load (fst r2) (o2 s))).
Proof. exact (parse_anew dbl int nul bt kvs o h fs o2 h2 fs2). Qed.

(** C136: but a parse that throws does not leave the object as it was. *)
Theorem C136_atomic_refuted o h fs dir : owns (T := T) h o fs -> fs SGeneral output_directory <> Some (VStr dir) ->
  let doc := YMap [("general", YMap [("output_directory", YScalar dir)]); ("time", YMap [])] in
  snd (parse_secs dbl int nul bt secs doc o h) = Throw /\
  exists fs', owns (fst (parse_secs dbl int nul bt secs doc o h)) o fs' /\ fs' SGeneral output_directory = Some (VStr dir).
Proof. exact (half_done dbl int nul bt o h fs dir). Qed.
End Owner.
Print Assumptions C135_values.
Print Assumptions C135_new_object.
Print Assumptions C135_copy_refuted.
Print Assumptions C135_assign_refuted.
Print Assumptions C135_alias_refuted.
Print Assumptions C136_stored.
Print Assumptions C136_agrees.
Print Assumptions C136_anew.
Print Assumptions C136_atomic_refuted.

(** the hypotheses are met *)
Example C135_case : let d := fun s => if String.eqb s "2.5" then Some (Qmake 5 2) else None in
  let doc := YMap [("general", YMap [("output_directory", YScalar "out")]); ("time", YMap [("start", YScalar "2.5")])] in
  let l := [Make 1; Make 2; Parse 1 doc; Read 1 STime start; Read 2 SGeneral output_directory; Destroy 2; Read 1 SGeneral output_directory] in
  let r := program d (fun _ => None) None false world0 l in
  copy_free l /\ sights r = Ok [Failed; Saw (VNum (Qmake 5 2)); Saw (VStr ""); Saw (VStr "out")] /\
  omap (fun x => (map fst (w_vars (fst x)), length (h_cells (w_heap (fst x))))) r = Ok ([1], 5%nat).
Proof. cbv zeta. split; [repeat constructor|]. split; vm_compute; reflexivity. Qed.
(** in the first program no variable exists; a new object has an end time that nothing has set *)
Example C135_new_case : (forall o, var (T := Q) world0 1 <> Ok o) /\ In end_ (members STime) /\
  program (T := Q) (fun _ => None) (fun _ => None) None false world0 [Make 1; Read 1 STime end_] = UB Uninitialised.
Proof. split; [discriminate|]. split; [cbn; auto|reflexivity]. Qed.
(** parsing into the copy changes the original: the program sees "b" where two objects would show "a" *)
Example C135_alias_case : let doc x := YMap [("general", YMap [("output_directory", YScalar x)])] in
  let l := [Make 1; Parse 1 (doc "a"); Copy 2 1; Parse 2 (doc "b"); Read 1 SGeneral output_directory] in
  sights (program (T := Q) (fun _ => None) (fun _ => None) None false world0 l) = Ok [Parsed; Parsed; Saw (VStr "b")] /\
  sights (value_program (T := Q) (fun _ => None) (fun _ => None) None false [] l) = Ok [Parsed; Parsed; Saw (VStr "a")].
Proof. split; vm_compute; reflexivity. Qed.
(** assigning to an object loses its records: after both are gone by way of one destructor call, five records are left *)
Example C135_lost_case : let p := program (T := Q) (fun _ => None) (fun _ => None) None false world0 in
  omap (fun x => (map fst (w_vars (fst x)), length (h_cells (w_heap (fst x))))) (p [Make 1; Make 2; Assign 1 2; Destroy 1]) = Ok ([2], 5%nat) /\
  p [Make 1; Make 2; Assign 1 2; Destroy 1; Destroy 2] = UB Dangling.
Proof. split; vm_compute; reflexivity. Qed.
Example C136_case : let r := construct (T := Q) secs (mkHeap 1 []) (fun _ => 0) in
  owns (fst r) (snd r) (fun s => new_cell s) /\ holds (T := Q) (fun s => new_cell s) fields0 /\ new_cell (T := Q) SGeneral output_directory <> Some (VStr "out").
Proof. cbv zeta. split; [exact new_owns|]. split; [exact new_holds|discriminate]. Qed.
