(** Model of src/reference/GALS_Advection_MPI.cpp run with any number of processes: rank 0 and rank 1 as in
    ModelRefMpi; every further rank takes the branch of rank 1 (:222, else) and sends to rank 0, which never
    receives from it (:142, source_rank = 1). *)
From Coq Require Import ZArith List String.
From Verif Require Import Base Num NumB64 ModelVec ModelRefMath ModelRefMem ModelRef ModelRefMpi.
Open Scope Z_scope.

(** *** execution model (no code of /repo): as in ModelRefMpi, with further senders *)
Section World.
Context {S M : Type}.
(** a further process: what is left of it, its state, its messages on the way *)
Record other := mkOther { o_w : list (writer S M); o_s : S; o_q : list M }.
(** [cap] messages of each sender can be stored *)
Inductive omove (cap : nat) : other -> other -> Prop :=
| om_do f p s s' q : f s = Ok s' -> omove cap (mkOther (WDo f :: p) s q) (mkOther p s' q)
| om_send f p s q : (length q < cap)%nat -> omove cap (mkOther (Send f :: p) s q) (mkOther p s (q ++ [f s])).
Inductive obreaks : other -> ub -> Prop := ob_do f p s q e : f s = UB e -> obreaks (mkOther (WDo f :: p) s q) e.
(** one move of one process *)
Inductive wmove (cap : nat) : conf S M * list other -> conf S M * list other -> Prop :=
| wm_pair c c' os : move cap c c' -> wmove cap (c, os) (c', os)
| wm_other c a o o' b : omove cap o o' -> wmove cap (c, a ++ o :: b) (c, a ++ o' :: b).
Inductive wbreaks : conf S M * list other -> ub -> Prop :=
| wb_pair c os e : breaks c e -> wbreaks (c, os) e
| wb_other c os o e : In o os -> obreaks o e -> wbreaks (c, os) e.
Definition wover (w : conf S M * list other) : Prop := over (fst w) /\ forall o, In o (snd w) -> o_w o = [].
(** how an execution ends: [WAborted]: MPI ends the program because of an error *)
Inductive wending := WFinished (c : conf S M) (os : list other) | WUndefined (e : ub) | WDeadlock (c : conf S M) (os : list other) | WAborted.
Inductive wexecutes (cap : nat) : conf S M * list other -> wending -> Prop :=
| wx_over w : wover w -> wexecutes cap w (WFinished (fst w) (snd w))
| wx_move w w' r : wmove cap w w' -> wexecutes cap w' r -> wexecutes cap w r
| wx_ub w e : wbreaks w e -> wexecutes cap w (WUndefined e)
| wx_stuck w : ~ wover w -> (forall w', ~ wmove cap w w') -> (forall e, ~ wbreaks w e) -> wexecutes cap w (WDeadlock (fst w) (snd w)).
(** rank 0 alone: there is no rank 1, so a receive from it is an error, which is fatal by default *)
Inductive alone : list (reader S M) -> S -> wending -> Prop :=
| al_over s : alone [] s (WFinished (mkConf [] s [] s []) [])
| al_do f p s s' r : f s = Ok s' -> alone p s' r -> alone (RDo f :: p) s r
| al_ub f p s e : f s = UB e -> alone (RDo f :: p) s (WUndefined e)
| al_recv f p s : alone (Recv f :: p) s WAborted.
End World.
Arguments other S M : clear implicits.
Arguments wending S M : clear implicits.

Section Mpi.
Context {T : Type} {NT : Num T}.
(** GALS_Advection_MPI.cpp:46-264 with [procs] processes.  Not modelled: as for ModelRefMpi. *)
Definition mpi_world {TG : Trig T} (procs : nat) (size : Z) (cap : nat) (F : flow T) (s : settings T) (r : wending proc message) : Prop :=
  exists c, mpi_start size F s = Ok c /\
    match procs with
    | O => False
    | 1%nat => alone (c_r c) (c_rs c) r
    | Datatypes.S (Datatypes.S further) => wexecutes cap (c, repeat (mkOther (c_w c) (c_ws c) []) further) r
    end.
End Mpi.
