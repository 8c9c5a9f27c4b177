(** Model of src/reference/GALS_Advection_MPI_OpenMP.cpp run with any number of processes of k threads each:
    rank 0 and rank 1 as in ModelRefOmp; every further rank takes the branch of rank 1 (:235, else) and sends
    to rank 0, which never receives from it (:146, source_rank = 1). *)
From Coq Require Import ZArith List String.
From Verif Require Import Base Num NumB64 ModelVec ModelRefMath ModelRefMem ModelRef ModelRefMpi SpecRefPar ModelRefOmp.
Open Scope Z_scope.

(** *** execution model (no code of /repo): as in ModelRefMpiN, with a relation for each computation *)
Section World.
Context {S M : Type}.
(** a further process: what is left of it, its state, its messages on the way *)
Record pother := mkPOther { po_w : list (pwriter S M); po_s : S; po_q : list M }.
(** [cap] messages of each sender can be stored *)
Inductive pomove (cap : nat) : pother -> pother -> Prop :=
| po_do (f : S -> outcome S -> Prop) p s s' q : f s (Ok s') -> pomove cap (mkPOther (PWDo f :: p) s q) (mkPOther p s' q)
| po_send f p s q : (length q < cap)%nat -> pomove cap (mkPOther (PSend f :: p) s q) (mkPOther p s (q ++ [f s])).
Inductive pobreaks : pother -> ub -> Prop :=
| pob_do (f : S -> outcome S -> Prop) p s q e : f s (UB e) -> pobreaks (mkPOther (PWDo f :: p) s q) e.
(** one move of one process *)
Inductive pwmove (cap : nat) : pconf S M * list pother -> pconf S M * list pother -> Prop :=
| pwm_pair c c' os : pmove cap c c' -> pwmove cap (c, os) (c', os)
| pwm_other c a o o' b : pomove cap o o' -> pwmove cap (c, a ++ o :: b) (c, a ++ o' :: b).
Inductive pwbreaks : pconf S M * list pother -> ub -> Prop :=
| pwb_pair c os e : pbreaks c e -> pwbreaks (c, os) e
| pwb_other c os o e : In o os -> pobreaks o e -> pwbreaks (c, os) e.
Definition pwover (w : pconf S M * list pother) : Prop := pover (fst w) /\ forall o, In o (snd w) -> po_w o = [].
(** the states of rank 0 and rank 1 at the end and the messages of each further process never received;
    [PWAborted]: MPI ends the program because of an error *)
Inductive pwending := PWFinished (root helper : S) (left_over : list M) (others : list (list M)) | PWUndefined (e : ub) | PWDeadlock | PWAborted.
Inductive pwexecutes (cap : nat) : pconf S M * list pother -> pwending -> Prop :=
| pwx_over w : pwover w -> pwexecutes cap w (PWFinished (p_rs (fst w)) (p_ws (fst w)) (p_q (fst w)) (map po_q (snd w)))
| pwx_move w w' r : pwmove cap w w' -> pwexecutes cap w' r -> pwexecutes cap w r
| pwx_ub w e : pwbreaks w e -> pwexecutes cap w (PWUndefined e)
| pwx_stuck w : ~ pwover w -> (forall w', ~ pwmove cap w w') -> (forall e, ~ pwbreaks w e) -> pwexecutes cap w PWDeadlock.
(** rank 0 alone: there is no rank 1, so a receive from it is an error, which is fatal by default *)
Inductive palone : list (preader S M) -> S -> pwending -> Prop :=
| pal_over s : palone [] s (PWFinished s s [] [])
| pal_do (f : S -> outcome S -> Prop) p s s' r : f s (Ok s') -> palone p s' r -> palone (PRDo f :: p) s r
| pal_ub (f : S -> outcome S -> Prop) p s e : f s (UB e) -> palone (PRDo f :: p) s (PWUndefined e)
| pal_recv f p s : palone (PRecv f :: p) s PWAborted.
End World.
Arguments pother S M : clear implicits.
Arguments pwending S M : clear implicits.

Section Hybrid.
Context {T : Type} {NT : Num T}.
(** GALS_Advection_MPI_OpenMP.cpp:46-297 after the reading of argv, [procs] processes, k threads each.
    Not modelled: as for ModelRefMpi. *)
Definition hyb_world {TG : Trig T} (procs : nat) (k kmix size : Z) (cap : nat) (F : flow T) (s : settings T) (r : pwending proc message) : Prop :=
  exists n m, step_count s = Ok n /\ setup s = Ok m /\
    let root := upto (hyb_root_step k kmix F s (print_every s n)) 0 (Z.to_nat n) in
    let helper := upto (hyb_helper_step k size F s) 0 (Z.to_nat n) in
    let p := (m, [(nofZ 0, m)]) in
    match procs with
    | O => False
    | 1%nat => palone root p r
    | Datatypes.S (Datatypes.S further) => pwexecutes cap (mkPConf root p helper p [], repeat (mkPOther helper p []) further) r
    end.
End Hybrid.
