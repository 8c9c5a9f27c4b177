(** Independent vocabulary for parallel loops: teams of threads, data races. *)
From Coq Require Import ZArith List Permutation.
From Verif Require Import Base ModelRefMem.

(** The iterations are shared out among threads: each thread is the list of the iterations it
    does, in its own order; every iteration is done by exactly one thread. *)
Definition team_of {I} (iterations : list I) (teams : list (list I)) : Prop := Permutation (concat teams) iterations.
(** the program of each thread *)
Definition threads {T I} (body : I -> prog T) (teams : list (list I)) : list (prog T) :=
  map (fun t => in_order (map body t)) teams.

(** two memories with the same contents *)
Definition same_mem {T} (m m' : mem T) : Prop := forall l, m l = m' l.
(** two outcomes that are both defined and have the same contents *)
Definition same_result {T} (r r' : outcome (mem T)) : Prop :=
  exists m m', r = Ok m /\ r' = Ok m' /\ same_mem m m'.

(** states a team can reach *)
Inductive reaches {T} : list (prog T) -> mem T -> list (prog T) -> mem T -> Prop :=
| reach_refl ps m : reaches ps m ps m
| reach_step ps1 p ps2 m p' m' qs n : p <> Ret -> act p m = Ok (p', m') ->
    reaches (ps1 ++ p' :: ps2) m' qs n -> reaches (ps1 ++ p :: ps2) m qs n.
(** the element the next access of a thread concerns, and whether it is a write *)
Definition next_access {T} (p : prog T) : option (loc * bool) :=
  match p with Rd l _ => Some (l, false) | Wr l _ _ => Some (l, true) | _ => None end.
(** two threads are about to access the same element, one of them for writing *)
Definition conflict {T} (ps : list (prog T)) : Prop :=
  exists a b c p q l w w', ps = a ++ p :: b ++ q :: c /\
    next_access p = Some (l, w) /\ next_access q = Some (l, w') /\ (w || w')%bool = true.
Definition data_race {T} (ps : list (prog T)) (m : mem T) : Prop :=
  exists qs n, reaches ps m qs n /\ conflict qs.

(** corners of the grid; nodes off the boundary *)
Definition corner (nx ny : Z) (kl : Z * Z) : Prop := (fst kl = 0 \/ fst kl = ny - 1)%Z /\ (snd kl = 0 \/ snd kl = nx - 1)%Z.
Definition off_boundary (nx ny : Z) (kl : Z * Z) : Prop := (0 < fst kl < ny - 1)%Z /\ (0 < snd kl < nx - 1)%Z.
(** schedule(static): every thread gets a contiguous chunk of the iterations, in order *)
Definition static_chunks {I} (iterations : list I) (teams : list (list I)) : Prop := concat teams = iterations.
(** at least two threads have something to do *)
Definition two_busy {I} (teams : list (list I)) : Prop :=
  exists t1 ta t2 tb t3, teams = t1 ++ ta :: t2 ++ tb :: t3 /\ ta <> nil /\ tb <> nil.
