(** Shared memory and loop bodies of the reference code as programs of single reads and writes.

    This file models no function of /repo: it fixes the execution models used for it.
    A serial loop runs the bodies in order ([runs]); an OpenMP loop or a CUDA kernel runs them
    in an arbitrary interleaving of their single reads and writes ([interleaved]).
    Simplification: sequentially consistent memory, each access of a double or unsigned atomic. *)
From Coq Require Import ZArith List.
From Verif Require Import Base.
Open Scope Z_scope.

(** The arrays: x, y; xadv, yadv, cellx, celly, tracker; tempphi, temppsix, temppsiy, temppsixy;
    mphi, mpsix, mpsiy, mpsixy; and the local variables dxy1, dxy2, d1..d4 of
    update_mixed_derivatives, which the threads of that function share; and the buffers A1, B1, A3,
    B3, C3 of the MPI programs. *)
Inductive arr := AX1 | AY1 | Xadv | Yadv | Cellx | Celly | Tracker
  | Phi | Psix | Psiy | Psixy | MPhi | MPsix | MPsiy | MPsixy | Dxy1 | Dxy2 | D1 | D2 | D3 | D4
  | BA1 | BB1 | BA3 | BB3 | BC3.
Definition arr_eqb (a b : arr) : bool := match a, b with
  | AX1, AX1 | AY1, AY1 | Xadv, Xadv | Yadv, Yadv | Cellx, Cellx | Celly, Celly | Tracker, Tracker
  | Phi, Phi | Psix, Psix | Psiy, Psiy | Psixy, Psixy | MPhi, MPhi | MPsix, MPsix | MPsiy, MPsiy | MPsixy, MPsixy
  | Dxy1, Dxy1 | Dxy2, Dxy2 | D1, D1 | D2, D2 | D3, D3 | D4, D4
  | BA1, BA1 | BB1, BB1 | BA3, BA3 | BB3, BB3 | BC3, BC3 => true
  | _, _ => false end.
(** element [i][j] of an array; the second index of a vector or a flat array and both indices of
    a variable are 0 *)
Definition loc : Type := (arr * Z * Z)%type.
Definition loc_eqb (l l' : loc) : bool :=
  match l, l' with (a, i, j), (a', i', j') => arr_eqb a a' && (i =? i') && (j =? j') end.

Section Mem.
Context {T : Type}.
(** a double, an unsigned int, or memory that was allocated but never written *)
Inductive val := D (x : T) | U (z : Z) | Undef.
(** None: no such element *)
Definition mem : Type := loc -> option val.
Definition upd (m : mem) (l : loc) (v : val) : mem := fun l' => if loc_eqb l l' then Some v else m l'.

Inductive prog :=
| Ret
| Rd (l : loc) (k : val -> prog)
| Wr (l : loc) (v : val) (p : prog)
| Err (r : ub).
(** reads of a double and of an unsigned int *)
Definition rd (l : loc) (k : T -> prog) : prog := Rd l (fun v => match v with D x => k x | _ => Err Uninitialised end).
Definition rdu (l : loc) (k : Z -> prog) : prog := Rd l (fun v => match v with U z => k z | _ => Err Uninitialised end).
(** reads of a whole vector of n doubles *)
Fixpoint rdvec (a : arr) (i : Z) (n : nat) (k : list T -> prog) : prog :=
  match n with
  | O => k []
  | S n' => rd (a, i, 0) (fun x => rdvec a (i + 1) n' (fun l => k (x :: l)))
  end.

(** one access *)
Definition act (p : prog) (m : mem) : outcome (prog * mem) :=
  match p with
  | Ret => Ok (Ret, m)
  | Rd l k => match m l with Some v => Ok (k v, m) | None => UB OutOfBounds end
  | Wr l v p' => match m l with Some _ => Ok (p', upd m l v) | None => UB OutOfBounds end
  | Err r => UB r
  end.
(** a program on its own *)
Fixpoint run (p : prog) (m : mem) : outcome mem :=
  match p with
  | Ret => Ok m
  | Rd l k => match m l with Some v => run (k v) m | None => UB OutOfBounds end
  | Wr l v p' => match m l with Some _ => run p' (upd m l v) | None => UB OutOfBounds end
  | Err r => UB r
  end.
Definition runs (ps : list prog) (m : mem) : outcome mem := forM ps (fun m p => run p m) m.

(** p, then q *)
Fixpoint andthen (p q : prog) : prog :=
  match p with
  | Ret => q
  | Rd l k => Rd l (fun v => andthen (k v) q)
  | Wr l v p' => Wr l v (andthen p' q)
  | Err r => Err r
  end.
Fixpoint in_order (ps : list prog) : prog :=
  match ps with [] => Ret | p :: ps' => andthen p (in_order ps') end.

(** all threads have finished *)
Definition finished (ps : list prog) : Prop := Forall (fun p => p = Ret) ps.
(** The possible results of a team of threads: at any moment any unfinished thread does its next
    access; an undefined access ends the execution. *)
Inductive interleaved : list prog -> mem -> outcome mem -> Prop :=
| il_done ps m : finished ps -> interleaved ps m (Ok m)
| il_step ps1 p ps2 m p' m' r : p <> Ret -> act p m = Ok (p', m') ->
    interleaved (ps1 ++ p' :: ps2) m' r -> interleaved (ps1 ++ p :: ps2) m r
| il_fail ps1 p ps2 m e : act p m = UB e -> interleaved (ps1 ++ p :: ps2) m (UB e).

(** vector<vector<double>>::resize from empty, and new arrays in general *)
Definition alloc (a : arr) (rows cols : Z) (v : val) (m : mem) : mem :=
  fun l => match l with (a', i, j) =>
    if arr_eqb a a' then if (0 <=? i) && (i <? rows) && (0 <=? j) && (j <? cols) then Some v else None else m l end.
(** a = b for vectors of vectors *)
Definition assign (a b : arr) (m : mem) : mem :=
  fun l => match l with (a', i, j) => if arr_eqb a a' then m (b, i, j) else m l end.
End Mem.
Arguments val T : clear implicits.
Arguments mem T : clear implicits.
Arguments prog T : clear implicits.

(** for i in [0,rows), for j in [lo,hi) *)
Definition nodes (rows lo hi : Z) : list (Z * Z) :=
  flat_map (fun i => map (fun j => (i, j)) (range lo hi)) (range 0 rows).
