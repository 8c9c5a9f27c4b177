(** Vocabulary for the advection application. *)
From Coq Require Import ZArith List Reals.
From Verif Require Import Base Num ModelVec ModelGrid ModelApp ModelParser SpecGrid.
Open Scope R_scope.

(** the body run at the times (k+1) dt, (k+2) dt, ..., (k+m) dt *)
Fixpoint run_from {S} (body : R -> S -> outcome S) (dt : R) (k m : nat) (s : S) : outcome S :=
  match m with
  | O => Ok s
  | Datatypes.S m' => bind (body (INR (Datatypes.S k) * dt) s) (run_from body dt (Datatypes.S k) m')
  end.

(** N is the first number of steps, at least one, that reaches the end time up to 1e-10 *)
Definition reaches (dt t_end : R) (N : nat) : Prop := (1 <= N)%nat /\ t_end - / 10000000000 <= INR N * dt.
Definition first_reaching (dt t_end : R) (N : nat) : Prop :=
  reaches dt t_end N /\ forall M, reaches dt t_end M -> (N <= M)%nat.

(** the grid section describes a usable two-dimensional grid *)
Definition usable_grid {T} (ov : ovmode) (gi : grid_inputs T) : Prop :=
  good_sizes 2 (gi_n gi) 1 /\ arith_ok ov 2 (gi_n gi) 1.

(** a loop body that always completes *)
Definition total_body {T S} (body : T -> S -> outcome S) : Prop := forall t s, exists s', body t s = Ok s'.
