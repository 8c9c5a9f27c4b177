(** What the memory a run holds is compared with. *)
From Coq Require Import ZArith List.
From Verif Require Import Base ModelRefMath ModelRefHeap.
Open Scope Z_scope.

(** a memory as a program finds it: every block has an address that was handed out and a size, and all fit *)
Definition sound (m : mem) : Prop := Forall (fun b => fst b < m_next m /\ 0 <= snd b) (m_blocks m) /\ held m <= m_limit m.
(** a grid whose number of nodes is an unsigned int *)
Definition countable (nx ny : Z) : Prop := 2 <= nx /\ 1 <= ny /\ nx * ny < 4294967296.
(** the bytes of the five matrices of one step of the MPI programs *)
Definition mpi_bytes (nx ny : Z) : Z := 5 * (nx / 2 * ny * 8 + nx / 2 * 8).
(** the bytes of the device arrays of one step of the CUDA program *)
Definition cuda_bytes (nx ny : Z) : Z := nx * ny * (8 + 8 + 4 + 4 + 4).
(** the same blocks under the same limit *)
Definition same_blocks (m m' : mem) : Prop := m_blocks m = m_blocks m' /\ m_limit m = m_limit m'.
(** how many of the steps t .. t + n - 1 print *)
Fixpoint prints (n : nat) (t printstep : Z) : Z :=
  match n with O => 0 | S n' => (if u32 (t + 1) mod printstep =? 0 then 1 else 0) + prints n' (t + 1) printstep end.
