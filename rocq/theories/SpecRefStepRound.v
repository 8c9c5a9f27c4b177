(** Vocabulary for one time step of the reference programs in double arithmetic. *)
From Coq Require Import ZArith String Reals.
From Flocq Require Import Core BinarySingleNaN.
From Verif Require Import Base Num NumB64 ModelVec ModelRefMath ModelRefMem ModelRef SpecGrid SpecB64 SpecRound SpecRefRun.
Open Scope R_scope.

(** The same settings and the same data with real numbers. *)
Definition real_settings (s : settings b64) : settings R :=
  mkSet (real (s_xlim1 s)) (real (s_xlim2 s)) (s_nx s) (real (s_ylim1 s)) (real (s_ylim2 s)) (s_ny s)
    (real (s_dt s)) (real (s_Tfinal s)) (real (s_Tp s)) (s_option s) (s_printstep s) (s_psischeme s) (s_backtrace s).
Definition real_fields (f : fields b64) : fields R :=
  mkFields (fun i j => real (SpecRefRun.f_phi f i j)) (fun i j => real (f_x f i j)) (fun i j => real (f_y f i j)) (fun i j => real (f_xy f i j)).
(** The coordinates of the nodes and the cell sizes are computed without rounding error, and are finite. *)
Definition exact_axis (n : Z) (lo hi d : b64) (x : Z -> b64) (x' : Z -> R) (h : R) : Prop :=
  is_finite lo = true /\ is_finite hi = true /\ (forall j, (0 <= j < n)%Z -> is_finite (x j) = true /\ real (x j) = x' j) /\
  is_finite d = true /\ real d = h /\ moderate h.
Definition exact_grid (s : settings b64) : Prop := let r := real_settings s in
  exact_axis (s_nx s) (s_xlim1 s) (s_xlim2 s) (node_x s 2 - node_x s 1)%num (node_x s) (node_x r) (s_dx r) /\
  exact_axis (s_ny s) (s_ylim1 s) (s_ylim2 s) (node_y s 2 - node_y s 1)%num (node_y s) (node_y r) (s_dy r).
(** Finite data: values at most M, derivatives at most M once multiplied by the cell sizes. *)
Definition field_size (s : settings b64) (f : fields b64) (M : R) : Prop := let r := real_settings s in
  moderate M /\ forall i j, (0 <= i < s_ny s)%Z -> (0 <= j < s_nx s)%Z ->
  is_finite (SpecRefRun.f_phi f i j) = true /\ is_finite (f_x f i j) = true /\ is_finite (f_y f i j) = true /\ is_finite (f_xy f i j) = true /\
  Rabs (real (SpecRefRun.f_phi f i j)) <= M /\ Rabs (real (f_x f i j)) * s_dx r <= M /\ Rabs (real (f_y f i j)) * s_dy r <= M /\
  Rabs (real (f_xy f i j)) * (s_dx r * s_dy r) <= M.
(** The box lies within X of the origin. *)
Definition box_within (s : settings b64) (X : R) : Prop :=
  - X <= real (s_xlim1 s) /\ real (s_xlim2 s) <= X /\ - X <= real (s_ylim1 s) /\ real (s_ylim2 s) <= X.
