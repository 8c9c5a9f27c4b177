(** Vocabulary for the error of one time step of the reference programs. *)
From Coq Require Import ZArith List Reals.
From Verif Require Import Base Num ModelVec ModelRefMath ModelRefMem ModelRef SpecRefRun.
Open Scope R_scope.

(** D i j is the i-fold x and j-fold y derivative of D 0 0. *)
Definition smooth2 (D : nat -> nat -> R -> R -> R) : Prop := forall i j u v,
  derivable_pt_lim (fun t => D i j t v) u (D (S i) j u v) /\ derivable_pt_lim (fun t => D i j u t) v (D i (S j) u v).
(** At every node the data differ from D 0 0, its gradient and its mixed derivative by at most e0, e1 and e2. *)
Definition near_samples (s : settings R) (D : nat -> nat -> R -> R -> R) (f : fields R) (e0 e1 e2 : R) : Prop :=
  forall i j, (0 <= i < s_ny s)%Z -> (0 <= j < s_nx s)%Z ->
  Rabs (SpecRefRun.f_phi f i j - D 0%nat 0%nat (node_x s j) (node_y s i)) <= e0 /\ Rabs (f_x f i j - D 1%nat 0%nat (node_x s j) (node_y s i)) <= e1 /\
  Rabs (f_y f i j - D 0%nat 1%nat (node_x s j) (node_y s i)) <= e1 /\ Rabs (f_xy f i j - D 1%nat 1%nat (node_x s j) (node_y s i)) <= e2.
(** In the box the derivatives up to order four on each axis are at most M i j. *)
Definition bounded_in_box (s : settings R) (D : nat -> nat -> R -> R -> R) (M : nat -> nat -> R) : Prop := forall i j u v, (i <= 4)%nat -> (j <= 4)%nat ->
  s_xlim1 s <= u <= s_xlim2 s -> s_ylim1 s <= v <= s_ylim2 s -> Rabs (D i j u v) <= M i j.
(** Error of the interpolated value on a cell of size h times k. *)
Definition value_bound (h k : R) (M : nat -> nat -> R) (e0 e1 e2 : R) : R :=
  h ^ 4 / 384 * M 4%nat 0%nat + (k ^ 4 / 384 * M 0%nat 4%nat + (e0 + k / 4 * e1)) + h / 4 * (k ^ 4 / 384 * M 1%nat 4%nat + (e1 + k / 4 * e2)).
