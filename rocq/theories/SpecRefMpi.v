(** Independent vocabulary for the MPI program. *)
From Coq Require Import ZArith List Reals.
From Verif Require Import Base Num ModelVec ModelRefMath ModelRefMem ModelRef.
Open Scope Z_scope.

(** both memories hold the same level set data on all nodes, in the work and the master arrays *)
Definition same_data {T} (nx ny : Z) (m m' : mem T) : Prop :=
  forall a i j, In a [Phi; Psix; Psiy; Psixy; MPhi; MPsix; MPsiy; MPsixy] -> 0 <= i < ny -> 0 <= j < nx ->
    m (a, i, j) = m' (a, i, j) /\ exists v, m (a, i, j) = Some (D v).
(** printed blocks with the same times and data *)
Definition same_blocks {T} (nx ny : Z) (b b' : list (T * mem T)) : Prop :=
  Forall2 (fun p q => fst p = fst q /\ same_data nx ny (snd p) (snd q)) b b'.
