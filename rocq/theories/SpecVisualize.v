(** Vocabulary for plots of a field: which entry of the drawn matrices is which node of the grid. *)
From Coq Require Import ZArith List String.
From Verif Require Import Base Num ModelVec ModelGrid ModelArray ModelVisualize SpecGrid.
Open Scope Z_scope.

(** next to each other in one of the two directions, for nodes and for entries of a matrix *)
Definition joined (a b : Z * Z) : Prop :=
  (fst a = fst b /\ Z.abs (snd a - snd b) = 1) \/ (snd a = snd b /\ Z.abs (fst a - fst b) = 1).
(** the vertex of row r and column c is at node (i,j) and at the height of its value; rnd is what printing and
    reading a number make of it *)
Definition vertex_of {T U} {NT : Num T} (rnd : T -> U) ov (g : grid T) (a : array T) (x y h : matrix (option U)) (rc ij : Z * Z) : Prop :=
  exists p v, node ov g (fst ij) (snd ij) 0 = Ok p /\ aget ov g a (fst ij) (snd ij) 0 = Ok v /\
    entry x (fst rc) (snd rc) = Some (Some (rnd (vx p))) /\ entry y (fst rc) (snd rc) = Some (Some (rnd (vy p))) /\
    entry h (fst rc) (snd rc) = Some (Some (rnd v)).
Definition within (nx ny : Z) (ij : Z * Z) : Prop := 0 <= fst ij < nx /\ 0 <= snd ij < ny.
(** numbers are printed without tabs and line ends and can be read *)
Definition readable {T U} (fmt : T -> string) (parse : string -> option U) (rnd : T -> U) : Prop :=
  forall x, parse (fmt x) = Some (rnd x).
