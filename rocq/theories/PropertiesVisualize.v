(** Property C108: the plotting script on the files that are written. *)
From Coq Require Import ZArith List String QArith.
From Verif Require Import Base Num ModelVec ModelGrid ModelArray ModelOutput ModelVisualize SpecGrid SpecOutput SpecVisualize ProofsIOCases ProofsVisualize.
Open Scope Z_scope.

(** every node is a vertex and every vertex is a node *)
Theorem C108_vertices : forall T (NT : Num T) U fmt (parse : string -> option U) rnd ov nx ny pad bmin bmax (g : grid T) (a : array T),
  built ov 2 (V3 nx ny 1) pad bmin bmax g -> array_on g a -> readable fmt parse rnd ->
  (forall x, occurs NL (fmt x) = false) /\ (forall x, occurs TAB (fmt x) = false) ->
  exists text x y h, print_array fmt ov g fmt a = Ok text /\ ShowScalar parse text 2 nx ny = Some (Surface x y h) /\
    (m_rows x = nx /\ m_cols x = ny /\ m_rows y = nx /\ m_cols y = ny /\ m_rows h = nx /\ m_cols h = ny) /\
    (forall ij, within nx ny ij -> exists rc, within nx ny rc /\ vertex_of rnd ov g a x y h rc ij) /\
    (forall rc, within nx ny rc -> exists ij, within nx ny ij /\ vertex_of rnd ov g a x y h rc ij).
Proof. exact @surface_points. Qed.
Print Assumptions C108_vertices.
(** with as many cells in x as in y the vertex of row j and column i is node (i,j), so the surface joins
    exactly the neighbours.  Missing: other grids, see below. *)
Theorem C108_surface_partial : forall T (NT : Num T) U fmt (parse : string -> option U) rnd ov m pad bmin bmax (g : grid T) (a : array T),
  built ov 2 (V3 m m 1) pad bmin bmax g -> array_on g a -> readable fmt parse rnd ->
  (forall x, occurs NL (fmt x) = false) /\ (forall x, occurs TAB (fmt x) = false) ->
  exists text x y h, print_array fmt ov g fmt a = Ok text /\ ShowScalar parse text 2 m m = Some (Surface x y h) /\
    (m_rows x = m /\ m_cols x = m /\ m_rows y = m /\ m_cols y = m /\ m_rows h = m /\ m_cols h = m) /\
    forall i j, within m m (i, j) -> vertex_of rnd ov g a x y h (j, i) (i, j).
Proof. exact @surface_square. Qed.
Print Assumptions C108_surface_partial.
(** otherwise the surface joins nodes that are not neighbours *)
Theorem C108_surface_refuted : forall T (NT : Num T) U fmt (parse : string -> option U) rnd ov nx ny pad bmin bmax (g : grid T) (a : array T),
  built ov 2 (V3 nx ny 1) pad bmin bmax g -> array_on g a -> readable fmt parse rnd ->
  (forall x, occurs NL (fmt x) = false) /\ (forall x, occurs TAB (fmt x) = false) ->
  2 <= nx -> 2 <= ny -> nx <> ny ->
  exists text x y h, print_array fmt ov g fmt a = Ok text /\ ShowScalar parse text 2 nx ny = Some (Surface x y h) /\
    exists rc rc' ij ij', within nx ny rc /\ within nx ny rc' /\ within nx ny ij /\ within nx ny ij' /\
      vertex_of rnd ov g a x y h rc ij /\ vertex_of rnd ov g a x y h rc' ij' /\ joined rc rc' /\ ~ joined ij ij'.
Proof. exact @surface_torn. Qed.
Print Assumptions C108_surface_refuted.
(** several layers: an error *)
Theorem C108_layers_refuted : forall T (NT : Num T) U fmt (parse : string -> option U) rnd ov n pad bmin bmax (g : grid T) (a : array T) dim nz,
  built ov 3 n pad bmin bmax g -> array_on g a -> readable fmt parse rnd ->
  (forall x, occurs NL (fmt x) = false) /\ (forall x, occurs TAB (fmt x) = false) -> 2 <= vz n ->
  exists text, print_array fmt ov g fmt a = Ok text /\ ShowScalar parse text dim (vx n) (vy n) = None /\
    Visualize parse (Some text) None dim (vx n) (vy n) nz = None.
Proof. exact @surface_layers. Qed.
Print Assumptions C108_layers_refuted.
(** the arrows of the velocity file: one at every node *)
Theorem C108_arrows : forall T (NT : Num T) U fmt (parse : string -> option U) rnd ov nx ny pad bmin bmax (g : grid T) (a : array (vec3 T)) nx' ny' nz',
  built ov 2 (V3 nx ny 1) pad bmin bmax g -> array_on g a -> readable fmt parse rnd ->
  (forall x, occurs NL (fmt x) = false) /\ (forall x, occurs TAB (fmt x) = false) ->
  exists text l, print_array fmt ov g (show_vec3 fmt) a = Ok text /\ Visualize parse None (Some text) 2 nx' ny' nz' = Some [Arrows l] /\
    Z.of_nat (List.length l) = nx * ny /\
    forall i j, within nx ny (i, j) -> exists p v, node ov g i j 0 = Ok p /\ aget ov g a i j 0 = Ok v /\
      nth_error l (Z.to_nat (i * ny + j)) = Some (Some (rnd (vx p)), Some (rnd (vy p)), Some (rnd (vx v)), Some (rnd (vy v))).
Proof. exact @arrows_ok. Qed.
Print Assumptions C108_arrows.
Example C108_example : exists g (a : array Q), built Trap 2 (V3 2 3 1) 1 qlo qhi g /\ array_on g a /\ readable qfmt qparse qsign /\
  (forall x, occurs NL (qfmt x) = false) /\ (forall x, occurs TAB (qfmt x) = false).
Proof. exact plot_case. Qed.
(** nothing is drawn from the files of a one-dimensional grid *)
Theorem C108_line_refuted : forall T (NT : Num T) U fmt (parse : string -> option U) rnd ov nx pad bmin bmax (g : grid T) (a : array T) (b : array (vec3 T)) nz,
  built ov 1 (V3 nx 1 1) pad bmin bmax g -> array_on g a -> array_on g b -> readable fmt parse rnd ->
  (forall x, occurs NL (fmt x) = false) /\ (forall x, occurs TAB (fmt x) = false) ->
  exists text text', print_array fmt ov g fmt a = Ok text /\ print_array fmt ov g (show_vec3 fmt) b = Ok text' /\
    Visualize parse (Some text) (Some text') 1 nx 1 nz = Some [Nothing; Nothing]%list.
Proof. exact @line_nothing. Qed.
Print Assumptions C108_line_refuted.
Example C108_line_example : exists g (a : array Q) (b : array (vec3 Q)), built Trap 1 (V3 3 1 1) 1 qlo qhi g /\ array_on g a /\ array_on g b /\ readable qfmt qparse qsign /\
  (forall x, occurs NL (qfmt x) = false) /\ (forall x, occurs TAB (qfmt x) = false).
Proof. exact line_case. Qed.
