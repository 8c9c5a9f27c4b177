(** Independent vocabulary for the first serial program: the step as a function of the data on the nodes. *)
From Coq Require Import ZArith List Bool String Reals.
From Verif Require Import Base Num ModelVec ModelRefMath ModelRefMem ModelRef SpecRefRun.
Open Scope Z_scope.

(** The cells (row, column) that have node (i,j) as a corner: lower row first, left column first.  Cell (r,c) lies
    between rows r, r + 1 and columns c, c + 1. *)
Definition touching (nx ny i j : Z) : list (Z * Z) :=
  filter (fun c => (0 <=? fst c) && (fst c <? ny - 1) && (0 <=? snd c) && (snd c <? nx - 1))%bool
    [(i - 1, j - 1); (i - 1, j); (i, j - 1); (i, j)].
Definition grid_corner (nx ny i j : Z) : bool := (((i =? 0) || (i =? ny - 1)) && ((j =? 0) || (j =? nx - 1)))%bool.
(** the first cell whose use is not 0, with its use *)
Fixpoint first_use (use : Z * Z -> Z) (l : list (Z * Z)) : option (Z * (Z * Z)) :=
  match l with [] => None | c :: l' => if use c =? 0 then first_use use l' else Some (use c, c) end.

Section Old.
Context {T : Type} {NT : Num T}.
Definition between (lo hi v : T) : bool := ((lo <=? v) && (v <=? hi))%num%bool.
Definition beyond (lo hi v : T) : bool := ((v <? lo) || (hi <? v))%num%bool.
(** what cell c does for node (i,j) traced back to (xa,ya): 1 interpolate there; 2, 3 interpolate with y, with x,
    moved back to the node; 4 extrapolate from the node; 0 nothing *)
Definition cell_use (s : settings T) (x y : Z -> T) (xa ya : T) (i j : Z) (c : Z * Z) : Z :=
  let xin := between (x (snd c)) (x (snd c + 1)) xa in let yin := between (y (fst c)) (y (fst c + 1)) ya in
  if xin then if yin then 1 else if beyond (s_ylim1 s) (s_ylim2 s) ya then 2 else 0
  else if yin then if beyond (s_xlim1 s) (s_xlim2 s) xa then 3 else 0
  else if grid_corner (s_nx s) (s_ny s) i j then 4 else 0.
(** new phi, psix, psiy of node (i,j): from the first cell of use, none changes if there is no such cell *)
Definition old_node (F : flow T) (s : settings T) (x y : Z -> T) (t : Z) (f : fields T) (i j : Z) : T * T * T :=
  let p := back_trace F (s_rk3 s) (x j) (y i) t (s_dt s) (s_Tp s) in
  match first_use (cell_use s x y (fst p) (snd p) i j) (touching (s_nx s) (s_ny s) i j) with
  | None => (f_phi f i j, f_x f i j, f_y f i j)
  | Some (k, (r, c)) =>
      updated F (s_psischeme s) (s_rk3 s) t (s_dt s) (s_Tp s) (s_dx s) (s_dy s) (x c) (y r) (x j) (y i) (fst p) (snd p)
        (quad_at (f_phi f) r c) (quad_at (f_x f) r c) (quad_at (f_y f) r c) (quad_at (f_xy f) r c)
        k (f_phi f i j) (f_x f i j) (f_y f i j) (f_xy f i j)
  end.
(** the data after one step *)
Definition old_next (F : flow T) (s : settings T) (x y : Z -> T) (t : Z) (f : fields T) : fields T :=
  let n i j := old_node F s x y t f i j in
  let px i j := snd (fst (n i j)) in let py i j := snd (n i j) in
  mkFields (fun i j => fst (fst (n i j))) px py (mixed_val (s_nx s) (s_ny s) (s_dx s) (s_dy s) px py).
(** the data after k steps *)
Fixpoint old_after (F : flow T) (s : settings T) (x y : Z -> T) (k : nat) (f : fields T) : fields T :=
  match k with O => f | S k' => old_next F s x y (Z.of_nat k') (old_after F s x y k' f) end.
End Old.

(** the positions a node is traced back to stay within one cell of the node, and on no axis on the limit of the box *)
Definition one_cell (F : flow R) (s : settings R) (t i j : Z) : Prop :=
  let p := back_trace F (s_rk3 s) (node_x s j) (node_y s i) t (s_dt s) (s_Tp s) in
  (Rabs (fst p - node_x s j) <= s_dx s /\ Rabs (snd p - node_y s i) <= s_dy s)%R.
Definition off_limits (F : flow R) (s : settings R) (t i j : Z) : Prop :=
  let p := back_trace F (s_rk3 s) (node_x s j) (node_y s i) t (s_dt s) (s_Tp s) in
  fst p <> s_xlim1 s /\ fst p <> s_xlim2 s /\ snd p <> s_ylim1 s /\ snd p <> s_ylim2 s.
