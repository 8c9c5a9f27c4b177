(** Independent vocabulary for the loops and the time step of the reference code: contents of the
    arrays, cells of a sorted list of nodes, and the step as a function of four fields on the nodes. *)
From Coq Require Import ZArith List Bool String Reals.
From Verif Require Import Base Num ModelVec ModelRefMath ModelRefMem ModelRef.
Open Scope Z_scope.

Section Spec.
Context {T : Type} {NT : Num T}.
Implicit Types (m : mem T).

(** element (i,j) of array a is the double f i j for 0 <= i < rows, 0 <= j < cols *)
Definition holds (a : arr) (rows cols : Z) (f : Z -> Z -> T) m : Prop :=
  forall i j, 0 <= i < rows -> 0 <= j < cols -> m (a, i, j) = Some (D (f i j)).
Definition holdsu (a : arr) (rows cols : Z) (f : Z -> Z -> Z) m : Prop :=
  forall i j, 0 <= i < rows -> 0 <= j < cols -> m (a, i, j) = Some (U (f i j)).
Definition present (a : arr) (rows cols : Z) m : Prop := forall i j, 0 <= i < rows -> 0 <= j < cols -> m (a, i, j) <> None.
(** the node coordinates *)
Definition nodes_at (nx ny : Z) (x y : Z -> T) m : Prop :=
  (forall j, 0 <= j < nx -> m (AX1, j, 0) = Some (D (x j))) /\ (forall i, 0 <= i < ny -> m (AY1, i, 0) = Some (D (y i))).
Definition in_rng (rows lo hi i j : Z) : bool := ((0 <=? i) && (i <? rows) && (lo <=? j) && (j <? hi))%bool.

(** every element keeps its contents in the arrays other than those listed *)
Definition only_changes (w : list arr) m m' : Prop := forall a i j, existsb (arr_eqb a) w = false -> m' (a, i, j) = m (a, i, j).

(** what the search stores: the tracker and, if it stores one, the cell (column, row) *)
Definition found (nx ny : Z) (xlim1 xlim2 ylim1 ylim2 : T) (xs ys : list T) (xa ya : T) : Z * option (Z * Z) :=
  let xin := ((xlim1 <? xa) && (xa <? xlim2))%num%bool in let yin := ((ylim1 <? ya) && (ya <? ylim2))%num%bool in
  match xin, yin with
  | true, true => (1, Some (locate xs xa, locate ys ya))
  | true, false => (2, if (ya <=? ylim1)%num then Some (locate xs xa, 0) else if (ylim2 <=? ya)%num then Some (locate xs xa, u32 (ny - 2)) else None)
  | false, true => (3, if (xa <=? xlim1)%num then Some (0, locate ys ya) else if (xlim2 <=? xa)%num then Some (u32 (nx - 2), locate ys ya) else None)
  | false, false => (4, None)
  end.
(** the four corner values of cell (cy,cx) *)
Definition quad_at (f : Z -> Z -> T) (cy cx : Z) : quad T := mkQuad (f cy cx) (f cy (cx + 1)) (f (cy + 1) cx) (f (cy + 1) (cx + 1)).
(** new phi, psix, psiy of a node; p px py pxy: the present ones *)
Definition updated (F : flow T) (sch : string) (rk3 : bool) (t : Z) (dt Tp : T) (dx dy xo yo xj yi xa ya : T)
  (phi psix psiy psixy : quad T) (tr : Z) (p px py pxy : T) : T * T * T :=
  let t0 := time_at t dt in
  match tr with
  | 1 =>
      let rx := hermx phi psix psiy psixy xa ya xo yo dx dy in
      let ry := hermy phi psix psiy psixy xa ya xo yo dx dy in
      let r := if String.eqb "Heuns" sch then Heuns_internal F xj yi xa ya rx ry t dt Tp
               else if String.eqb "SuperConsistent" sch then SuperConsistentScheme F rk3 xj yi rx ry t dt Tp else (px, py) in
      (hp phi psix psiy psixy xa ya xo yo dx dy, fst r, snd r)
  | 2 => let rx := hermx phi psix psiy psixy xa yi xo yo dx dy in
      ((hp phi psix psiy psixy xa yi xo yo dx dy - dt * Vely F xj yi t0 Tp * py)%num, Heuns_X F xj yi rx py pxy px t dt Tp, py)
  | 3 => let ry := hermy phi psix psiy psixy xj ya xo yo dx dy in
      ((hp phi psix psiy psixy xj ya xo yo dx dy - dt * Velx F xj yi t0 Tp * px)%num, px, Heuns_Y F xj yi px ry pxy py t dt Tp)
  | 4 => ((p - dt * (Velx F xj yi t0 Tp * px + Vely F xj yi t0 Tp * py))%num, px, py)
  | _ => (p, px, py)
  end.

(** differences of psiy along x and of psix along y, and the mixed derivative made of them *)
Definition sx (dx : T) (py : Z -> Z -> T) (k l l' : Z) : T := ((py k l - py k l') / dx)%num.
Definition sy (dy : T) (px : Z -> Z -> T) (k k' l : Z) : T := ((px k l - px k' l) / dy)%num.
Definition comb (a b c d : T) : T := (nofZ 3 / nofZ 4 * (a + b) - nofZ 1 / nofZ 4 * (c + d))%num.
Definition mixed_val (nx ny : Z) (dx dy : T) (px py : Z -> Z -> T) (k l : Z) : T :=
  let ky := ((k =? 0) || (k =? ny - 1))%bool in let lx := ((l =? 0) || (l =? nx - 1))%bool in
  let sx := sx dx py in let sy := sy dy px in
  if (ky && negb lx)%bool then ((py k (l + 1)%Z - py k (l - 1)%Z) / (nofZ 2 * dx))%num
  else if (negb ky && lx)%bool then ((px (k + 1)%Z l - px (k - 1)%Z l) / (nofZ 2 * dy))%num
  else if (ky && lx)%bool then
    if ((k =? 0) && (l =? 0))%bool then comb (sx 0 1 0) (sy 1 0 0) (sy 1 0 1) (sx 1 1 0)
    else if ((k =? 0) && (l =? nx - 1))%bool then comb (sx 0 (nx - 1) (nx - 2)) (sy 1 0 (nx - 1)) (sy 1 0 (nx - 2)) (sx 1 (nx - 1) (nx - 2))
    else if ((k =? ny - 1) && (l =? 0))%bool then comb (sy (ny - 1) (ny - 2) 0) (sx (ny - 1) 1 0) (sy (ny - 1) (ny - 2) 1) (sx (ny - 2) 1 0)
    else comb (sy (ny - 1) (ny - 2) (nx - 1)) (sx (ny - 1) (nx - 1) (nx - 2)) (sx (ny - 2) (nx - 1) (nx - 2)) (sy (ny - 1) (ny - 2) (nx - 2))
  else (((py k (l + 1)%Z - py k (l - 1)%Z) / (nofZ 2 * dx) + (px (k + 1)%Z l - px (k - 1)%Z l) / (nofZ 2 * dy)) / nofZ 2)%num.


(** the level set data on the nodes *)
Record fields := mkFields { f_phi : Z -> Z -> T; f_x : Z -> Z -> T; f_y : Z -> Z -> T; f_xy : Z -> Z -> T }.
(** the work arrays and the master arrays hold the data *)
Definition contains (nx ny : Z) (f : fields) m : Prop :=
  holds Phi ny nx (f_phi f) m /\ holds Psix ny nx (f_x f) m /\ holds Psiy ny nx (f_y f) m /\ holds Psixy ny nx (f_xy f) m /\
  holds MPhi ny nx (f_phi f) m /\ holds MPsix ny nx (f_x f) m /\ holds MPsiy ny nx (f_y f) m /\ holds MPsixy ny nx (f_xy f) m.

(** the position node (i,j) is traced back to; nodes that are not traced get the origin *)
Definition foot (whole : bool) (F : flow T) (s : settings T) (x y : Z -> T) (t i j : Z) : T * T :=
  if (whole || ((i <? s_ny s - 1) && (j <? s_nx s - 1)))%bool
  then back_trace F (s_rk3 s) (x j) (y i) t (s_dt s) (s_Tp s) else (nofZ 0, nofZ 0).
(** how the position lies in the box, and the cell (column, row) used; cell (0,0) if none is stored *)
Definition where_ (whole : bool) (F : flow T) (s : settings T) (x y : Z -> T) (t i j : Z) : Z * (Z * Z) :=
  let p := foot whole F s x y t i j in
  let r := found (s_nx s) (s_ny s) (s_xlim1 s) (s_xlim2 s) (s_ylim1 s) (s_ylim2 s)
    (map x (range 0 (s_nx s))) (map y (range 0 (s_ny s))) (fst p) (snd p) in
  (fst r, match snd r with Some c => c | None => (0, 0) end).
(** new phi, psix, psiy of node (i,j) *)
Definition new_node (whole : bool) (F : flow T) (s : settings T) (x y : Z -> T) (t : Z) (f : fields) (i j : Z) : T * T * T :=
  let p := foot whole F s x y t i j in
  let w := where_ whole F s x y t i j in let cx := fst (snd w) in let cy := snd (snd w) in
  updated F (s_psischeme s) (s_rk3 s) t (s_dt s) (s_Tp s) (x 2 - x 1)%num (y 2 - y 1)%num (x cx) (y cy) (x j) (y i) (fst p) (snd p)
    (quad_at (f_phi f) cy cx) (quad_at (f_x f) cy cx) (quad_at (f_y f) cy cx) (quad_at (f_xy f) cy cx)
    (fst w) (f_phi f i j) (f_x f i j) (f_y f i j) (f_xy f i j).
(** the data after one time step *)
Definition next (whole : bool) (F : flow T) (s : settings T) (x y : Z -> T) (t : Z) (f : fields) : fields :=
  let n i j := new_node whole F s x y t f i j in
  let px i j := snd (fst (n i j)) in let py i j := snd (n i j) in
  mkFields (fun i j => fst (fst (n i j))) px py (mixed_val (s_nx s) (s_ny s) (s_dx s) (s_dy s) px py).
End Spec.
Arguments fields T : clear implicits.

(** n strictly increasing node coordinates from lo to hi *)
Definition sorted_nodes (n : Z) (x : Z -> R) (lo hi : R) : Prop :=
  x 0 = lo /\ x (n - 1) = hi /\ forall i j, 0 <= i -> i < j -> j < n -> (x i < x j)%R.
Definition inside (lo hi v : R) : Prop := (lo < v < hi)%R.
Definition clamp (lo hi v : R) : R := Rmax lo (Rmin v hi).
(** cell c between two nodes contains v, v moved into the box first *)
Definition cell_around (n : Z) (x : Z -> R) (lo hi v : R) (c : Z) : Prop :=
  0 <= c /\ c + 1 < n /\ (x c <= clamp lo hi v)%R /\ (clamp lo hi v <= x (c + 1)%Z)%R.

(** the node coordinates of a box divided evenly *)
Definition even_nodes {T} {NT : Num T} (lo d : T) (j : Z) : T := (lo + d * nofZ j)%num.
(** the initial data *)
Definition initial {T} {NT : Num T} {TG : Trig T} (x y : Z -> T) : fields T :=
  mkFields (fun i j => initialize (x j) (y i)) (fun i j => derivxinit (x j) (y i))
    (fun i j => derivyinit (x j) (y i)) (fun i j => derivxyinit (x j) (y i)).
(** the data after k steps *)
Fixpoint after {T} {NT : Num T} (whole : bool) (F : flow T) (s : settings T) (x y : Z -> T) (k : nat) (f : fields T) : fields T :=
  match k with O => f | S k' => next whole F s x y (Z.of_nat k') (after whole F s x y k' f) end.

(** the same data on all nodes *)
Definition agree {T} (nx ny : Z) (f g : fields T) : Prop := forall i j, 0 <= i < ny -> 0 <= j < nx ->
  f_phi f i j = f_phi g i j /\ f_x f i j = f_x g i j /\ f_y f i j = f_y g i j /\ f_xy f i j = f_xy g i j.
(** value and gradient of a + b x + c y on the nodes *)
Definition plane (x y : Z -> R) (a b c : R) : fields R :=
  mkFields (fun i j => (a + b * x j + c * y i)%R) (fun _ _ => b) (fun _ _ => c) (fun _ _ => 0%R).
(** the settings describe a proper box with at least three nodes on each axis *)
Definition proper (s : settings R) : Prop :=
  3 <= s_nx s < 4294967296 /\ 3 <= s_ny s < 4294967296 /\ (s_xlim1 s < s_xlim2 s)%R /\ (s_ylim1 s < s_ylim2 s)%R.
(** the coordinates of the nodes *)
Definition node_x {T} {NT : Num T} (s : settings T) : Z -> T := even_nodes (s_xlim1 s) (s_dx s).
Definition node_y {T} {NT : Num T} (s : settings T) : Z -> T := even_nodes (s_ylim1 s) (s_dy s).

(** the velocity gradient functions vanish *)
Definition flat_gradients (F : flow R) (Tp : R) : Prop := forall x y s,
  gradUx F x y s Tp = 0%R /\ gradUy F x y s Tp = 0%R /\ gradVx F x y s Tp = 0%R /\ gradVy F x y s Tp = 0%R.
(** the box of the vortex flow *)
Definition unit_square (s : settings R) : Prop := s_xlim1 s = 0%R /\ s_xlim2 s = 1%R /\ s_ylim1 s = 0%R /\ s_ylim2 s = 1%R.
(** k time steps, numbered from 0 *)
Fixpoint steps {T} {NT : Num T} (whole : bool) (F : flow T) (s : settings T) (k : nat) (m : mem T) : outcome (mem T) :=
  match k with O => Ok m | S k' => m' <- steps whole F s k' m ;; step whole F s (Z.of_nat k') m' end.
(** the tracker says on which axes the position lies strictly between the limits *)
Definition tracks (x1 x2 y1 y2 xa ya : R) (tr : Z) : Prop :=
  (inside x1 x2 xa /\ inside y1 y2 ya /\ tr = 1) \/ (inside x1 x2 xa /\ ~ inside y1 y2 ya /\ tr = 2) \/
  (~ inside x1 x2 xa /\ inside y1 y2 ya /\ tr = 3) \/ (~ inside x1 x2 xa /\ ~ inside y1 y2 ya /\ tr = 4).
