(** Model of the first serial program, src/reference/OldSerialCode/GALS_Advection.cpp (its Hermite.h and
    Initializer_vortex.h hold the functions of ModelRefMath in a single file).

    The arrays are those of ModelRef: mphi.. are MPhi.., tempphi.. are Phi... The time t is a double that
    counts 0, 1, 2, .., so t * dt and (t + 1) * dt are [time_at t] and [time_at (t + 1)].
    Simplification: index arithmetic does not overflow (nx * ny is checked); the stack has room for the
    arrays. *)
From Coq Require Import ZArith List String.
From Verif Require Import Base Num NumB64 ModelVec ModelRefMath ModelRefMem ModelRef.
Open Scope num_scope.

Section Old.
Context {T : Type} {NT : Num T}.

(** GALS_Advection.cpp:239-254: the corner values of array a in cell (i,j) *)
Definition rdcell (a : arr) (i j : Z) (k : quad T -> prog T) : prog T :=
  rd (a, i, j) (fun v0 => rd (a, i, j + 1)%Z (fun v1 => rd (a, i + 1, j)%Z (fun v2 => rd (a, i + 1, j + 1)%Z (fun v3 => k (mkQuad v0 v1 v2 v3))))).

(** GALS_Advection.cpp:303-332: how node (ti,tj) is treated by cell (i,j): 1 the position is in the cell, 2 and
    3 it is beyond a side of the box, 4 the node is a corner of the grid and the position is in neither
    range, 0 not by this cell.  x0, x1, y0, y1: the sides of the cell. *)
Definition old_count (nx ny : Z) (xlim1 xlim2 ylim1 ylim2 x0 x1 y0 y1 xa ya : T) (ti tj : Z) : Z :=
  let temp1 := ((x0 <=? xa) && (xa <=? x1))%bool in let temp2 := ((y0 <=? ya) && (ya <=? y1))%bool in
  match temp1, temp2 with
  | true, true => 1
  | true, false => if ((ya <? ylim1) || (ylim2 <? ya))%bool then 2 else 0
  | false, true => if ((xa <? xlim1) || (xlim2 <? xa))%bool then 3 else 0
  | false, false => if (((ti =? 0) || (ti =? ny - 1)) && ((tj =? 0) || (tj =? nx - 1)))%Z%bool then 4 else 0
  end.

(** GALS_Advection.cpp:239-258 and :263-479: node k of cell (i,j), at row i + (k = 2, 3) and column
    j + (k = 1, 3) (:268-269).  Simplification: the corner values of the cell are read for each of its four
    nodes; values read twice are read once; assignments to variables that are not used later are left out;
    the formulas of the psi updates are those of TimeSteppingMethods.h, written out in place. *)
Definition old_body (F : flow T) (s : settings T) (dx dy : T) (t : Z) (ijk : Z * Z * Z) : prog T :=
  match ijk with (i, j, k) =>
    let nx := s_nx s in let ny := s_ny s in let dt := s_dt s in let Tp := s_Tp s in
    let ti := (if (k =? 2) || (k =? 3) then i + 1 else i)%Z%bool in
    let tj := (if (k =? 1) || (k =? 3) then j + 1 else j)%Z%bool in
    rdcell MPhi i j (fun phi => rdcell MPsix i j (fun psix => rdcell MPsiy i j (fun psiy => rdcell MPsixy i j (fun psixy =>
    rdu (Tracker, ti, tj) (fun tr =>
    if (tr =? 0)%Z then
      rd (AX1, tj, 0%Z) (fun xn => rd (AY1, ti, 0%Z) (fun yn =>
      rd (AX1, j, 0%Z) (fun xo => rd (AX1, (j + 1)%Z, 0%Z) (fun x1 => rd (AY1, i, 0%Z) (fun yo => rd (AY1, (i + 1)%Z, 0%Z) (fun y1 =>
      let p := back_trace F (s_rk3 s) xn yn t dt Tp in let xa := fst p in let ya := snd p in
      let t0 := time_at t dt in
      match old_count nx ny (s_xlim1 s) (s_xlim2 s) (s_ylim1 s) (s_ylim2 s) xo x1 yo y1 xa ya ti tj with
      | 1%Z =>
          let rx := hermx phi psix psiy psixy xa ya xo yo dx dy in
          let ry := hermy phi psix psiy psixy xa ya xo yo dx dy in
          let done := Wr (Tracker, ti, tj) (U 1) Ret in
          Wr (Phi, ti, tj) (D (hp phi psix psiy psixy xa ya xo yo dx dy))
          (if String.eqb "Heuns" (s_psischeme s) then
             let r := Heuns_internal F xn yn xa ya rx ry t dt Tp in
             Wr (Psix, ti, tj) (D (fst r)) (Wr (Psiy, ti, tj) (D (snd r)) done)
           else if String.eqb "SuperConsistent" (s_psischeme s) then
             let r := SuperConsistentScheme F (s_rk3 s) xn yn rx ry t dt Tp in
             Wr (Psix, ti, tj) (D (fst r)) (Wr (Psiy, ti, tj) (D (snd r)) done)
           else done)
      | 2%Z =>
          let rx := hermx phi psix psiy psixy xa yn xo yo dx dy in
          rd (Psiy, ti, tj) (fun ry =>
          Wr (Phi, ti, tj) (D (hp phi psix psiy psixy xa yn xo yo dx dy - dt * Vely F xn yn t0 Tp * ry))
          (rd (Psixy, ti, tj) (fun pxy => rd (Psix, ti, tj) (fun px =>
           Wr (Psix, ti, tj) (D (Heuns_X F xn yn rx ry pxy px t dt Tp)) (Wr (Tracker, ti, tj) (U 2) Ret)))))
      | 3%Z =>
          rd (Psix, ti, tj) (fun rx =>
          let ry := hermy phi psix psiy psixy xn ya xo yo dx dy in
          Wr (Phi, ti, tj) (D (hp phi psix psiy psixy xn ya xo yo dx dy - dt * Velx F xn yn t0 Tp * rx))
          (rd (Psixy, ti, tj) (fun pxy => rd (Psiy, ti, tj) (fun py =>
           Wr (Psiy, ti, tj) (D (Heuns_Y F xn yn rx ry pxy py t dt Tp)) (Wr (Tracker, ti, tj) (U 3) Ret)))))
      | 4%Z =>
          rd (Phi, ti, tj) (fun p => rd (Psix, ti, tj) (fun px => rd (Psiy, ti, tj) (fun py =>
          Wr (Phi, ti, tj) (D (p - dt * (Velx F xn yn t0 Tp * px + Vely F xn yn t0 Tp * py))) (Wr (Tracker, ti, tj) (U 4) Ret))))
      | _ => Ret
      end))))))
    else Ret))))) end.
(** GALS_Advection.cpp:235-236, :263: the cells, and the four nodes of each *)
Definition old_visits (nx ny : Z) : list (Z * Z * Z) :=
  flat_map (fun c => map (fun k => (c, k)) (range 0 4)) (nodes (ny - 1) 0 (nx - 1)).
(** GALS_Advection.cpp:229-233: tracker[p][q] = 0 *)
Definition old_clear (pq : Z * Z) : prog T := match pq with (p, q) => Wr (Tracker, p, q) (U 0) Ret end.
(** GALS_Advection.cpp:226-552: one time step.  The mixed derivatives (:487-537) and the copies (:543-550) are
    those of AdvectionPointCalcs.h:377-436 and SerialCode/GALS_Advection.cpp:151-158 with int
    indices; dx and dy are the spacings (:108, :113).  Simplification: d1..d4 come into existence in each
    step, not once; they are always written before they are read. *)
Definition old_step (F : flow T) (s : settings T) (t : Z) (m : mem T) : outcome (mem T) :=
  m <- runs (map old_clear (nodes (s_ny s) 0 (s_nx s))) m ;;
  m <- runs (map (old_body F s (s_dx s) (s_dy s) t) (old_visits (s_nx s) (s_ny s))) m ;;
  m <- runs (update_mixed_derivatives (s_nx s) (s_ny s) (s_dx s) (s_dy s) 0 (s_nx s)) (mixed_vars m) ;;
  Ok (feed_back m).

(** GALS_Advection.cpp:161-204, one node; u and v are computed and not used *)
Definition old_init {TG : Trig T} (ij : Z * Z) : prog T :=
  match ij with (i, j) =>
    rd (AX1, j, 0%Z) (fun x => rd (AY1, i, 0%Z) (fun y =>
    Wr (MPhi, i, j) (D (initialize x y)) (Wr (Phi, i, j) (D (initialize x y))
    (Wr (MPsix, i, j) (D (derivxinit x y)) (Wr (Psix, i, j) (D (derivxinit x y))
    (Wr (MPsiy, i, j) (D (derivyinit x y)) (Wr (Psiy, i, j) (D (derivyinit x y))
    (Wr (MPsixy, i, j) (D (derivxyinit x y)) (Wr (Psixy, i, j) (D (derivxyinit x y)) Ret))))))))) end.
(** GALS_Advection.cpp:107-129, :161-204: the arrays come into existence uninitialised; :129 computes nx * ny
    in int *)
Definition old_setup {TG : Trig T} (s : settings T) : outcome (mem T) :=
  let nx := s_nx s in let ny := s_ny s in
  if (2147483647 <? nx * ny)%Z then UB SignedOverflow else
  let m := alloc AX1 nx 1 Undef (alloc AY1 ny 1 Undef (fold_right (fun a m => alloc a ny nx Undef m) (fun _ => None)
    [Tracker; MPhi; MPsix; MPsiy; MPsixy; Phi; Psix; Psiy; Psixy])) in
  m <- runs (map (set_node AX1 (s_xlim1 s) (s_dx s)) (range 0 nx)) m ;;
  m <- runs (map (set_node AY1 (s_ylim1 s) (s_dy s)) (range 0 ny)) m ;;
  runs (map old_init (nodes ny 0 nx)) m.
(** GALS_Advection.cpp:68: the quotient truncated to int *)
Definition old_count_steps (s : settings T) : outcome Z :=
  let q := s_Tfinal s / s_dt s in
  let n := if q <? #0 then (- nfloor (#0 - q)%num)%Z else nfloor q in
  if ((-2147483648 <=? n) && (n <=? 2147483647))%Z%bool then Ok n else UB FloatToInt.
(** GALS_Advection.cpp:226: steps t, t + 1, .. *)
Fixpoint old_steps (F : flow T) (s : settings T) (t : Z) (left_ : nat) (m : mem T) : outcome (mem T) :=
  match left_ with
  | O => Ok m
  | S left' => m <- old_step F s t m ;; old_steps F s (t + 1) left' m
  end.
(** GALS_Advection.cpp:43-623: the final arrays; only timings are printed *)
Definition old_main {TG : Trig T} (F : flow T) (s : settings T) : outcome (mem T) :=
  n <- old_count_steps s ;;
  m <- old_setup s ;;
  old_steps F s 0 (Z.to_nat n) m.
End Old.
