(** Model of the serial and OpenMP reference programs: src/reference/Allocation.h,
    AdvectionPointCalcs.h, SerialCode/GALS_Advection.cpp, GALS_Advection_OpenMP.cpp.

    unsigned int arithmetic wraps ([u32]). Each loop body is a program of reads and writes. *)
From Coq Require Import ZArith List String.
From Verif Require Import Base Num NumB64 ModelVec ModelRefMath ModelRefMem.
Open Scope num_scope.

Section Ref.
Context {T : Type} {NT : Num T}.

(** Allocation.h:44-54 gridnodes: xs[i] = xlim1 + dx * i *)
Definition set_node (a : arr) (lim d : T) (i : Z) : prog T := Wr (a, i, 0%Z) (D (lim + d * #i)) Ret.
Definition gridnodes (xlim1 ylim1 dx dy : T) (nx ny : Z) (m : mem T) : outcome (mem T) :=
  let m := alloc AX1 nx 1 (D #0) m in let m := alloc AY1 ny 1 (D #0) m in
  m <- runs (map (set_node AX1 xlim1 dx) (range 0 nx)) m ;;
  runs (map (set_node AY1 ylim1 dy) (range 0 ny)) m.

(** Allocation.h:20-27 *)
Definition init_body {TG : Trig T} (ij : Z * Z) : prog T :=
  match ij with (i, j) =>
    rd (AX1, j, 0%Z) (fun x => rd (AY1, i, 0%Z) (fun y =>
    Wr (MPhi, i, j) (D (initialize x y)) (Wr (MPsix, i, j) (D (derivxinit x y))
    (Wr (MPsiy, i, j) (D (derivyinit x y)) (Wr (MPsixy, i, j) (D (derivxyinit x y)) Ret))))) end.
(** Allocation.h:12-28 allocate_levelset_matrices *)
Definition alloc4 (a b c d : arr) (ny nx : Z) (m : mem T) : mem T :=
  alloc a ny nx (D #0) (alloc b ny nx (D #0) (alloc c ny nx (D #0) (alloc d ny nx (D #0) m))).
Definition allocate_levelset_matrices {TG : Trig T} (nx ny : Z) (m : mem T) : outcome (mem T) :=
  runs (map init_body (nodes ny 0 nx)) (alloc4 MPhi MPsix MPsiy MPsixy ny nx m).

(** AdvectionPointCalcs.h:27-49 = :68-90, one node *)
Definition adv_body (F : flow T) (rk3 : bool) (t : Z) (dt Tp : T) (ij : Z * Z) : prog T :=
  match ij with (i, j) =>
    rd (AX1, j, 0%Z) (fun x => rd (AY1, i, 0%Z) (fun y =>
    let a := euler_back F x y t dt Tp in
    Wr (Xadv, i, j) (D (fst a)) (Wr (Yadv, i, j) (D (snd a))
    (if rk3 then
       rd (Xadv, i, j) (fun xa => rd (Yadv, i, j) (fun ya =>
       let b := second_back F x y xa ya t dt Tp in
       Wr (Xadv, i, j) (D (fst b)) (Wr (Yadv, i, j) (D (snd b))
       (rd (Xadv, i, j) (fun xb => rd (Yadv, i, j) (fun yb =>
       let c := third_back F x y xa ya xb yb t dt Tp in
       Wr (Xadv, i, j) (D (fst c)) (Wr (Yadv, i, j) (D (snd c)) Ret)))))))
     else Ret)))) end.
(** AdvectionPointCalcs.h:13-53 advection_point_MPI: all rows, columns [lo,hi) *)
Definition advection_point_MPI (F : flow T) (rk3 : bool) (t : Z) (dt Tp : T) (ny lo hi : Z) : list (prog T) :=
  map (adv_body F rk3 t dt Tp) (nodes ny lo hi).
(** AdvectionPointCalcs.h:55-93 advection_point: i < ny - 1, j < nx - 1 *)
Definition advection_point (F : flow T) (rk3 : bool) (t : Z) (dt Tp : T) (nx ny : Z) : list (prog T) :=
  map (adv_body F rk3 t dt Tp) (nodes (u32 (ny - 1)) 0 (u32 (nx - 1))).

(** AdvectionPointCalcs.h:116-117: lower_bound(...) - begin() - 1 stored in an unsigned int *)
Definition locate (l : list T) (v : T) : Z := u32 (lower_bound l v - 1).
(** AdvectionPointCalcs.h:104-159 (= :175-230), one node.  Simplification: xadv[i][j] and
    yadv[i][j] are read once and all of x and y are read. *)
Definition find_body (nx ny : Z) (xlim1 xlim2 ylim1 ylim2 : T) (ij : Z * Z) : prog T :=
  match ij with (i, j) =>
    rd (Xadv, i, j) (fun xa => rd (Yadv, i, j) (fun ya =>
    rdvec AX1 0 (Z.to_nat nx) (fun xs => rdvec AY1 0 (Z.to_nat ny) (fun ys =>
    let xout := negb ((xlim1 <? xa) && (xa <? xlim2))%bool in
    let yout := negb ((ylim1 <? ya) && (ya <? ylim2))%bool in
    let put a v p := Wr (a, i, j) (U v) p in
    match xout, yout with
    | false, false => put Tracker 1%Z (put Cellx (locate xs xa) (put Celly (locate ys ya) Ret))
    | false, true => put Tracker 2%Z
        (if ya <=? ylim1 then put Cellx (locate xs xa) (put Celly 0%Z Ret)
         else if ylim2 <=? ya then put Cellx (locate xs xa) (put Celly (u32 (ny - 2)) Ret) else Ret)
    | true, false => put Tracker 3%Z
        (if xa <=? xlim1 then put Celly (locate ys ya) (put Cellx 0%Z Ret)
         else if xlim2 <=? xa then put Celly (locate ys ya) (put Cellx (u32 (nx - 2)) Ret) else Ret)
    | true, true => put Tracker 4%Z Ret
    end)))) end.
(** AdvectionPointCalcs.h:164-234 find_advection_point_location_MPI; :95-162 is the range [0,nx) *)
Definition find_advection_point_location_MPI (nx ny : Z) (xlim1 xlim2 ylim1 ylim2 : T) (lo hi : Z) : list (prog T) :=
  map (find_body nx ny xlim1 xlim2 ylim1 ylim2) (nodes ny lo hi).

(** AdvectionPointCalcs.h:325-328: the four corner values of array a in cell (cy,cx) *)
Definition rdquad (a : arr) (cy cx : Z) (k : quad T -> prog T) : prog T :=
  rd (a, cy, cx) (fun v0 => rd (a, cy, u32 (cx + 1)) (fun v1 =>
  rd (a, u32 (cy + 1), cx) (fun v2 => rd (a, u32 (cy + 1), u32 (cx + 1)) (fun v3 => k (mkQuad v0 v1 v2 v3))))).

(** AdvectionPointCalcs.h:321-371 (= :249-298), one node.  psischeme: "Heuns", "SuperConsistent" or
    another name.  Simplifications: x[2] - x[1] and y[2] - y[1] (:311,:313) are read by every
    iteration instead of once before the loop; the values of an array at the four corners are read
    together; values read twice are read once. *)
Definition update_body (F : flow T) (psischeme : string) (rk3 : bool) (t : Z) (dt Tp : T) (ij : Z * Z) : prog T :=
  match ij with (i, j) =>
    rd (AX1, 2%Z, 0%Z) (fun x2 => rd (AX1, 1%Z, 0%Z) (fun x1 => rd (AY1, 2%Z, 0%Z) (fun y2 => rd (AY1, 1%Z, 0%Z) (fun y1 =>
    let dx := x2 - x1 in let dy := y2 - y1 in
    rdu (Cellx, i, j) (fun cx => rdu (Celly, i, j) (fun cy =>
    rdquad MPhi cy cx (fun phi => rdquad MPsix cy cx (fun psix => rdquad MPsiy cy cx (fun psiy => rdquad MPsixy cy cx (fun psixy =>
    rd (AX1, cx, 0%Z) (fun xo => rd (AY1, cy, 0%Z) (fun yo =>
    rd (AX1, j, 0%Z) (fun xj => rd (AY1, i, 0%Z) (fun yi =>
    rd (Xadv, i, j) (fun xa => rd (Yadv, i, j) (fun ya =>
    rdu (Tracker, i, j) (fun tr =>
    let t0 := time_at t dt in
    match tr with
    | 1%Z =>
        let rx := hermx phi psix psiy psixy xa ya xo yo dx dy in
        let ry := hermy phi psix psiy psixy xa ya xo yo dx dy in
        Wr (Phi, i, j) (D (hp phi psix psiy psixy xa ya xo yo dx dy))
        (if String.eqb "Heuns" psischeme then
           let r := Heuns_internal F xj yi xa ya rx ry t dt Tp in
           Wr (Psix, i, j) (D (fst r)) (Wr (Psiy, i, j) (D (snd r)) Ret)
         else if String.eqb "SuperConsistent" psischeme then
           let r := SuperConsistentScheme F rk3 xj yi rx ry t dt Tp in
           Wr (Psix, i, j) (D (fst r)) (Wr (Psiy, i, j) (D (snd r)) Ret)
         else Ret)
    | 2%Z =>
        let rx := hermx phi psix psiy psixy xa yi xo yo dx dy in
        rd (Psiy, i, j) (fun ry =>
        Wr (Phi, i, j) (D (hp phi psix psiy psixy xa yi xo yo dx dy - dt * Vely F xj yi t0 Tp * ry))
        (rd (Psixy, i, j) (fun pxy => rd (Psix, i, j) (fun px =>
         Wr (Psix, i, j) (D (Heuns_X F xj yi rx ry pxy px t dt Tp)) Ret))))
    | 3%Z =>
        rd (Psix, i, j) (fun rx =>
        let ry := hermy phi psix psiy psixy xj ya xo yo dx dy in
        Wr (Phi, i, j) (D (hp phi psix psiy psixy xj ya xo yo dx dy - dt * Velx F xj yi t0 Tp * rx))
        (rd (Psixy, i, j) (fun pxy => rd (Psiy, i, j) (fun py =>
         Wr (Psiy, i, j) (D (Heuns_Y F xj yi rx ry pxy py t dt Tp)) Ret))))
    | 4%Z =>
        rd (Phi, i, j) (fun p => rd (Psix, i, j) (fun px => rd (Psiy, i, j) (fun py =>
        Wr (Phi, i, j) (D (p - dt * (Velx F xj yi t0 Tp * px + Vely F xj yi t0 Tp * py))) Ret)))
    | _ => Ret
    end))))))))))))))))) end.
(** AdvectionPointCalcs.h:304-374 update_levelset_data (:236-301 with columns [lo,hi)) *)
Definition update_levelset_data (F : flow T) (psischeme : string) (rk3 : bool) (t : Z) (dt Tp : T) (ny lo hi : Z) : list (prog T) :=
  map (update_body F psischeme rk3 t dt Tp) (nodes ny lo hi).

(** AdvectionPointCalcs.h:387-432 (= :447-492), one node; d1..d4, dxy1 and dxy2 are variables of
    the function, so they are memory shared by the iterations. *)
Definition var (a : arr) : loc := (a, 0%Z, 0%Z).
(** a[i][j] - a[i'][j'] divided by h, kept in variable d *)
Definition slope (d a : arr) (i j i' j' : Z) (h : T) (p : prog T) : prog T :=
  rd (a, i, j) (fun v => rd (a, i', j') (fun v' => Wr (var d) (D ((v - v') / h)) p)).
(** temppsixy[k][l] = 0.75 * (da + db) - 0.25 * (dc + dd) *)
Definition corner_sum (k l : Z) (da db dc dd : arr) : prog T :=
  rd (var da) (fun a => rd (var db) (fun b => rd (var dc) (fun c => rd (var dd) (fun d =>
  Wr (Psixy, k, l) (D (#3 / #4 * (a + b) - #1 / #4 * (c + d))) Ret)))).
Definition mixed_body (nx ny : Z) (dx dy : T) (kl : Z * Z) : prog T :=
  match kl with (k, l) =>
    let top := u32 (ny - 1) in let last := u32 (nx - 1) in
    let ky := ((k =? 0) || (k =? top))%Z%bool in let lx := ((l =? 0) || (l =? last))%Z%bool in
    if (ky && negb lx)%bool then
      rd (Psiy, k, u32 (l + 1)) (fun a => rd (Psiy, k, u32 (l - 1)) (fun b =>
      Wr (Psixy, k, l) (D ((a - b) / (#2 * dx))) Ret))
    else if (negb ky && lx)%bool then
      rd (Psix, u32 (k + 1), l) (fun a => rd (Psix, u32 (k - 1), l) (fun b =>
      Wr (Psixy, k, l) (D ((a - b) / (#2 * dy))) Ret))
    else if (ky && lx)%bool then
      if ((k =? 0) && (l =? 0))%Z%bool then
        slope D1 Psiy 0 1 0 0 dx (slope D2 Psix 1 0 0 0 dy (slope D3 Psix 1 1 0 1 dy (slope D4 Psiy 1 1 1 0 dx
        (corner_sum k l D1 D2 D3 D4))))
      else if ((k =? 0) && (l =? last))%Z%bool then
        slope D1 Psiy 0 last 0 (u32 (nx - 2)) dx (slope D2 Psix 1 (u32 (nx - 2)) 0 (u32 (nx - 2)) dy
        (slope D3 Psix 1 last 0 last dy (slope D4 Psiy 1 last 1 (u32 (nx - 2)) dx
        (corner_sum k l D1 D3 D2 D4))))
      else if ((k =? top) && (l =? 0))%Z%bool then
        slope D1 Psiy (u32 (ny - 2)) 1 (u32 (ny - 2)) 0 dx (slope D2 Psix top 0 (u32 (ny - 2)) 0 dy
        (slope D3 Psix top 1 (u32 (ny - 2)) 1 dy (slope D4 Psiy top 1 top 0 dx
        (corner_sum k l D2 D4 D3 D1))))
      else if ((k =? top) && (l =? last))%Z%bool then
        slope D1 Psiy (u32 (ny - 2)) last (u32 (ny - 2)) (u32 (nx - 2)) dx
        (slope D2 Psix top (u32 (nx - 2)) (u32 (ny - 2)) (u32 (nx - 2)) dy
        (slope D3 Psix top last (u32 (ny - 2)) last dy (slope D4 Psiy top last top (u32 (nx - 2)) dx
        (corner_sum k l D3 D4 D1 D2))))
      else Ret
    else
      rd (Psiy, k, u32 (l + 1)) (fun a => rd (Psiy, k, u32 (l - 1)) (fun b => Wr (var Dxy1) (D ((a - b) / (#2 * dx)))
      (rd (Psix, u32 (k + 1), l) (fun a => rd (Psix, u32 (k - 1), l) (fun b => Wr (var Dxy2) (D ((a - b) / (#2 * dy)))
      (rd (var Dxy1) (fun a => rd (var Dxy2) (fun b => Wr (Psixy, k, l) (D ((a + b) / #2)) Ret)))))))) end.
(** AdvectionPointCalcs.h:380-381: the variables come into existence uninitialised *)
Definition mixed_vars (m : mem T) : mem T :=
  fold_right (fun a m => alloc a 1 1 Undef m) m [Dxy1; Dxy2; D1; D2; D3; D4].
(** AdvectionPointCalcs.h:377-436 update_mixed_derivatives (:439-495 with columns [lo,hi)) *)
Definition update_mixed_derivatives (nx ny : Z) (dx dy : T) (lo hi : Z) : list (prog T) :=
  map (mixed_body nx ny dx dy) (nodes ny lo hi).

(** The parameters set at the top of the mains: GALS_Advection.cpp:45-59, Setting.h:9-29 *)
Record settings := mkSet { s_xlim1 : T; s_xlim2 : T; s_nx : Z; s_ylim1 : T; s_ylim2 : T; s_ny : Z;
  s_dt : T; s_Tfinal : T; s_Tp : T; s_option : Z; s_printstep : Z; s_psischeme : string; s_backtrace : string }.
Definition s_rk3 (s : settings) : bool := is_rk3 (s_backtrace s).
(** GALS_Advection.cpp:69-70 *)
Definition s_dx (s : settings) : T := (s_xlim2 s - s_xlim1 s) / #(u32 (s_nx s - 1)).
Definition s_dy (s : settings) : T := (s_ylim2 s - s_ylim1 s) / #(u32 (s_ny s - 1)).

(** GALS_Advection.cpp:151-158: copies into the master arrays *)
Definition feed_back (m : mem T) : mem T :=
  assign MPsixy Psixy (assign MPsiy Psiy (assign MPsix Psix (assign MPhi Phi m))).
(** GALS_Advection.cpp:117-158 (whole = false) and GALS_Advection_OpenMP.cpp:128-155 run serially
    (whole = true, advection_point_MPI over all columns). *)
Definition step (whole : bool) (F : flow T) (s : settings) (t : Z) (m : mem T) : outcome (mem T) :=
  let nx := s_nx s in let ny := s_ny s in
  let m := alloc Yadv ny nx (D #0) (alloc Xadv ny nx (D #0) (alloc Tracker ny nx (U 0) m)) in
  m <- runs (if whole then advection_point_MPI F (s_rk3 s) t (s_dt s) (s_Tp s) ny 0 nx
             else advection_point F (s_rk3 s) t (s_dt s) (s_Tp s) nx ny) m ;;
  let m := alloc Celly ny nx (U 0) (alloc Cellx ny nx (U 0) m) in
  m <- runs (find_advection_point_location_MPI nx ny (s_xlim1 s) (s_xlim2 s) (s_ylim1 s) (s_ylim2 s) 0 nx) m ;;
  m <- runs (update_levelset_data F (s_psischeme s) (s_rk3 s) t (s_dt s) (s_Tp s) ny 0 nx) m ;;
  m <- runs (update_mixed_derivatives nx ny (s_dx s) (s_dy s) 0 nx) (mixed_vars m) ;;
  Ok (feed_back m).

(** GALS_Advection.cpp:64-66: the quotient truncated to unsigned int; undefined when it does not fit *)
Definition step_count (s : settings) : outcome Z :=
  let q := s_Tfinal s / s_dt s in
  let n := if q <? #0 then (- nfloor (#0 - q)%num)%Z else nfloor q in
  if ((0 <=? n) && (n <=? 4294967295))%Z%bool then Ok n else UB FloatToInt.
Definition print_every (s : settings) (n : Z) : Z := if (s_option s =? 1)%Z then s_printstep s else n.

(** GALS_Advection.cpp:72-78 *)
Definition setup {TG : Trig T} (s : settings) : outcome (mem T) :=
  m <- gridnodes (s_xlim1 s) (s_ylim1 s) (s_dx s) (s_dy s) (s_nx s) (s_ny s) (fun _ => None) ;;
  m <- allocate_levelset_matrices (s_nx s) (s_ny s) m ;;
  Ok (assign Psixy MPsixy (assign Psiy MPsiy (assign Psix MPsix (assign Phi MPhi m)))).

(** GALS_Advection.cpp:115-176: one step after the other; after step t+1 the arrays are printed
    when (t+1) % printstep == 0 (:164); printstep 0 is a division by zero.  The printed state is
    represented by the memory and the time, see ModelRefPrint for the text. *)
Fixpoint time_steps (whole : bool) (F : flow T) (s : settings) (every t : Z) (left_ : nat) (m : mem T)
  (out : list (T * mem T)) : outcome (mem T * list (T * mem T)) :=
  match left_ with
  | O => Ok (m, out)
  | S left' =>
      m <- step whole F s t m ;;
      if (every =? 0)%Z then UB DivByZero else
      let out := if (u32 (t + 1) mod every =? 0)%Z then out ++ [(time_at (t + 1) (s_dt s), m)] else out in
      time_steps whole F s every (t + 1) left' m out
  end.
(** GALS_Advection.cpp:42-192; the result is the list of printed states *)
Definition main_ {TG : Trig T} (whole : bool) (F : flow T) (s : settings) : outcome (mem T * list (T * mem T)) :=
  n <- step_count s ;;
  m <- setup s ;;
  time_steps whole F s (print_every s n) 0 (Z.to_nat n) m [(#0, m)].
End Ref.
Arguments settings T : clear implicits.
