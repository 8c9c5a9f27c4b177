(** Model of the pointwise functions of the reference code in src/reference/
    (the headers of src/reference/SerialCode are identical copies).

    Simplifications: pow(a,2) and pow(a,3) are products, pow(a,0) is 1 and pow(a,1) is a;
    unary minus is subtraction from 0. *)
From Coq Require Import ZArith Reals String List.
From Verif Require Import Base Num NumB64 ModelVec.
Open Scope num_scope.

(** sin, cos, exp of <math.h> *)
Class Trig (T : Type) := { nsin : T -> T; ncos : T -> T; nexp : T -> T }.
#[global] Instance TrigR : Trig R := { nsin := Rtrigo_def.sin; ncos := Rtrigo_def.cos; nexp := exp }.

(** conversion to unsigned int *)
Definition u32 (z : Z) : Z := (z mod 4294967296)%Z.

Section Math.
Context {T : Type} {NT : Num T}.

(** The six functions of VortexVelocity.h, arguments x y t T_period.  They are a parameter of
    everything below: the file says that it is to be replaced for other fields. *)
Record flow := mkFlow { Velx : T -> T -> T -> T -> T; Vely : T -> T -> T -> T -> T;
  gradUx : T -> T -> T -> T -> T; gradUy : T -> T -> T -> T -> T; gradVx : T -> T -> T -> T -> T; gradVy : T -> T -> T -> T -> T }.

(** VortexVelocity.h:16-50; pi is Constants.h:9 *)
Definition vortex {TT : Trans T} {TG : Trig T} : flow :=
  mkFlow
    (fun x y t Tp => sqr (nsin (npi * x)) * nsin (#2 * npi * y) * ncos (npi * t / Tp))
    (fun x y t Tp => (#0 - sqr (nsin (npi * y))) * nsin (#2 * npi * x) * ncos (npi * t / Tp))
    (fun x y t Tp => npi * nsin (#2 * npi * y) * nsin (#2 * npi * x) * ncos (npi * t / Tp))
    (fun x y t Tp => #2 * npi * sqr (nsin (npi * x)) * ncos (#2 * npi * y) * ncos (npi * t / Tp))
    (fun x y t Tp => #(-2) * npi * sqr (nsin (npi * y)) * ncos (#2 * npi * x) * ncos (npi * t / Tp))
    (fun x y t Tp => (#0 - npi) * nsin (#2 * npi * y) * nsin (#2 * npi * x) * ncos (npi * t / Tp)).

(** Constants.h:10-12 *)
Definition init_xo : T := #1 / #2.
Definition init_yo : T := #3 / #4.
Definition rcircle : T := #15 / #100.
(** InitializeLevelSet.h:13-32 *)
Definition bump {TG : Trig T} (x y : T) : T := nexp (#0 - (sqr (x - init_xo) + sqr (y - init_yo))).
Definition initialize {TG : Trig T} (x y : T) : T := bump x y - nexp (#0 - sqr rcircle).
Definition derivxinit {TG : Trig T} (x y : T) : T := #(-2) * (x - init_xo) * bump x y.
Definition derivyinit {TG : Trig T} (x y : T) : T := #(-2) * (y - init_yo) * bump x y.
Definition derivxyinit {TG : Trig T} (x y : T) : T := #4 * (y - init_yo) * (x - init_xo) * bump x y.

(** Hermite.h:24-37 (and :39-52, :79-92, :105-118): switch(2 * alpha + v + 1).
    Simplification: alpha and v, only ever 0 or 1, are booleans. *)
Definition bp1 (alpha v : bool) (eta : T) : T :=
  match alpha, v with
  | false, false => #1 - #3 * sqr eta + #2 * cube eta
  | false, true => #(-2) * cube eta + #3 * sqr eta
  | true, false => cube eta - #2 * sqr eta + eta
  | true, true => cube eta - sqr eta
  end.
(** Hermite.h:64-77 (and :120-133) *)
Definition gradbp1 (alpha v : bool) (eta : T) : T :=
  match alpha, v with
  | false, false => #(-6) * eta + #6 * sqr eta
  | false, true => #(-6) * sqr eta + #6 * eta
  | true, false => #3 * sqr eta - #4 * eta + #1
  | true, true => #3 * sqr eta - #2 * eta
  end.
(** Hermite.h:18-56 *)
Definition basepolynomial (x y : T) (alphax alphay v_x v_y : bool) (dx dy xo yo : T) : T :=
  let etax := (x - xo) / dx in let etay := (y - yo) / dy in
  bp1 alphax v_x etax * bp1 alphay v_y etay.
(** Hermite.h:58-97 *)
Definition gradbpx (x y : T) (alphax alphay v_x v_y : bool) (dx dy xo yo : T) : T :=
  let etax := (x - xo) / dx in let etay := (y - yo) / dy in
  gradbp1 alphax v_x etax * bp1 alphay v_y etay.
(** Hermite.h:99-138 *)
Definition gradbpy (x y : T) (alphax alphay v_x v_y : bool) (dx dy xo yo : T) : T :=
  let etax := (x - xo) / dx in let etay := (y - yo) / dy in
  bp1 alphax v_x etax * gradbp1 alphay v_y etay.

(** the four corner values of a cell, numbered as in GALS_Advection.cpp:95-109:
    0 = (i,j), 1 = (i,j+1), 2 = (i+1,j), 3 = (i+1,j+1), i along y and j along x *)
Record quad := mkQuad { q0 : T; q1 : T; q2 : T; q3 : T }.
(** Hermite.h:146-171: alphax, alphay and the array of round i *)
Definition rounds (phi psix psiy psixy : quad) : list (bool * bool * quad) :=
  [(false, false, phi); (false, true, psiy); (true, false, psix); (true, true, psixy)].
(** Hermite.h:173-198: vx, vy and d of round j *)
Definition corners (delta : quad) : list (bool * bool * T) :=
  [(false, false, q0 delta); (false, true, q2 delta); (true, false, q1 delta); (true, true, q3 delta)].
Definition pow01 (d : T) (alpha : bool) : T := if alpha then d else #1.
Definition hsum (term : bool -> bool -> bool -> bool -> T -> T) (phi psix psiy psixy : quad) : T :=
  fold_left (fun acc r => match r with (ax, ay, delta) =>
    fold_left (fun acc c => match c with (v_x, v_y, d) => acc + term ax ay v_x v_y d end) (corners delta) acc end)
    (rounds phi psix psiy psixy) #0.
(** Hermite.h:140-204 *)
Definition hp (phi psix psiy psixy : quad) (x y xo yo dx dy : T) : T :=
  hsum (fun ax ay v_x v_y d => pow01 dx ax * pow01 dy ay * basepolynomial x y ax ay v_x v_y dx dy xo yo * d)
    phi psix psiy psixy.
(** Hermite.h:206-270 *)
Definition hermx (phi psix psiy psixy : quad) (x y xo yo dx dy : T) : T :=
  hsum (fun ax ay v_x v_y d => pow01 dx ax * pow01 dy ay * gradbpx x y ax ay v_x v_y dx dy xo yo * d * (#1 / dx))
    phi psix psiy psixy.
(** Hermite.h:272-336 *)
Definition hermy (phi psix psiy psixy : quad) (x y xo yo dx dy : T) : T :=
  hsum (fun ax ay v_x v_y d => pow01 dx ax * pow01 dy ay * gradbpy x y ax ay v_x v_y dx dy xo yo * d * (#1 / dy))
    phi psix psiy psixy.
(** Hermite.h:339-346 *)
Definition hp1D (phi0 phi1 psix0 psix1 x xo dx : T) : T :=
  let etax := (x - xo) / dx in
  (#1 - #3 * sqr etax + #2 * cube etax) * phi0 + (#3 * sqr etax - #2 * cube etax) * phi1
  + (etax + cube etax - #2 * sqr etax) * psix0 + (cube etax - sqr etax) * psix1.

(** the times t * dt, (t + 1) * dt and t * dt + dt/2.0 for unsigned t *)
Definition time_at (t : Z) (dt : T) : T := #(u32 t) * dt.
Definition time_mid (t : Z) (dt : T) : T := time_at t dt + dt / #2.

(** the comparison strcmp("RK3",backtrace_scheme) == 0 *)
Definition is_rk3 (s : string) : bool := String.eqb "RK3" s.

(** AdvectionPointCalcs.h:68-90 (and :27-49): the arithmetic of the backward trace of one node,
    with the values assigned successively to xadv[i][j] and yadv[i][j]. *)
Definition euler_back (F : flow) (x y : T) (t : Z) (dt Tp : T) : T * T :=
  (x - Velx F x y (time_at (t + 1) dt) Tp * dt, y - Vely F x y (time_at (t + 1) dt) Tp * dt).
Definition second_back (F : flow) (x y xa ya : T) (t : Z) (dt Tp : T) : T * T :=
  let ux := Velx F x y (time_at (t + 1) dt) Tp in let vy := Vely F x y (time_at (t + 1) dt) Tp in
  let ux1 := Velx F xa ya (time_at t dt) Tp in let vy1 := Vely F xa ya (time_at t dt) Tp in
  (x - (dt / #2 * (#1 / #2 * ux + #1 / #2 * ux1)), y - (dt / #2 * (#1 / #2 * vy + #1 / #2 * vy1))).
Definition third_back (F : flow) (x y xa ya xb yb : T) (t : Z) (dt Tp : T) : T * T :=
  let c1 := #1 / #6 in let c2 := #1 / #6 in let c3 := #2 / #3 in
  let ux := Velx F x y (time_at (t + 1) dt) Tp in let vy := Vely F x y (time_at (t + 1) dt) Tp in
  let ux1 := Velx F xa ya (time_at t dt) Tp in let vy1 := Vely F xa ya (time_at t dt) Tp in
  let ux2 := Velx F xb yb (time_mid t dt) Tp in let vy2 := Vely F xb yb (time_mid t dt) Tp in
  (x - (dt * (c1 * ux + c2 * ux1 + c3 * ux2)), y - (dt * (c1 * vy + c2 * vy1 + c3 * vy2))).
Definition back_trace (F : flow) (rk3 : bool) (x y : T) (t : Z) (dt Tp : T) : T * T :=
  let a := euler_back F x y t dt Tp in
  if rk3 then let b := second_back F x y (fst a) (snd a) t dt Tp in third_back F x y (fst a) (snd a) (fst b) (snd b) t dt Tp
  else a.

(** TimeSteppingMethods.h:7-29 *)
Definition Heuns_internal (F : flow) (xnode ynode xadv yadv rootpsix rootpsiy : T) (t : Z) (dt Tp : T) : T * T :=
  let tn := time_at (t + 1) dt in let tr := time_at t dt in
  let uxn := gradUx F xnode ynode tn Tp in let uyn := gradUy F xnode ynode tn Tp in
  let vxn := gradVx F xnode ynode tn Tp in let vyn := gradVy F xnode ynode tn Tp in
  let uxr := gradUx F xadv yadv tr Tp in let uyr := gradUy F xadv yadv tr Tp in
  let vxr := gradVx F xadv yadv tr Tp in let vyr := gradVy F xadv yadv tr Tp in
  let px := rootpsix - dt * (uxr * rootpsix + vxr * rootpsiy) in
  let py := rootpsiy - dt * (uyr * rootpsix + vyr * rootpsiy) in
  let px' := rootpsix - #1 / #2 * dt * (uxr * rootpsix + vxr * rootpsiy + uxn * px + vxn * py) in
  let py' := rootpsiy - #1 / #2 * dt * (uyr * rootpsix + vyr * rootpsiy + uyn * px' + vyn * py) in
  (px', py').
(** TimeSteppingMethods.h:31-46 *)
Definition Heuns_X (F : flow) (xnode ynode rootpsix rootpsiy psixy psix : T) (t : Z) (dt Tp : T) : T :=
  let t0 := time_at t dt in let t1 := time_at (t + 1) dt in
  let ux0 := gradUx F xnode ynode t0 Tp in let vx0 := gradVx F xnode ynode t0 Tp in
  let ux1 := gradUx F xnode ynode t1 Tp in let vx1 := gradVx F xnode ynode t1 Tp in
  let v0 := Vely F xnode ynode t0 Tp in let v1 := Vely F xnode ynode t1 Tp in
  let temp := rootpsix - dt * (vx0 * rootpsiy + v0 * psixy + ux0 * psix) in
  rootpsix - (dt / #2) * (vx0 * rootpsiy + v0 * psixy + ux0 * psix + vx1 * rootpsiy + v1 * psixy + ux1 * temp).
(** TimeSteppingMethods.h:48-63 *)
Definition Heuns_Y (F : flow) (xnode ynode rootpsix rootpsiy psixy psiy : T) (t : Z) (dt Tp : T) : T :=
  let t0 := time_at t dt in let t1 := time_at (t + 1) dt in
  let uy0 := gradUy F xnode ynode t0 Tp in let vy0 := gradVy F xnode ynode t0 Tp in
  let uy1 := gradUy F xnode ynode t1 Tp in let vy1 := gradVy F xnode ynode t1 Tp in
  let u0 := Velx F xnode ynode t0 Tp in let u1 := Velx F xnode ynode t1 Tp in
  let temp := rootpsiy - dt * (uy0 * rootpsix + u0 * psixy + vy0 * psiy) in
  rootpsiy - (dt / #2) * (uy0 * rootpsix + u0 * psixy + vy0 * psiy + uy1 * rootpsix + u1 * psixy + vy1 * temp).
(** TimeSteppingMethods.h:65-131 *)
Definition SuperConsistentScheme (F : flow) (rk3 : bool) (xnode ynode rootpsix rootpsiy : T) (t : Z) (dt Tp : T) : T * T :=
  let tn := time_at (t + 1) dt in let t0 := time_at t dt in let tm := time_mid t dt in
  let uxn := gradUx F xnode ynode tn Tp in let uyn := gradUy F xnode ynode tn Tp in
  let vxn := gradVx F xnode ynode tn Tp in let vyn := gradVy F xnode ynode tn Tp in
  let xr1x := #1 - dt * uxn in let xr1y := #0 - dt * uyn in
  let yr1x := #0 - dt * vxn in let yr1y := #1 - dt * vyn in
  if rk3 then
    let ux := Velx F xnode ynode tn Tp in let vy := Vely F xnode ynode tn Tp in
    let xr := xnode - ux * dt in let yr := ynode - vy * dt in
    let ux_1 := gradUx F xr yr t0 Tp in let uy_1 := gradUy F xr yr t0 Tp in
    let vx_1 := gradVx F xr yr t0 Tp in let vy_1 := gradVy F xr yr t0 Tp in
    let ux1 := Velx F xr yr t0 Tp in let vy1 := Vely F xr yr t0 Tp in
    let xr' := xnode - (dt / #2 * (#1 / #2 * ux + #1 / #2 * ux1)) in
    let yr' := ynode - (dt / #2 * (#1 / #2 * vy + #1 / #2 * vy1)) in
    let ux_2 := gradUx F xr' yr' tm Tp in let uy_2 := gradUy F xr' yr' tm Tp in
    let vx_2 := gradVx F xr' yr' tm Tp in let vy_2 := gradVy F xr' yr' tm Tp in
    let xr2x := #1 - dt / #4 * (uxn + xr1x * ux_1 + yr1x * uy_1) in
    let xr2y := #0 - dt / #4 * (uyn + xr1y * ux_1 + yr1y * uy_1) in
    let yr2x := #0 - dt / #4 * (vxn + xr1x * vx_1 + yr1x * vy_1) in
    let yr2y := #1 - dt / #4 * (vyn + xr1y * vx_1 + yr1y * vy_1) in
    let xrx := #1 - dt / #6 * (uxn + xr1x * ux_1 + yr1x * uy_1 + #4 * (xr2x * ux_2 + yr2x * uy_2)) in
    let xry := #0 - dt / #6 * (uyn + xr1y * ux_1 + yr1y * uy_1 + #4 * (xr2y * ux_2 + yr2y * uy_2)) in
    let yrx := #0 - dt / #6 * (vxn + xr1x * vx_1 + yr1x * vy_1 + #4 * (xr2x * vx_2 + yr2x * vy_2)) in
    let yry := #1 - dt / #6 * (vyn + xr1y * vx_1 + yr1y * vy_1 + #4 * (xr2y * vx_2 + yr2y * vy_2)) in
    (xrx * rootpsix + yrx * rootpsiy, xry * rootpsix + yry * rootpsiy)
  else (xr1x * rootpsix + yr1x * rootpsiy, xr1y * rootpsix + yr1y * rootpsiy).

(** std::lower_bound on a sorted range: the number of leading elements below v.
    Simplification: the position the C++ standard specifies, not the binary search; the probed
    elements all exist. *)
Fixpoint lower_bound (l : list T) (v : T) : Z :=
  match l with
  | [] => 0%Z
  | a :: l' => if a <? v then (1 + lower_bound l' v)%Z else 0%Z
  end.
End Math.
Arguments quad T : clear implicits.
Arguments flow T : clear implicits.
