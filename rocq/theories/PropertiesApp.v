(** Properties C41-C45, C74: the advection application. *)
From Coq Require Import ZArith List String Reals Lra.
From Flocq Require Import Core BinarySingleNaN.
From Verif Require Import Base Num NumB64 ModelVec ModelGrid ModelArray ModelAnalytic ModelParser ModelFiles ModelApp
  SpecGrid SpecInterp SpecApp SpecB64 ProofsApp ProofsB64Time.
Open Scope R_scope.

(** *** C41 *)
Theorem C41_terminates : forall ov bt fs (g : grid R) pos s ti, if_time fs = Some ti -> 0 < app_dt g ti ->
  exists N, first_reaching (app_dt g ti) (ti_end ti) N /\ forall fuel, (N <= fuel)%nat ->
    app_loop fuel ov bt fs g pos s =
    Some (bind (run_from (app_iteration ov bt g (if_vel fs) pos (app_dt g ti)) (app_dt g ti) 0 N s)
               (fun s' => Ok (INR N * app_dt g ti, Z.of_nat N, s'))).
Proof. exact app_terminates. Qed.
Print Assumptions C41_terminates.
Theorem C41_any_body : forall S (body : R -> S -> outcome S) dt t_end, 0 < dt -> exists N, first_reaching dt t_end N /\
  forall fuel s, (N <= fuel)%nat -> time_loop fuel body dt t_end 0 0 s =
    Some (bind (run_from body dt 0 N s) (fun s' => Ok (INR N * dt, Z.of_nat N, s'))).
Proof. exact @loop_R. Qed.
Print Assumptions C41_any_body.
Example C41_example : first_reaching (/ 4) 1 4.
Proof. exact reach_case. Qed.

(** *** C42: holds unless dx = dy < dz *)
Theorem C42_cfl_partial : forall ov dim n pad bmin bmax (g : grid R) ti,
  built ov dim n pad bmin bmax g -> ti_constant_dt ti = "NO"%string ->
  let h a := spacing (vget bmin a) (vget bmax a) (vget n a) in
  h AX <> h AY \/ h AZ <= h AX -> forall a, app_dt g ti <= h a / 2.
Proof. exact cfl_ok. Qed.
Print Assumptions C42_cfl_partial.
Theorem C42_cfl_refuted : forall ov dim n pad bmin bmax (g : grid R) ti,
  built ov dim n pad bmin bmax g -> ti_constant_dt ti = "NO"%string ->
  let h a := spacing (vget bmin a) (vget bmax a) (vget n a) in
  h AX = h AY -> h AX < h AZ -> app_dt g ti = h AZ / 2 /\ h AX / 2 < app_dt g ti.
Proof. exact cfl_tie. Qed.
Print Assumptions C42_cfl_refuted.
Example C42_example : exists g, built Trap 2 (gi_n gi_case) 1 (gi_min gi_case) (gi_max gi_case) g /\
  app_dt g ti_case = 1 /\ vget (g_dx g) AX = / 5.
Proof. exact cfl_case. Qed.

(** *** C43: the start time has no effect *)
Theorem C43_start_refuted : forall ov bt fs (g : grid R) pos s ti, if_time fs = Some ti -> 0 < app_dt g ti ->
  app_dt g ti + / 10000000000 < ti_start ti -> ti_start ti <= ti_end ti ->
  exists N, (ti_end ti - ti_start ti) + app_dt g ti < INR N * app_dt g ti /\ forall fuel, (N <= fuel)%nat ->
    app_loop fuel ov bt fs g pos s =
    Some (bind (run_from (app_iteration ov bt g (if_vel fs) pos (app_dt g ti)) (app_dt g ti) 0 N s)
               (fun s' => Ok (INR N * app_dt g ti, Z.of_nat N, s'))).
Proof. exact start_overshoot. Qed.
Print Assumptions C43_start_refuted.
Theorem C43_start_ignored_refuted : forall T (NT : Num T) (TT : Trans T) fuel ov bt (fs : input_fields T) g pos s ti start, if_time fs = Some ti ->
  app_loop fuel ov bt (mkIF (if_general fs) (if_grid fs) (Some (mkTI start (ti_end ti) (ti_dt ti) (ti_constant_dt ti))) (if_vel fs) (if_ls fs)) g pos s =
  app_loop fuel ov bt fs g pos s.
Proof. exact @start_ignored. Qed.
Print Assumptions C43_start_ignored_refuted.

Example C43_example : forall g : grid R, let ti := mkTI 2 3 (/ 4) "YES" in
  0 < app_dt g ti /\ app_dt g ti + / 10000000000 < ti_start ti /\ ti_start ti <= ti_end ti.
Proof. intros g. cbn. repeat split; lra. Qed.

(** *** C44: the set-up is defined; the first iteration always reads out of bounds *)
Theorem C44_setup_partial : forall T (NT : Num T) (TT : Trans T) ov (fs : input_fields T) gi, if_grid fs = Some gi -> usable_grid ov gi ->
  exists g pos s, app_setup ov fs = Ok (g, pos, s) /\ built ov 2 (gi_n gi) 1 (gi_min gi) (gi_max gi) g /\ array_on g pos /\
    (forall i j k, padded_cell 2 (gi_n gi) 1 (i, j, k) -> exists p, node ov g i j k = Ok p /\ aget ov g pos i j k = Ok p) /\
    ap_vel s = ls_velocity_ctor g /\ ap_map s = vel_map0 /\ levelset_on g (ap_ls s) /\
    (forall li, if_ls fs = Some li -> li_name li = "CIRCLE"%string -> forall i j k, interior_cell (gi_n gi) (i, j, k) ->
       exists p, node ov g i j k = Ok p /\ aget ov g (ls_phi (ap_ls s)) i j k = Ok (vmag (vsub p (li_center li)) - li_radius li)%num) /\
    ((forall li, if_ls fs = Some li -> li_name li <> "CIRCLE"%string) -> ap_ls s = levelset_ctor g).
Proof. exact @setup_ok. Qed.
Print Assumptions C44_setup_partial.
Theorem C44_loop_refuted : forall T (NT : Num T) (TT : Trans T) ov (fs : input_fields T) gi ti,
  if_grid fs = Some gi -> if_time fs = Some ti -> usable_grid ov gi ->
  exists g pos s, app_setup ov fs = Ok (g, pos, s) /\ forall fuel, app_loop (S fuel) ov true fs g pos s = Some (UB OutOfBounds).
Proof. exact @app_oob. Qed.
Print Assumptions C44_loop_refuted.
Theorem C44_main_refuted : forall T (NT : Num T) (TT : Trans T) fuel ov to_double to_int nul fmt file d disk (fs : input_fields T) gi ti,
  fileExists fu_new disk file = true -> parse to_double to_int nul true d fields0 = Ok fs ->
  if_grid fs = Some gi -> if_time fs = Some ti -> usable_grid ov gi ->
  app_main (S fuel) ov true to_double to_int nul fmt (Some file) (Some d) disk = Some (UB OutOfBounds).
Proof. exact @main_oob. Qed.
Print Assumptions C44_main_refuted.
Example C44_example : usable_grid Trap gi_case.
Proof. exact (usable_case Trap). Qed.

(** *** C45: time gets as far as 2^53 times the power of two at or above dt, never further.  Every
    positive dt has one such power. *)
Theorem C45_step_size : forall dt : b64, 0 < real dt -> exists! q, bpow radix2 (q - 1) < real dt <= bpow radix2 q.
Proof. exact size_of_step. Qed.
Print Assumptions C45_step_size.
(** The loop ends when the end time is at most that limit, or equal to it up to the tolerance of the
    test.  Missing: all other end times, for which it does not end (next theorem). *)
Theorem C45_binary64_partial : forall S (body : b64 -> S -> outcome S) (dt te : b64) q s, total_body body ->
  is_finite dt = true -> is_finite te = true -> bpow radix2 (q - 1) < real dt <= bpow radix2 q ->
  let limit := bpow radix2 (q + 53) in
  real te <= limit \/ nearest (real te - limit) <= real VSMALL ->
  exists N r, INR N <= Rmax 0 (2 * real te / real dt) + 2 /\
    forall fuel, (N <= fuel)%nat -> time_loop fuel body dt te (nofZ 0) 0 s = Some (Ok r).
Proof. exact (fun S body dt te q s Hb Fd Fe Hd => time_exact body dt te q Hb Fd Fe Hd s). Qed.
Print Assumptions C45_binary64_partial.
Theorem C45_binary64_refuted : forall S (body : b64 -> S -> outcome S) (dt te : b64) q, total_body body ->
  is_finite dt = true -> is_finite te = true -> bpow radix2 (q - 1) < real dt <= bpow radix2 q ->
  let limit := bpow radix2 (q + 53) in
  limit < real te -> real VSMALL < nearest (real te - limit) ->
  forall fuel s, time_loop fuel body dt te (nofZ 0) 0 s = None.
Proof. exact (fun S body dt te q Hb Fd Fe Hd => time_stalls body dt te q Hb Fd Fe Hd). Qed.
Print Assumptions C45_binary64_refuted.
(** dt = 0.1: the limit is 2^50; 2^50 is reached, 2^51 is not *)
Example C45_example : let dt : b64 := b64_make 3602879701896397 (-55) in
  is_finite dt = true /\ bpow radix2 (-3 - 1) < real dt <= bpow radix2 (-3).
Proof. exact tenth. Qed.
Example C45_example_stops : let te : b64 := b64_make 1 50 in is_finite te = true /\ real te <= bpow radix2 (-3 + 53).
Proof. exact tenth_stops. Qed.
Example C45_example_refuted : let te : b64 := b64_make 1 51 in is_finite te = true /\ bpow radix2 (-3 + 53) < real te /\
  real VSMALL < nearest (real te - bpow radix2 (-3 + 53)).
Proof. exact tenth_stalls. Qed.

(** *** C74 *)
Theorem C74_nonpositive_dt : forall S (body : R -> S -> outcome S) dt t_end s, dt <= 0 -> / 10000000000 < t_end -> total_body body ->
  forall fuel, time_loop fuel body dt t_end 0 0 s = None.
Proof. exact @loop_nonpositive0. Qed.
Print Assumptions C74_nonpositive_dt.
Example C74_example : total_body (fun (t : R) (s : R) => Ok (s + t)) /\ 0 <= 0 /\ / 10000000000 < 1.
Proof. split; [intros t s; eexists; reflexivity|split; [apply Rle_refl|lra]]. Qed.
