(** Model of applications/advection/main.cc. *)
From Coq Require Import ZArith List String.
From Verif Require Import Base Num NumB64 ModelVec ModelGrid ModelArray ModelInterp ModelGradient ModelTemporal
  ModelAnalytic ModelParser ModelOutput ModelFiles.
Open Scope Z_scope.

Section TimeLoop.
Context {T : Type} {NT : Num T} {S : Type}.
(** main.cc:158 *)
Definition stop_test (sim_time t_end : T) : bool := (is_equal sim_time t_end || (t_end <? sim_time)%num)%bool.
(** main.cc:138-159 with the loop body as a parameter; [None]: not finished within [fuel] iterations.
    Returns the final time, the number of iterations and the state. *)
Fixpoint time_loop (fuel : nat) (body : T -> S -> outcome S) (dt t_end sim_time : T) (count : Z) (s : S)
  : option (outcome (T * Z * S)) :=
  match fuel with
  | O => None
  | Datatypes.S fuel' =>
      let t := (sim_time + dt)%num in
      match body t s with
      | Ok s' => if stop_test t t_end then Some (Ok (t, count + 1, s'))
                 else time_loop fuel' body dt t_end t (count + 1) s'
      | UB r => Some (UB r)
      | Exit c => Some (Exit c)
      | Throw => Some Throw
      end
  end.
End TimeLoop.

Section App.
Context {T : Type} {NT : Num T} {TT : Trans T}.

(** main.cc:130,133-135 *)
Definition app_dt (g : grid T) (ti : time_inputs T) : T :=
  let is_dt_fixed := negb (String.eqb (ti_constant_dt ti) "NO") in
  if negb is_dt_fixed then (vmin (g_dx g) * half)%num else ti_dt ti.

(** main.cc:90-95 and 100-104 *)
Definition app_positions ov (g : grid T) : outcome (array (vec3 T)) :=
  let m := mask (g_dim g) in let n := num_cells g in let pad := g_pad g in
  forM (cells3 (range (- pad * vx m) (vx n + pad * vx m)) (range (- pad * vy m) (vy n + pad * vy m))
               (range (- pad * vz m) (vz n + pad * vz m)))
    (fun a c => match c with (i, j, k) => x <- node ov g i j k ;; aset ov g a i j k x end)
    (array_ctor g vzero).

(** what the loop body changes *)
Record app_state := mkApp { ap_vel : ls_velocity T; ap_ls : levelset T; ap_map : name_map vel_name }.

(** main.cc:142-156, one iteration *)
Definition app_iteration ov (bt : bool) (g : grid T) (vi : vel_inputs T) (pos : array (vec3 T)) (dt : T)
    (sim_time : T) (s : app_state) : outcome app_state :=
  vm <- av_compute ov bt g (ap_map s) vi pos sim_time (ap_vel s) ;;
  let l := ap_ls s in
  psi <- third_scalar ov g (ls_phi l) g (ls_psi l) ;;
  let l1 := with_psi l psi in
  let l2 := with_phi_prev l1 (array_assign (ls_phi_prev l1) (ls_phi l1)) in
  let l3 := with_psi_prev l2 (array_assign (ls_psi_prev l2) (ls_psi l2)) in
  l4 <- sl_compute ov g dt (fst vm) l3 ;;
  Ok (mkApp (fst vm) l4 (snd vm)).

(** main.cc:79-122: grid, positions, velocity, level set.  The grid section must have been
    parsed.  Without a levelset section the name is empty, so radius is not read. *)
Definition app_setup ov (fs : input_fields T) : outcome (grid T * array (vec3 T) * app_state) :=
  match if_grid fs with
  | None => UB Uninitialised
  | Some gi =>
      g0 <- grid_ctor ov 2 (vx (gi_n gi)) (vy (gi_n gi)) (vz (gi_n gi)) ;;
      g <- generate ov g0 (gi_min gi) (gi_max gi) ;;
      pos <- app_positions ov g ;;
      let li := match if_ls fs with Some li => li | None => mkLSI EmptyString vzero (nofZ 0) EmptyString end in
      lm <- als_compute ov g ls_map0 li pos (levelset_ctor g) ;;
      Ok (g, pos, mkApp (ls_velocity_ctor g) (fst lm) vel_map0)
  end.

(** main.cc:125-159: the time section and the loop; start is read into t_start, which is never used *)
Definition app_loop (fuel : nat) ov bt (fs : input_fields T) (g : grid T) (pos : array (vec3 T)) (s : app_state)
  : option (outcome (T * Z * app_state)) :=
  match if_time fs with
  | None => Some (UB Uninitialised)
  | Some ti =>
      let dt := app_dt g ti in
      time_loop fuel (app_iteration ov bt g (if_vel fs) pos dt) dt (ti_end ti) (nofZ 0) 0 s
  end.

(** main.cc:45-166.  [arg]: argv[1] if given.  [doc]: the document YAML::LoadFile gives for the
    file, None if it throws. *)
Definition app_main (fuel : nat) ov bt (to_double : string -> option T) (to_int : string -> option Z)
    (null_text : option string) (fmt : T -> string)
    (arg : option string) (doc : option yaml) (disk : fs) : option (outcome fs) :=
  match arg with
  | None => Some (Exit 0)
  | Some file =>
      if negb (fileExists fu_new disk file) then Some (Exit 0) else
      match doc with
      | None => Some Throw
      | Some d =>
          match parse to_double to_int null_text bt d fields0 with
          | Ok fs =>
              let u := setRootDirectory fu_new (if_general fs ++ "/") in
              match app_setup ov fs with
              | Ok (g, pos, s) =>
                  match app_loop fuel ov bt fs g pos s with
                  | Some (Ok (t, count, s')) =>
                      let disk1 := snd (createDirectory u disk (getRootDirectory u)) in
                      Some (text <- print_array fmt ov g (show_vec3 fmt) (lv_vel (ap_vel s')) ;;
                            Ok (fu_write u disk1 (getRootDirectory u ++ "velocity") text))
                  | Some (UB r) => Some (UB r)
                  | Some (Exit c) => Some (Exit c)
                  | Some Throw => Some Throw
                  | None => None
                  end
              | UB r => Some (UB r)
              | Exit c => Some (Exit c)
              | Throw => Some Throw
              end
          | UB r => Some (UB r)
          | Exit c => Some (Exit c)
          | Throw => Some Throw
          end
      end
  end.
End App.
