(** Model of src/cpu/analytical-fields. *)
From Coq Require Import ZArith List String.
From Verif Require Import Base Num NumB64 ModelVec ModelGrid ModelArray.
Open Scope Z_scope.

(** ** std::map<std::string, enum>, used through operator[] *)
Section NameMap.
Context {E : Type}.
Definition name_map := list (string * E).
Fixpoint map_find (m : name_map) (key : string) : option E :=
  match m with
  | [] => None
  | (k, v) :: m' => if String.eqb k key then Some v else map_find m' key
  end.
(** operator[]: a missing key is inserted with a value-initialised element *)
Definition map_index (dflt : E) (m : name_map) (key : string) : E * name_map :=
  match map_find m key with Some v => (v, m) | None => (dflt, (key, dflt) :: m) end.
End NameMap.
Arguments name_map : clear implicits.

(** include/gals/analytical-fields/levelset.h:50-54 *)
Inductive ls_name := LS_NOT_DEFINED | CIRCLE.
Definition ls_map0 : name_map ls_name := [("CIRCLE"%string, CIRCLE)].
(** include/gals/analytical-fields/velocity.h:50-54 *)
Inductive vel_name := VEL_NOT_DEFINED | CIRCULAR.
Definition vel_map0 : name_map vel_name := [("CIRCULAR"%string, CIRCULAR)].

(** include/gals/input-fields/levelset.h:40-45, velocity.h:40-45 *)
Record ls_inputs (T : Type) := mkLSI { li_name : string; li_center : vec3 T; li_radius : T; li_scheme : string }.
Arguments mkLSI {T}. Arguments li_name {T}. Arguments li_center {T}. Arguments li_radius {T}. Arguments li_scheme {T}.
Record vel_inputs (T : Type) := mkVI { vi_name : string; vi_vector : list T; vi_center : list T; vi_scheme : string }.
Arguments mkVI {T}. Arguments vi_name {T}. Arguments vi_vector {T}. Arguments vi_center {T}. Arguments vi_scheme {T}.

Section Analytic.
Context {T : Type} {NT : Num T} {TT : Trans T}.

(** vec3.cc:70-74 mag *)
Definition vmag (v : vec3 T) : T := nsqrt (vmag2 v).

(** levelset.cc:59-64, one cell; positions and level set on the same grid g *)
Definition circle_body ov (g : grid T) (inp : ls_inputs T) (pos : array (vec3 T))
    (l : levelset T) (c : Z * Z * Z) : outcome (levelset T) :=
  match c with (i, j, k) =>
    p <- aget ov g pos i j k ;;
    a <- aset ov g (ls_phi l) i j k (vmag (vsub p (li_center inp)) - li_radius inp)%num ;;
    Ok (with_phi l a)
  end.

(** levelset.cc:46-72 compute; [m] is the static name map, which the call may extend *)
Definition als_compute ov (g : grid T) (m : name_map ls_name) (inp : ls_inputs T)
    (pos : array (vec3 T)) (l : levelset T) : outcome (levelset T * name_map ls_name) :=
  match map_index LS_NOT_DEFINED m (li_name inp) with (name, m') =>
    match name with
    | CIRCLE => l' <- forM (interior (array_cells pos)) (circle_body ov g inp pos) l ;; Ok (l', m')
    | LS_NOT_DEFINED => Ok (l, m')
    end
  end.

(** velocity.cc:65 coeff; 3.15 = 63/20 *)
Definition circ_coeff : T := (npi / (nofZ 63 / nofZ 20))%num.

(** velocity.cc:71-74 the loop over cmpt < dim; center is a std::vector *)
Definition circ_node (dim : nat) (center : list T) (p vn : vec3 T) : outcome (vec3 T) :=
  forM (axes dim) (fun vn a =>
    match a with
    | AX => c <- vread center 0 ;; Ok (vset vn AX (circ_coeff * (c - vy p))%num)
    | AY => c <- vread center 1 ;; Ok (vset vn AY (circ_coeff * (vx p - c))%num)
    | AZ => Ok vn
    end) vn.

(** velocity.cc:68-77, one cell; velocity_node lives across the cells *)
Definition circ_body ov (g : grid T) (inp : vel_inputs T) (pos : array (vec3 T))
    (s : array (vec3 T) * vec3 T) (c : Z * Z * Z) : outcome (array (vec3 T) * vec3 T) :=
  match c with (i, j, k) =>
    p <- aget ov g pos i j k ;;
    vn <- circ_node (g_dim g) (vi_center inp) p (snd s) ;;
    a <- aset ov g (fst s) i j k vn ;;
    Ok (a, vn)
  end.

(** velocity.cc:88-91 velocity_gradient[cmpt][derv] = x: Array::operator[] picks slot number
    cmpt of the storage and Mat3::operator[] (mat3.cc:79-89) entry number derv of its nine,
    i.e. entry (0, derv) *)
Definition axis_no (a : axis) : Z := match a with AX => 0 | AY => 1 | AZ => 2 end.
Definition circ_grad_entry (ac : axis * axis) : option T :=
  match ac with
  | (AX, AX) => Some (nofZ 0)
  | (AX, AY) => Some (nofZ 0 - circ_coeff)%num
  | (AY, AX) => Some circ_coeff
  | (AY, AY) => Some (nofZ 0)
  | _ => None
  end.
Definition circ_grad_write (gr : array (mat3 T)) (ac : axis * axis) : outcome (array (mat3 T)) :=
  match circ_grad_entry ac with
  | None => Ok gr
  | Some x => old <- araw gr (axis_no (fst ac)) ;; araw_set gr (axis_no (fst ac)) (mset old AX (snd ac) x)
  end.
(** velocity.cc:83-94 *)
Definition circ_gradient (g : grid T) (cells : list (Z * Z * Z)) (gr : array (mat3 T)) : outcome (array (mat3 T)) :=
  forM cells (fun gr _ => forM (list_prod (axes (g_dim g)) (axes (g_dim g))) circ_grad_write gr) gr.

(** velocity.cc:49-103 compute (the parameter time is not used); [bt]: BUILD_TESTS defined *)
Definition av_compute ov (bt : bool) (g : grid T) (m : name_map vel_name) (inp : vel_inputs T)
    (pos : array (vec3 T)) (time : T) (lv : ls_velocity T) : outcome (ls_velocity T * name_map vel_name) :=
  match map_index VEL_NOT_DEFINED m (vi_name inp) with (name, m') =>
    match name with
    | CIRCULAR =>
        do_ if_macro bt (Nat.eqb (g_dim g) 1) ;;
        s <- forM (interior (array_cells pos)) (circ_body ov g inp pos) (lv_vel lv, vzero) ;;
        gr <- (if String.eqb (vi_scheme inp) "ANALYTICAL"
               then circ_gradient g (interior (array_cells pos)) (lv_grad lv) else Ok (lv_grad lv)) ;;
        Ok ({| lv_vel := fst s; lv_grad := gr |}, m')
    | VEL_NOT_DEFINED => Ok (lv, m')
    end
  end.
End Analytic.
