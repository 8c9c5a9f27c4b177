(** What an input document says, independently of how it is parsed. *)
From Coq Require Import ZArith List String.
From Verif Require Import Base Num ModelVec ModelAnalytic ModelParser.
Import ListNotations.
Open Scope string_scope.

(** the value of a key in a mapping; the first one counts *)
Definition entry (l : list (string * yaml)) (key : string) : option yaml :=
  option_map snd (find (fun kv => String.eqb (fst kv) key) l).
(** the node reached by following keys *)
Fixpoint at_path (p : list string) (n : yaml) : option yaml :=
  match p with
  | [] => Some n
  | k :: p' => match n with YMap l => match entry l k with Some m => at_path p' m | None => None end | _ => None end
  end.
Definition scalar_at {A} (conv : string -> option A) p n (v : A) : Prop :=
  exists s, at_path p n = Some (YScalar s) /\ conv s = Some v.
(** [nul]: the text, if any, that the YAML library gives for a key without a value *)
Definition string_at (nul : option string) p n (s : string) : Prop :=
  at_path p n = Some (YScalar s) \/ (at_path p n = Some YNull /\ nul = Some s).
Definition list_at {A} (conv : string -> option A) p n (vs : list A) : Prop :=
  exists l, at_path p n = Some (YSeq l) /\ Forall2 (fun y v => exists s, y = YScalar s /\ conv s = Some v) l vs.

Section Says.
Context {T : Type} (dbl : string -> option T) (int : string -> option Z) (nul : option string).
Definition box_says n (lo hi : vec3 T) : Prop :=
  scalar_at dbl ["box"; "x_min"] n (vx lo) /\ scalar_at dbl ["box"; "x_max"] n (vx hi) /\
  scalar_at dbl ["box"; "y_min"] n (vy lo) /\ scalar_at dbl ["box"; "y_max"] n (vy hi) /\
  scalar_at dbl ["box"; "z_min"] n (vz lo) /\ scalar_at dbl ["box"; "z_max"] n (vz hi).
(** the list may be longer than three: the rest is ignored *)
Definition grid_says n (gi : grid_inputs T) : Prop :=
  box_says n (gi_min gi) (gi_max gi) /\
  exists more, list_at int ["cells"] n (vx (gi_n gi) :: vy (gi_n gi) :: vz (gi_n gi) :: more).
Definition time_says n (ti : time_inputs T) : Prop :=
  scalar_at dbl ["start"] n (ti_start ti) /\ scalar_at dbl ["end"] n (ti_end ti) /\ scalar_at dbl ["dt"] n (ti_dt ti) /\
  string_at nul ["constant_dt"] n (ti_constant_dt ti).
Definition velocity_says n (vi : vel_inputs T) : Prop :=
  string_at nul ["name"] n (vi_name vi) /\ list_at dbl ["vector"] n (vi_vector vi) /\ list_at dbl ["center"] n (vi_center vi) /\
  string_at nul ["gradient"; "scheme"] n (vi_scheme vi).
Definition levelset_says n (li : ls_inputs T) : Prop :=
  string_at nul ["name"] n (li_name li) /\
  (exists more, list_at dbl ["center"] n (vx (li_center li) :: vy (li_center li) :: vz (li_center li) :: more)) /\
  scalar_at dbl ["radius"] n (li_radius li) /\ string_at nul ["gradient"; "scheme"] n (li_scheme li).
Definition general_says n (dir : string) : Prop := string_at nul ["output_directory"] n dir.

(** a section that is absent leaves the field alone, one that is present determines it *)
Definition sets {A} (kvs : list (string * yaml)) (key : string) (says : yaml -> A -> Prop) (old new : A) : Prop :=
  match entry kvs key with None => new = old | Some n => says n new end.
Definition some_of {A} (says : yaml -> A -> Prop) (n : yaml) (o : option A) : Prop := exists a, o = Some a /\ says n a.

Definition document_says (kvs : list (string * yaml)) (old new : input_fields T) : Prop :=
  sets kvs "general" general_says (if_general old) (if_general new) /\
  sets kvs "grid" (some_of grid_says) (if_grid old) (if_grid new) /\
  sets kvs "time" (some_of time_says) (if_time old) (if_time new) /\
  sets kvs "velocity" velocity_says (if_vel old) (if_vel new) /\
  sets kvs "levelset" (some_of levelset_says) (if_ls old) (if_ls new).
End Says.
