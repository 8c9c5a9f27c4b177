(** What a program that uses InputFields objects sees if each object is a value of its own, and what a parse stores. *)
From Coq Require Import ZArith List String.
From Verif Require Import Base Num ModelVec ModelAnalytic ModelParser SpecParser ModelOwner.
Import ListNotations.
Open Scope Z_scope.

(** the values of one object *)
Definition values (T : Type) : Type := sec -> cell T.
Definition set_value {T} (fs : values T) (s : sec) (f : fld) (x : value T) : values T :=
  fun s' f' => if (sec_eqb s s' && fld_eqb f f')%bool then Some x else fs s' f'.
(** the members of each record *)
Definition members (s : sec) : list fld :=
  match s with
  | SGeneral => [output_directory]
  | SGrid => [x_min; x_max; y_min; y_max; z_min; z_max; nx; ny; nz]
  | STime => [start; end_; dt; constant_dt]
  | SVelocity => [name; vector; center; gradient_scheme]
  | SLevelset => [name; center; radius; gradient_scheme]
  end.

Section Owner.
Context {T : Type} {NT : Num T} (dbl : string -> option T) (int : string -> option Z) (nul : option string) (bt : bool).
(** what the document gives for each member, in the order in which the members are filled *)
Definition entries (doc : yaml) : list (sec * fld * outcome (value T)) :=
  match doc with
  | YMap kvs => flat_map (fun s => match entry kvs (sec_key s) with
      | None => [] | Some y => map (fun l => (s, fst l, snd l (Some y))) (lines dbl int nul bt s) end) secs
  | YScalar _ => [(SGeneral, output_directory, Throw)]
  | YNull | YSeq _ => []
  end.
(** members are filled until one cannot be *)
Fixpoint fill (es : list (sec * fld * outcome (value T))) (fs : values T) : values T * outcome unit :=
  match es with
  | [] => (fs, Ok tt)
  | (s, f, Ok x) :: es' => fill es' (set_value fs s f x)
  | (_, _, UB e) :: _ => (fs, UB e) | (_, _, Exit n) :: _ => (fs, Exit n) | (_, _, Throw) :: _ => (fs, Throw)
  end.
(** all the members of a list of entries that could be read *)
Definition filled (es : list (sec * fld * value T)) (fs : values T) : values T := fold_left (fun fs e => set_value fs (fst (fst e)) (snd (fst e)) (snd e)) es fs.

(** what a new object holds: text is empty, lists are empty, the vector is zero, numbers are indeterminate *)
Definition initial (s : sec) (f : fld) : option (value T) :=
  match f with
  | output_directory => match s with SGeneral => Some (VStr ""%string) | _ => None end
  | constant_dt => match s with STime => Some (VStr ""%string) | _ => None end
  | name | gradient_scheme => match s with SVelocity | SLevelset => Some (VStr ""%string) | _ => None end
  | vector => match s with SVelocity => Some (VList []) | _ => None end
  | center => match s with SVelocity => Some (VList []) | SLevelset => Some (VVec (V3 (nofZ 0) (nofZ 0) (nofZ 0))) | _ => None end
  | _ => None
  end.
(** programs over objects that are values *)
Definition find_var (e : list (Z * values T)) (v : Z) : outcome (values T) :=
  match find (fun a => fst a =? v) e with Some (_, fs) => Ok fs | None => UB Dangling end.
Definition without (e : list (Z * values T)) (v : Z) : list (Z * values T) := filter (fun a => negb (fst a =? v)) e.
Definition value_exec (e : list (Z * values T)) (a : op) : outcome (list (Z * values T) * list (seen (T := T))) :=
  match a with
  | Make v => match find_var e v with Ok _ => UB Dangling | _ => Ok ((v, new_cell) :: e, []) end
  | Copy v v' => match find_var e v with Ok _ => UB Dangling | _ => fs <- find_var e v' ;; Ok ((v, fs) :: e, []) end
  | Assign v v' => do_ find_var e v ;; fs <- find_var e v' ;; Ok (map (fun a => if fst a =? v then (v, fs) else a) e, [])
  | Parse v doc => fs <- find_var e v ;;
      let put_back fs := map (fun a => if fst a =? v then (v, fs) else a) e in
      match fill (entries doc) fs with
      | (fs', Ok _) => Ok (put_back fs', [Parsed])
      | (fs', Throw) => Ok (put_back fs', [Failed])
      | (_, UB e) => UB e | (_, Exit n) => Exit n
      end
  | Read v s f => fs <- find_var e v ;; match fs s f with Some x => Ok (e, [Saw x]) | None => UB Uninitialised end
  | Destroy v => do_ find_var e v ;; Ok (without e v, [])
  end.
Fixpoint value_program (e : list (Z * values T)) (l : list op) : outcome (list (Z * values T) * list (seen (T := T))) :=
  match l with
  | [] => Ok (e, [])
  | a :: l' => r <- value_exec e a ;; r' <- value_program (fst r) l' ;; Ok (fst r', (snd r ++ snd r')%list)
  end.
(** what is seen *)
Definition sights {W} (r : outcome (W * list (seen (T := T)))) : outcome (list (seen (T := T))) := omap snd r.
Definition copy_free (l : list op) : Prop := Forall (fun a => match a with Copy _ _ | Assign _ _ => False | _ => True end) l.

(** the object o of the heap h exists and holds the values fs *)
Definition owns (h : heap (T := T)) (o : handle) (fs : values T) : Prop :=
  (forall s f, omap (fun c => c f) (load h (o s)) = Ok (fs s f)) /\ NoDup (map o secs).

(** the values are those of the records of ModelParser; an indeterminate record claims nothing *)
Definition holds (fs : values T) (x : input_fields T) : Prop :=
  fs SGeneral output_directory = Some (VStr (if_general x)) /\
  (forall g, if_grid x = Some g -> fs SGrid x_min = Some (VNum (vx (gi_min g))) /\ fs SGrid x_max = Some (VNum (vx (gi_max g))) /\
     fs SGrid y_min = Some (VNum (vy (gi_min g))) /\ fs SGrid y_max = Some (VNum (vy (gi_max g))) /\
     fs SGrid z_min = Some (VNum (vz (gi_min g))) /\ fs SGrid z_max = Some (VNum (vz (gi_max g))) /\
     fs SGrid nx = Some (VInt (vx (gi_n g))) /\ fs SGrid ny = Some (VInt (vy (gi_n g))) /\ fs SGrid nz = Some (VInt (vz (gi_n g)))) /\
  (forall t, if_time x = Some t -> fs STime start = Some (VNum (ti_start t)) /\ fs STime end_ = Some (VNum (ti_end t)) /\
     fs STime dt = Some (VNum (ti_dt t)) /\ fs STime constant_dt = Some (VStr (ti_constant_dt t))) /\
  (fs SVelocity name = Some (VStr (vi_name (if_vel x))) /\ fs SVelocity vector = Some (VList (vi_vector (if_vel x))) /\
     fs SVelocity center = Some (VList (vi_center (if_vel x))) /\ fs SVelocity gradient_scheme = Some (VStr (vi_scheme (if_vel x)))) /\
  (forall l, if_ls x = Some l -> fs SLevelset name = Some (VStr (li_name l)) /\ fs SLevelset center = Some (VVec (li_center l)) /\
     fs SLevelset radius = Some (VNum (li_radius l)) /\ fs SLevelset gradient_scheme = Some (VStr (li_scheme l))).
End Owner.
