(** Outcomes of C++ code, 32-bit integers, vectors and loops.

    This file contains no model of a particular function of /repo: it fixes how
    the C++ constructs used there are represented. *)
From Coq Require Export List ZArith Lia Bool.
Export ListNotations.

(** Why an execution is undefined behaviour. *)
Inductive ub : Type :=
| SignedOverflow      (* signed int arithmetic out of range *)
| OutOfBounds         (* std::vector / C array operator[] outside its size *)
| FloatToInt          (* conversion double -> int of an unrepresentable value *)
| DataRace            (* two unordered conflicting accesses *)
| Uninitialised      (* read of an indeterminate value *)
| DivByZero           (* integer division or remainder by zero *)
| Dangling.           (* use or deletion of an object that does not exist, access through a null pointer *)

(** Result of running a piece of C++ code: normal result, undefined behaviour,
    a call of exit(code), or an uncaught C++ exception. *)
Inductive outcome (A : Type) : Type :=
| Ok (a : A)
| UB (r : ub)
| Exit (code : Z)
| Throw.
Arguments Ok {A} a.
Arguments UB {A} r.
Arguments Exit {A} code.
Arguments Throw {A}.

Definition bind {A B} (o : outcome A) (f : A -> outcome B) : outcome B :=
  match o with Ok a => f a | UB r => UB r | Exit c => Exit c | Throw => Throw end.

Declare Scope out_scope.
Delimit Scope out_scope with out.
Notation "x <- e1 ;; e2" := (bind e1 (fun x => e2))
  (at level 61, e1 at next level, right associativity) : out_scope.
Notation "'do_' e1 ;; e2" := (bind e1 (fun _ => e2))
  (at level 61, e1 at next level, right associativity) : out_scope.
Open Scope out_scope.
Open Scope Z_scope.

Definition omap {A B} (f : A -> B) (o : outcome A) : outcome B :=
  bind o (fun a => Ok (f a)).

(** ** int: 32-bit signed *)
Definition INT_MAX : Z := 2147483647.
Definition INT_MIN : Z := -2147483648.

(** Overflow semantics: [Trap] is the C++ standard (overflow is undefined);
    [Wrap] is two's complement wrap-around, what the usual compilers emit. *)
Inductive ovmode := Trap | Wrap.

Definition wrap32 (z : Z) : Z := (z + 2147483648) mod 4294967296 - 2147483648.

Definition chk (ov : ovmode) (z : Z) : outcome Z :=
  if (INT_MIN <=? z) && (z <=? INT_MAX) then Ok z
  else match ov with Trap => UB SignedOverflow | Wrap => Ok (wrap32 z) end.

Definition iadd ov a b := chk ov (a + b).
Definition isub ov a b := chk ov (a - b).
Definition imul ov a b := chk ov (a * b).

(** conversion int -> std::size_t *)
Definition to_size_t (z : Z) : Z := z mod 18446744073709551616.

(** conversion of the result of floor(double) to int *)
Definition float_to_int (z : Z) : outcome Z :=
  if (INT_MIN <=? z) && (z <=? INT_MAX) then Ok z else UB FloatToInt.

(** ** std::vector *)
Definition vread {A} (l : list A) (idx : Z) : outcome A :=
  if 0 <=? idx then
    match nth_error l (Z.to_nat idx) with Some a => Ok a | None => UB OutOfBounds end
  else UB OutOfBounds.

Fixpoint lupd {A} (l : list A) (n : nat) (a : A) : list A :=
  match l, n with
  | [], _ => []
  | _ :: t, O => a :: t
  | h :: t, S m => h :: lupd t m a
  end.

Definition vwrite {A} (l : list A) (idx : Z) (a : A) : outcome (list A) :=
  if (0 <=? idx) && (idx <? Z.of_nat (length l)) then Ok (lupd l (Z.to_nat idx) a)
  else UB OutOfBounds.

(** ** Loops *)
(** for (int i = lo; i < hi; ++i) *)
Definition range (lo hi : Z) : list Z :=
  map (fun n => lo + Z.of_nat n) (seq 0 (Z.to_nat (hi - lo))).

(** body executed for each element in order, stopping at the first non-Ok *)
Fixpoint forM {A S} (l : list A) (body : S -> A -> outcome S) (s : S) : outcome S :=
  match l with
  | [] => Ok s
  | a :: l' => bind (body s a) (forM l' body)
  end.

(** the triple loop  for i in I, for j in J, for k in K  visits the cells in this order *)
Definition cells3 (I J K : list Z) : list (Z * Z * Z) :=
  flat_map (fun i => flat_map (fun j => map (fun k => (i, j, k)) K) J) I.

(** ** Axes of space *)
Inductive axis := AX | AY | AZ.
Definition axes (dim : nat) : list axis :=
  match dim with 1%nat => [AX] | 2%nat => [AX; AY] | _ => [AX; AY; AZ] end.
Definition axis_eqb (a b : axis) : bool :=
  match a, b with AX, AX | AY, AY | AZ, AZ => true | _, _ => false end.
