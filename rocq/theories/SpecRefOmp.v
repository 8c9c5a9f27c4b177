(** Independent vocabulary for the programs with threads. *)
From Coq Require Import ZArith List String Ascii DecimalString.
From Verif Require Import Base Num ModelRefMem ModelRef.
Open Scope Z_scope.

(** a number written in decimal, as a user types it *)
Definition decimal (n : Z) : string := NilEmpty.string_of_uint (N.to_uint (Z.to_N n)).
(** the same outcome, or both undefined (maybe for different reasons) *)
Definition alike {A} (r r' : outcome A) : Prop := r = r' \/ exists e e', r = UB e /\ r' = UB e'.
(** The characters the C library takes for white space: blank, tabulator, line feed, vertical tabulator, form feed, carriage return. *)
Definition blanks : list ascii := (" " :: "009" :: "010" :: "011" :: "012" :: "013" :: nil)%char.
Definition numerals : list ascii := ("0" :: "1" :: "2" :: "3" :: "4" :: "5" :: "6" :: "7" :: "8" :: "9" :: nil)%char.
Definition all_blank (s : string) : Prop := Forall (fun c => In c blanks) (list_ascii_of_string s).
(** the text does not begin with one of the characters *)
Definition begins_outside (l : list ascii) (s : string) : Prop := match s with EmptyString => True | String c _ => ~ In c l end.
