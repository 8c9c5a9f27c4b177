(** Vocabulary for the backward trace of the reference programs in double arithmetic. *)
From Coq Require Import ZArith Reals.
From Flocq Require Import Core BinarySingleNaN.
From Verif Require Import Base Num NumB64 ModelVec ModelRefMath SpecGrid SpecB64 SpecRound.
Open Scope R_scope.

(** The velocity component g in double follows the component f in real numbers: inside a box of half width 4 X the exact velocity is at most V, the
    computed velocity is finite, and the two differ by at most eps V, plus L times the distance of the positions, plus W times the distance of the times. *)
Definition tracks64 (g : b64 -> b64 -> b64 -> b64 -> b64) (f : R -> R -> R -> R -> R) (Tp : b64) (X V L W eps : R) : Prop :=
  forall (a b s : b64) (a' b' s' : R), is_finite a = true -> is_finite b = true -> is_finite s = true -> Rabs a' <= 4 * X -> Rabs b' <= 4 * X ->
  Rabs (f a' b' s' (real Tp)) <= V /\ is_finite (g a b s Tp) = true /\
  Rabs (real (g a b s Tp) - f a' b' s' (real Tp)) <= eps * V + L * (Rabs (real a - a') + Rabs (real b - b')) + W * Rabs (real s - s').
Definition flow_tracks64 (G : flow b64) (F : flow R) (Tp : b64) (X V L W eps : R) : Prop :=
  tracks64 (Velx G) (Velx F) Tp X V L W eps /\ tracks64 (Vely G) (Vely F) Tp X V L W eps.

(** How often the relative error eps of the velocity enters the traced position, in units of X. *)
Definition trace_factor (rk3 : bool) (c : R) : R := if rk3 then 44 + 78 * c + 68 * (c * c) + 29 * (c * c * c) else 7 + 7 * c.

(** The velocity in double is within eps V of the exact velocity F at the same place and time. *)
Definition flow_near64 (G : flow b64) (F : flow R) (Tp : b64) (V eps : R) : Prop := forall a b s : b64, is_finite a = true -> is_finite b = true -> is_finite s = true ->
  is_finite (Velx G a b s Tp) = true /\ is_finite (Vely G a b s Tp) = true /\
  Rabs (real (Velx G a b s Tp) - Velx F (real a) (real b) (real s) (real Tp)) <= eps * V /\ Rabs (real (Vely G a b s Tp) - Vely F (real a) (real b) (real s) (real Tp)) <= eps * V.
