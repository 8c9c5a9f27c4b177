(** Vocabulary for the gradients of the reference programs in double arithmetic. *)
From Coq Require Import ZArith Reals.
From Flocq Require Import Core BinarySingleNaN.
From Verif Require Import Base Num NumB64 ModelVec ModelRefMath SpecGrid SpecB64 SpecRound SpecRefTraceRound.
Open Scope R_scope.

(** The derivatives of the velocity in double follow those in real numbers: at most H, accurate to eps H. *)
Definition gradients_track64 (G : flow b64) (F : flow R) (Tp : b64) (X H L W eps : R) : Prop :=
  tracks64 (gradUx G) (gradUx F) Tp X H L W eps /\ tracks64 (gradUy G) (gradUy F) Tp X H L W eps /\
  tracks64 (gradVx G) (gradVx F) Tp X H L W eps /\ tracks64 (gradVy G) (gradVy F) Tp X H L W eps.
(** How often eps enters the new gradient, relative to the old one. *)
Definition super_factor (rk3 : bool) : R := if rk3 then 131072 else 140.
(** The derivatives of the velocity in double are within eps H of the exact ones at the same place and time. *)
Definition gradients_near64 (G : flow b64) (F : flow R) (Tp : b64) (H eps : R) : Prop := forall a b s : b64, is_finite a = true -> is_finite b = true -> is_finite s = true ->
  let near (g : b64 -> b64 -> b64 -> b64 -> b64) (f : R -> R -> R -> R -> R) :=
    is_finite (g a b s Tp) = true /\ Rabs (real (g a b s Tp) - f (real a) (real b) (real s) (real Tp)) <= eps * H in
  near (gradUx G) (gradUx F) /\ near (gradUy G) (gradUy F) /\ near (gradVx G) (gradVx F) /\ near (gradVy G) (gradVy F).
