(** Vocabulary for several 1-D steps in double arithmetic. *)
From Coq Require Import ZArith Reals.
From Flocq Require Import Core BinarySingleNaN.
From Verif Require Import Base Num NumB64 ModelVec ModelGrid ModelArray SpecGrid SpecInterp SpecTemporal SpecB64 SpecRound.
Open Scope R_scope.

(** One step in double (time step, velocity) moves every particle along x by d, at most three quarters
    of a cell: finite doubles, velocity times time step is d in every interior cell, and the stored
    gradient of the velocity is 0. *)
Definition moves64 (ov : ovmode) (n : vec3 Z) (bmin bmax : vec3 b64) (g : grid b64) (s : b64 * ls_velocity b64) (d : R) : Prop :=
  velocity_on g (snd s) /\ is_finite (fst s) = true /\
  Rabs d <= 3 / 4 * spacing64 (vx bmin) (vx bmax) (vx n) /\
  forall i j k, interior_cell n (i, j, k) -> exists v m,
    aget ov g (lv_vel (snd s)) i j k = Ok v /\ aget ov g (lv_grad (snd s)) i j k = Ok m /\
    (forall a b, is_real (mget m a b) 0) /\ is_finite (vx v) = true /\ real (vx v) * real (fst s) = d.

(** In the cells from a to b of the line, phi and the x component of psi are finite doubles within ev of P
    and within es of S. *)
Definition near_line64 (ov : ovmode) (g : grid b64) (l : levelset b64) (P S : Z -> R) (a b : Z) (ev es : R) : Prop :=
  forall i, (a <= i <= b)%Z -> exists p y, aget ov g (ls_phi l) i 0 0 = Ok p /\ aget ov g (ls_psi l) i 0 0 = Ok y /\
    is_finite p = true /\ is_finite (vx y) = true /\ Rabs (real p - P i) <= ev /\ Rabs (real (vx y) - S i) <= es.
