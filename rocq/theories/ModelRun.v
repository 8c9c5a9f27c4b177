(** The time loop of a program that keeps the transported gradient.  The advection program
    (applications/advection/main.cc:137-159, modelled in ModelApp) recomputes psi from phi before
    every step; the library also lets a caller keep the psi that the step itself transports, which is
    the point of a gradient-augmented level set.  This is that loop. *)
From Coq Require Import ZArith List.
From Verif Require Import Base Num ModelVec ModelGrid ModelArray ModelInterp ModelTemporal.
Open Scope Z_scope.

Section Run.
Context {T : Type} {NT : Num T}.

(** applications/advection/main.cc:148-149  phi_prev = phi; psi_prev = psi;  (array.cc operator=).
    As there, the mixed derivatives are not touched (main.cc:151-153 is a TODO). *)
Definition keep_prev (l : levelset T) : levelset T :=
  let l1 := with_phi_prev l (array_assign (ls_phi_prev l) (ls_phi l)) in
  with_psi_prev l1 (array_assign (ls_psi_prev l1) (ls_psi l1)).

(** main.cc:148-157 once per entry of [sched]: the time step and the velocity of that step.
    Simplification: main.cc:141-147 (velocity of the step, gradient by finite differences) is left
    out; the velocities are given. *)
Definition sl_step ov (g : grid T) (l : levelset T) (s : T * ls_velocity T) : outcome (levelset T) :=
  sl_compute ov g (fst s) (snd s) (keep_prev l).
Definition sl_steps ov (g : grid T) (sched : list (T * ls_velocity T)) (l : levelset T) : outcome (levelset T) :=
  forM sched (sl_step ov g) l.
End Run.
