(** Property C143: after a full period the exact level set is back at its start, so Readfiles.m measures the error of the run. *)
From Coq Require Import ZArith List String Reals.
From Verif Require Import Base Num NumB64 ModelVec SpecGradient ModelRefMath ModelRefMem ModelRef ModelRefPrint SpecRef SpecRefRun SpecRefPrint SpecRefOrder SpecRefSolve SpecRefExist
  ModelReadfiles SpecReadfiles ProofsRefSolveCases ProofsRefExist ProofsRefReverse.
Open Scope R_scope.

(** In a flow that reverses, a solution passes in the second half of the period through its states of the first half, in the opposite order. *)
Theorem C143_reversal : forall (F : flow R) Tp V K u x y s, graded_velocity 2 V K F Tp -> reverses F Tp -> s <= Tp / 2 -> solves F Tp s (Tp - s) u -> u x y (Tp - s) = u x y s.
Proof. exact reversed. Qed.
Print Assumptions C143_reversal.

(** The swirling flow of the programs does this. *)
Theorem C143_vortex_returns : forall Tp u x y s, Tp <> 0 -> s <= Tp / 2 -> solves vortex Tp s (Tp - s) u -> u x y (Tp - s) = u x y s.
Proof. exact vortex_returns. Qed.
Print Assumptions C143_vortex_returns.

(** So when the last printed state of a run is that at the end of the period, the error shown by Readfiles.m (C138) is, to ten decimals, not larger than the
    largest error of the computed level set at a node. *)
Theorem C143_reported_error : forall whole s n sh u d, 0 < s_Tp s -> shown_well whole vortex s n sh ->
  let q := (Z.to_nat (n / print_every s n) * Z.to_nat (print_every s n))%nat in INR q * s_dt s = s_Tp s ->
  solves vortex (s_Tp s) 0 (s_Tp s) u -> (forall x y, u x y 0 = initialize x y) ->
  (forall i j, (0 <= i < s_ny s)%Z -> (0 <= j < s_nx s)%Z -> Rabs (file_value whole vortex s FPhi q i j - u (node_x s j) (node_y s i) (INR q * s_dt s)) <= d) ->
  sh_e sh <= d + / 10 ^ 10.
Proof. exact reported. Qed.
Print Assumptions C143_reported_error.
(** The settings of the program meet the hypotheses; there is a solution. *)
Example C143_case : 0 < s_Tp gals_s /\ (IZR 256 <= s_Tfinal gals_s / s_dt gals_s < IZR 256 + 1) /\ print_every gals_s 256 = 16%Z /\ (2 * (256 mod 16) < 16)%Z /\
  INR (Z.to_nat (256 / print_every gals_s 256) * Z.to_nat (print_every gals_s 256)) * s_dt gals_s = s_Tp gals_s /\
  exists u, solves vortex (s_Tp gals_s) 0 (s_Tp gals_s) u /\ forall x y, u x y 0 = initialize x y.
Proof. exact reported_case. Qed.
