(** Property C154: the mixed derivatives of the reference program in double arithmetic. *)
From Coq Require Import ZArith List String Reals.
From Coquelicot Require Import Derive_2d.
From Flocq Require Import Core BinarySingleNaN.
From Verif Require Import Base Num NumB64 ModelVec ModelRefMath ModelRefMem ModelRef SpecGrid SpecGradient SpecB64 SpecRound SpecRef SpecRefRun SpecRefOrder SpecRefStep SpecRefSolve SpecRefGrad SpecRefRound SpecRefTraceRound SpecRefStepRound SpecRefSuperRound SpecRefMixed
  ProofsRefRunCases ProofsRefStepCases ProofsSensitiveCases ProofsRefStepRoundCases ProofsRefMixedRound ProofsRefMixedRoundStep ProofsRefMixedRoundCases.
Import ListNotations.
Open Scope R_scope.

(** The update run in double and, on the reals the slopes and grid steps stand for, in real numbers: all results in double are finite and differ from the
    exact ones by at most 2^-48 times the largest slope over the smallest grid step. *)
Theorem C154_mixed_rounding : forall nx ny (dx dy : b64) (px py : Z -> Z -> b64) S w m m0, (2 <= nx < 4294967296)%Z -> (2 <= ny < 4294967296)%Z -> steps64 dx dy w -> slopes64 nx ny px py S ->
  holds Psix ny nx px m -> holds Psiy ny nx py m -> present Psixy ny nx m ->
  holds Psix ny nx (fun k l => real (px k l)) m0 -> holds Psiy ny nx (fun k l => real (py k l)) m0 -> present Psixy ny nx m0 ->
  exists m' m0', runs (update_mixed_derivatives nx ny dx dy 0 nx) (mixed_vars m) = Ok m' /\ runs (update_mixed_derivatives nx ny (real dx) (real dy) 0 nx) (mixed_vars m0) = Ok m0' /\
    only_changes [Psixy; Dxy1; Dxy2; D1; D2; D3; D4] m m' /\
    forall k l, (0 <= k < ny)%Z -> (0 <= l < nx)%Z -> exists v r, m' (Psixy, k, l) = Some (ModelRefMem.D v) /\ m0' (Psixy, k, l) = Some (ModelRefMem.D r) /\
      is_finite v = true /\ Rabs (real v - r) <= bpow radix2 (-48) * (S / w).
Proof. exact mixed_both. Qed.
Print Assumptions C154_mixed_rounding.

(** The update in double on slopes that are those of a function with bounded derivatives up to the error e: the bound of C153_mixed_accuracy and the rounding error. *)
Theorem C154_mixed_accuracy : forall nx ny x0 y0 (dx dy : b64) D M e (px py : Z -> Z -> b64) S w m, (2 <= nx < 4294967296)%Z -> (2 <= ny < 4294967296)%Z -> steps64 dx dy w -> slopes64 nx ny px py S ->
  let X := even_nodes x0 (real dx) in let Y := even_nodes y0 (real dy) in smooth2 D -> bounded_on (X 0%Z) (X (nx - 1)%Z) (Y 0%Z) (Y (ny - 1)%Z) D M ->
  holds Psix ny nx px m -> holds Psiy ny nx py m -> present Psixy ny nx m ->
  (forall k l, (0 <= k < ny)%Z -> (0 <= l < nx)%Z -> Rabs (real (px k l) - D 1%nat 0%nat (X l) (Y k)) <= e /\ Rabs (real (py k l) - D 0%nat 1%nat (X l) (Y k)) <= e) ->
  exists m', runs (update_mixed_derivatives nx ny dx dy 0 nx) (mixed_vars m) = Ok m' /\ only_changes [Psixy; Dxy1; Dxy2; D1; D2; D3; D4] m m' /\
    forall k l, (0 <= k < ny)%Z -> (0 <= l < nx)%Z -> exists v, m' (Psixy, k, l) = Some (ModelRefMem.D v) /\ is_finite v = true /\
      Rabs (real v - D 1%nat 1%nat (X l) (Y k)) <= mixed_bound nx ny k l (real dx) (real dy) M e + bpow radix2 (-48) * (S / w).
Proof. exact mixed_accuracy64. Qed.
Print Assumptions C154_mixed_accuracy.
(** 5 by 5 nodes of the unit square, slopes of sin x sin y rounded to multiples of 2^-40 *)
Example C154_case : let X := even_nodes 0 (/ 4) in let h : b64 := b64_make 1 (-2) in let px k l := near64 (ripple 1 0 (X l) (X k)) in let py k l := near64 (ripple 0 1 (X l) (X k)) in
  real h = / 4 /\ steps64 h h (/ 4) /\ slopes64 5 5 px py 2 /\ smooth2 ripple /\ bounded_on (X 0%Z) (X 4%Z) (X 0%Z) (X 4%Z) ripple (fun _ _ => 1) /\
  (exists m, holds Psix 5 5 px m /\ holds Psiy 5 5 py m /\ present Psixy 5 5 m) /\
  (exists m, holds Psix 5 5 (fun k l => real (px k l)) m /\ holds Psiy 5 5 (fun k l => real (py k l)) m /\ present Psixy 5 5 m) /\
  forall k l, Rabs (real (px k l) - ripple 1 0 (X l) (X k)) <= bpow radix2 (-41) /\ Rabs (real (py k l) - ripple 0 1 (X l) (X k)) <= bpow radix2 (-41).
Proof. exact held_case. Qed.

(** One time step in double with the SuperConsistent scheme on a grid with exact coordinates. At a node such that the exact trajectories through it and its
    neighbours began inside the box by more than the margin E, the new mixed derivative is finite and it is that of the solution of the level set equation at
    the new time, described by D', up to the bound of C153 with the gradient error of C152 and the rounding error. *)
Theorem C154_step_mixed : forall whole (G : flow b64) (F : flow R) s t f m D M e0 e1 e2 Mr Sg eps X V K Ts u D' M' S w, let r := real_settings s in
  proper r -> exact_grid s -> s_psischeme s = "SuperConsistent"%string -> box_within s X -> nodes_at (s_nx s) (s_ny s) (node_x s) (node_y s) m -> contains (s_nx s) (s_ny s) f m -> field_size s f Mr ->
  smooth2 D -> bounded_in_box r D M -> near_samples r D (real_fields f) e0 e1 e2 ->
  bpow radix2 (-53) <= eps <= / 4096 -> moderate X -> moderate V -> moderate Ts -> is_finite (s_dt s) = true -> moderate (real (s_dt s)) ->
  V * real (s_dt s) <= X -> step_number t -> (IZR t + 1) * real (s_dt s) <= Ts -> 0 < K -> K * X <= 8 -> K * Ts <= 8 -> moderate (V * K) -> V * K * real (s_dt s) <= 1 / 4 ->
  flow_near64 G F (s_Tp s) V eps -> gradients_near64 G F (s_Tp s) (V * K) eps -> graded_velocity 3 V K F (s_Tp r) -> true_gradients F (s_Tp r) ->
  let lo := IZR t * s_dt r in let hi := (IZR t + 1) * s_dt r in let E := origin_bound (s_rk3 s) (s_dt r) V K + trace_factor (s_rk3 s) 8 * eps * X in
  let ex := slope_x_bound (s_dx r) (s_dy r) M e0 e1 e2 + bpow radix2 (-33) * (Mr / s_dx r) in let ey := slope_y_bound (s_dx r) (s_dy r) M e0 e1 e2 + bpow radix2 (-33) * (Mr / s_dy r) in
  moderate Sg -> M 1%nat 0%nat + ex <= Sg -> M 0%nat 1%nat + ey <= Sg -> solves F (s_Tp r) lo hi u -> (forall x y, u x y lo = D 0%nat 0%nat x y) ->
  smooth2 D' -> bounded_in_box r D' M' -> (forall x y, u x y hi = D' 0%nat 0%nat x y) ->
  let B := gradient_bound (s_dt r) V K M ex ey E + super_factor (s_rk3 s) * eps * Sg in
  steps64 (s_dx s) (s_dy s) w -> real (s_dx s) = s_dx r -> real (s_dy s) = s_dy r -> moderate S -> M' 1%nat 0%nat + B <= S -> M' 0%nat 1%nat + B <= S ->
  exists m', step whole G s t m = Ok m' /\
    forall i j, (0 < i < s_ny s - 2)%Z -> (0 < j < s_nx s - 2)%Z ->
      (forall P Q i' j', (i - 1 <= i' <= i + 1)%Z -> (j - 1 <= j' <= j + 1)%Z -> follows F (s_Tp r) lo hi P Q -> P hi = node_x r j' -> Q hi = node_y r i' ->
         inside (s_xlim1 r + E) (s_xlim2 r - E) (P lo) /\ inside (s_ylim1 r + E) (s_ylim2 r - E) (Q lo)) ->
      exists v, m' (MPsixy, i, j) = Some (ModelRefMem.D v) /\ is_finite v = true /\
        Rabs (real v - D' 1%nat 1%nat (node_x r j) (node_y r i)) <= mixed_bound (s_nx s) (s_ny s) i j (s_dx r) (s_dy r) M' B + bpow radix2 (-48) * (S / w).
Proof. exact step_mixed64. Qed.
Print Assumptions C154_step_mixed.
(** a uniform wind at 25 nodes of the unit square, sixth step of length 1/128, middle node; the remaining hypotheses hold by C151_case and C152_step_case *)
Example C154_step_case : let s := quarter in let r := real_settings s in let e := bpow radix2 (-41) in let M (_ _ : nat) := 1 in let F := case_flow 1 0 in
  flow_near64 wind64 F (s_Tp s) 1 e /\ gradients_near64 wind64 F (s_Tp s) (1 * 8) e /\ graded_velocity 3 1 8 F (s_Tp r) /\ true_gradients F (s_Tp r) /\
  let lo := IZR 5 * s_dt r in let hi := (IZR 5 + 1) * s_dt r in let E := origin_bound (s_rk3 s) (s_dt r) 1 8 + trace_factor (s_rk3 s) 8 * e * 1 in
  let ex := slope_x_bound (s_dx r) (s_dy r) M e e e + bpow radix2 (-33) * (2 / s_dx r) in let ey := slope_y_bound (s_dx r) (s_dy r) M e e e + bpow radix2 (-33) * (2 / s_dy r) in
  let u x y q := moved (q - lo) 0 0 x y in let D' := moved (/ 128) in let B := gradient_bound (s_dt r) 1 8 M ex ey E + super_factor (s_rk3 s) * e * 2 in
  solves F (s_Tp r) lo hi u /\ (forall x y, u x y lo = ripple 0 0 x y) /\ smooth2 D' /\ bounded_in_box r D' M /\ (forall x y, u x y hi = D' 0%nat 0%nat x y) /\
  steps64 (s_dx s) (s_dy s) (/ 4) /\ real (s_dx s) = s_dx r /\ real (s_dy s) = s_dy r /\ moderate 2 /\ M 1%nat 0%nat + B <= 2 /\ M 0%nat 1%nat + B <= 2 /\
  (0 < 2 < s_ny s - 2)%Z /\ (0 < 2 < s_nx s - 2)%Z /\
  forall P Q i' j', (2 - 1 <= i' <= 2 + 1)%Z -> (2 - 1 <= j' <= 2 + 1)%Z -> follows F (s_Tp r) lo hi P Q -> P hi = node_x r j' -> Q hi = node_y r i' ->
    inside (s_xlim1 r + E) (s_xlim2 r - E) (P lo) /\ inside (s_ylim1 r + E) (s_ylim2 r - E) (Q lo).
Proof. exact wind_case. Qed.
