(** Vocabulary for the order of accuracy of the back-trace of the reference code. *)
From Coq Require Import ZArith List Reals.
From Verif Require Import Base Num ModelVec ModelRefMath SpecGradient SpecRef.
Import ListNotations.
Open Scope R_scope.

(** (X, Y) moves with the velocity from time lo to time hi. *)
Definition follows (F : flow R) (Tp lo hi : R) (X Y : R -> R) : Prop := forall s, lo <= s <= hi ->
  derivable_pt_lim X s (Velx F (X s) (Y s) s Tp) /\ derivable_pt_lim Y s (Vely F (X s) (Y s) s Tp).
(** X has four derivatives, at most V, M2, M3 and M4. *)
Definition bounded4 (lo hi : R) (X : R -> R) (V M2 M3 M4 : R) : Prop := exists X1 X2 X3 X4, derivs lo hi X [X1; X2; X3; X4] /\
  forall s, lo <= s <= hi -> Rabs (X1 s) <= V /\ Rabs (X2 s) <= M2 /\ Rabs (X3 s) <= M3 /\ Rabs (X4 s) <= M4.
(** X has two derivatives, the second at most M2. *)
Definition bounded2 (lo hi : R) (X : R -> R) (M2 : R) : Prop := exists X1 X2, derivs lo hi X [X1; X2] /\ forall s, lo <= s <= hi -> Rabs (X2 s) <= M2.
(** Within r of (x, y) and from time lo to hi: the velocity is at most V, the gradients of each component add up to at most L, and
    differ from those at (x, y) and time hi by at most N times the distance. *)
Definition calm (F : flow R) (Tp x y lo hi r V L N : R) : Prop := forall p q s, Rabs (p - x) <= r -> Rabs (q - y) <= r -> lo <= s <= hi ->
  Rabs (Velx F p q s Tp) <= V /\ Rabs (Vely F p q s Tp) <= V /\
  Rabs (gradUx F p q s Tp) + Rabs (gradUy F p q s Tp) <= L /\ Rabs (gradVx F p q s Tp) + Rabs (gradVy F p q s Tp) <= L /\
  let d := Rabs (p - x) + Rabs (q - y) + Rabs (s - hi) in
  Rabs (gradUx F p q s Tp - gradUx F x y hi Tp) <= N * d /\ Rabs (gradUy F p q s Tp - gradUy F x y hi Tp) <= N * d /\
  Rabs (gradVx F p q s Tp - gradVx F x y hi Tp) <= N * d /\ Rabs (gradVy F p q s Tp - gradVy F x y hi Tp) <= N * d.
(** Error of the third-order trace over dt. *)
Definition trace_bound (dt V M2 M3 M4 L N : R) : R :=
  dt ^ 4 * (M4 / 12 + L * M3 / 8 + L ^ 2 * M2 / 12 + N * (1 + 2 * V) * M2 * (4 + L * dt) / 6).

(** wx, wy and ws are the partial derivatives of w(x, y, s), which is totally differentiable. *)
Definition diff3 (w wx wy ws : R -> R -> R -> R) : Prop := forall x y s eps, 0 < eps -> exists d, 0 < d /\ forall p q r,
  Rabs (p - x) < d -> Rabs (q - y) < d -> Rabs (r - s) < d ->
  Rabs (w p q r - w x y s - (wx x y s * (p - x) + wy x y s * (q - y) + ws x y s * (r - s))) <= eps * (Rabs (p - x) + Rabs (q - y) + Rabs (r - s)).
(** w and its partial derivatives up to order n are at most B everywhere. *)
Fixpoint smooth3 (n : nat) (B : R) (w : R -> R -> R -> R) : Prop := (forall x y s, Rabs (w x y s) <= B) /\
  match n with
  | O => True
  | S n => exists wx wy ws, diff3 w wx wy ws /\ smooth3 n B wx /\ smooth3 n B wy /\ smooth3 n B ws
  end.
(** Both components of the velocity of F. *)
Definition smooth_velocity (n : nat) (B : R) (F : flow R) (Tp : R) : Prop :=
  smooth3 n B (fun x y s => Velx F x y s Tp) /\ smooth3 n B (fun x y s => Vely F x y s Tp).
(** Error of the third-order trace for a velocity whose partial derivatives up to order three are at most B. *)
Definition smooth_bound (dt B : R) : R := let w := 1 + 2 * B in
  dt ^ 4 * (B * w ^ 3 / 2 + B ^ 2 * w ^ 2 / 2 + B ^ 3 * w / 3 + B ^ 2 * w ^ 2 * (2 + B * dt) / 3).

(** A flow whose trajectory through (0, 1) at time 0 is (sin s, cos s). *)
Definition swirl : flow R := mkFlow (fun x y s _ => cos s + sin (y - cos s)) (fun x y s _ => sin (x - sin s) - sin s)
  (fun _ _ _ _ => 0) (fun _ y s _ => cos (y - cos s)) (fun x _ s _ => cos (x - sin s)) (fun _ _ _ _ => 0).
(** A shear flow: the trajectory through (a, b) at time 0 is (a + sin b sin s, b). *)
Definition shear : flow R := mkFlow (fun x y s _ => sin y * cos s) (fun _ _ _ _ => 0)
  (fun _ _ _ _ => 0) (fun _ y s _ => cos y * cos s) (fun _ _ _ _ => 0) (fun _ _ _ _ => 0).

(** w is at most V, its partial derivatives of order one at most V K, of order two at most V K^2, and so on up to order n. *)
Fixpoint graded3 (n : nat) (V K : R) (w : R -> R -> R -> R) : Prop := (forall x y s, Rabs (w x y s) <= V) /\
  match n with
  | O => True
  | S n => exists wx wy ws, diff3 w wx wy ws /\ graded3 n (V * K) K wx /\ graded3 n (V * K) K wy /\ graded3 n (V * K) K ws
  end.
Definition graded_velocity (n : nat) (V K : R) (F : flow R) (Tp : R) : Prop :=
  graded3 n V K (fun x y s => Velx F x y s Tp) /\ graded3 n V K (fun x y s => Vely F x y s Tp).
(** Error of the place of origin after a step of length dt for such a velocity: of order four in dt with RK3, of order two otherwise. *)
Definition origin_bound (rk3 : bool) (dt V K : R) : R :=
  if rk3 then K ^ 3 * dt ^ 4 * (V * (1 + 2 * V) ^ 3 / 2 + V ^ 2 * (1 + 2 * V) ^ 2 / 2 + V ^ 3 * (1 + 2 * V) / 3 + V ^ 2 * (1 + 2 * V) ^ 2 * (2 + V * (K * dt)) / 3)
  else K * dt ^ 2 * (V * (1 + 2 * V) / 2).
