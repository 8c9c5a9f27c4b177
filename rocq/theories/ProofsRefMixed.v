(** The accuracy of the mixed derivatives of the reference programs. *)
From Coq Require Import ZArith List Bool String Lia Reals Lra.
From Verif Require Import Base Num ModelVec ModelRefMath ModelRefMem ModelRef SpecGradient SpecRef SpecRefRun SpecRefStep SpecRefMixed
  ProofsTaylor ProofsRefMem ProofsRefRun ProofsRefUpd ProofsRefMix ProofsRefStep ProofsRefExact ProofsRefApi.
Import ListNotations.
Open Scope R_scope.

(** *** Taylor expansion with a step of either sign *)
Lemma d_along f d a s t : derivable_pt_lim f (a + s * t) d -> derivable_pt_lim (fun t => f (a + s * t)) t (s * d).
Proof.
  intros H. replace (s * d) with (d * s) by ring. apply (derivable_pt_lim_comp (fun t => a + s * t) f); [|exact H].
  eapply d_eq; [apply (derivable_pt_lim_plus (fun _ => a) (fun t => s * t)); [apply d_const|apply d_lin]|ring].
Qed.
Section Line.
Variables (f d1 d2 d3 : R -> R).
Hypothesis D1 : forall t, derivable_pt_lim f t (d1 t).
Hypothesis D2 : forall t, derivable_pt_lim d1 t (d2 t).
Hypothesis D3 : forall t, derivable_pt_lim d2 t (d3 t).
Variables a s M : R.
Hypothesis HM : forall t, 0 <= t <= 1 -> Rabs (d3 (a + s * t)) <= M.
Lemma expand1 t : 0 <= t <= 1 -> Rabs (d2 (a + s * t) - d2 a) <= Rabs s * M * t.
Proof.
  apply (growth (fun t => d2 (a + s * t) - d2 a) (fun t => s * d3 (a + s * t)) (fun t => Rabs s * M * t) (fun _ => Rabs s * M)).
  - intros z Hz. eapply d_eq; [apply (derivable_pt_lim_minus (fun t => d2 (a + s * t)) (fun _ => d2 a)); [apply d_along, D3|apply d_const]|ring].
  - intros z _. apply d_lin.
  - intros z Hz. rewrite Rabs_mult. apply Rmult_le_compat_l; [apply Rabs_pos|apply HM; exact Hz].
  - rewrite Rmult_0_r, Rplus_0_r. ring.
  - ring.
Qed.
Lemma expand2 t : 0 <= t <= 1 -> Rabs (d1 (a + s * t) - d1 a - s * d2 a * t) <= s ^ 2 * M / 2 * t ^ 2.
Proof.
  assert (Q : Rabs s * Rabs s = s ^ 2) by (rewrite <- Rabs_mult, Rabs_pos_eq; [ring|apply Rle_0_sqr]).
  apply (growth (fun t => d1 (a + s * t) - d1 a - s * d2 a * t) (fun t => s * (d2 (a + s * t) - d2 a)) (fun t => s ^ 2 * M / 2 * t ^ 2) (fun t => s ^ 2 * M * t)).
  - intros z Hz. eapply d_eq; [apply (derivable_pt_lim_minus (fun t => d1 (a + s * t) - d1 a) (fun t => s * d2 a * t)); [|apply d_lin]|].
    + apply (derivable_pt_lim_minus (fun t => d1 (a + s * t)) (fun _ => d1 a)); [apply d_along, D2|apply d_const].
    + ring.
  - intros z _. eapply d_eq; [apply d_pow|]. cbn. field.
  - intros z Hz. rewrite Rabs_mult. replace (s ^ 2 * M * z) with (Rabs s * (Rabs s * M * z)) by (rewrite <- Q; ring). apply Rmult_le_compat_l; [apply Rabs_pos|apply expand1; exact Hz].
  - rewrite Rmult_0_r, Rplus_0_r. ring.
  - ring.
Qed.
Lemma expand3 : Rabs (f (a + s) - f a - s * d1 a - s ^ 2 / 2 * d2 a) <= Rabs s ^ 3 * M / 6.
Proof.
  assert (Q : Rabs s * Rabs s = s ^ 2) by (rewrite <- Rabs_mult, Rabs_pos_eq; [ring|apply Rle_0_sqr]).
  assert (H : forall t, 0 <= t <= 1 -> Rabs (f (a + s * t) - f a - s * d1 a * t - s ^ 2 / 2 * d2 a * t ^ 2) <= Rabs s ^ 3 * M / 6 * t ^ 3).
  { apply (growth (fun t => f (a + s * t) - f a - s * d1 a * t - s ^ 2 / 2 * d2 a * t ^ 2) (fun t => s * (d1 (a + s * t) - d1 a - s * d2 a * t)) (fun t => Rabs s ^ 3 * M / 6 * t ^ 3) (fun t => Rabs s ^ 3 * M / 2 * t ^ 2)).
    - intros z Hz. eapply d_eq; [apply (derivable_pt_lim_minus (fun t => f (a + s * t) - f a - s * d1 a * t) (fun t => s ^ 2 / 2 * d2 a * t ^ 2)); [|apply d_pow]|].
      + apply (derivable_pt_lim_minus (fun t => f (a + s * t) - f a) (fun t => s * d1 a * t)); [|apply d_lin].
        apply (derivable_pt_lim_minus (fun t => f (a + s * t)) (fun _ => f a)); [apply d_along, D1|apply d_const].
      + cbn. field.
    - intros z _. eapply d_eq; [apply d_pow|]. cbn. field.
    - intros z Hz. rewrite Rabs_mult. replace (Rabs s ^ 3 * M / 2 * z ^ 2) with (Rabs s * (s ^ 2 * M / 2 * z ^ 2)) by (rewrite <- Q; field). apply Rmult_le_compat_l; [apply Rabs_pos|apply expand2; exact Hz].
    - rewrite Rmult_0_r, Rplus_0_r. ring.
    - ring. }
  specialize (H 1 ltac:(lra)). rewrite Rmult_1_r in H.
  replace (f (a + s) - f a - s * d1 a - s ^ 2 / 2 * d2 a) with (f (a + s) - f a - s * d1 a * 1 - s ^ 2 / 2 * d2 a * 1 ^ 2) by ring. replace (Rabs s ^ 3 * M / 6) with (Rabs s ^ 3 * M / 6 * 1 ^ 3) by ring. exact H.
Qed.
(** a one-sided difference quotient *)
Lemma quotient : s <> 0 -> Rabs ((f (a + s) - f a) / s - d1 a - s / 2 * d2 a) <= s ^ 2 / 6 * M.
Proof.
  intros Hs. assert (Ps : 0 < Rabs s) by (apply Rabs_pos_lt; exact Hs). apply (Rmult_le_reg_l (Rabs s)); [exact Ps|]. rewrite <- Rabs_mult.
  replace (s * ((f (a + s) - f a) / s - d1 a - s / 2 * d2 a)) with (f (a + s) - f a - s * d1 a - s ^ 2 / 2 * d2 a) by (field; exact Hs).
  replace (Rabs s * (s ^ 2 / 6 * M)) with (Rabs s ^ 3 * M / 6); [exact expand3|]. rewrite <- (pow2_abs s). field.
Qed.
End Line.
(** difference quotients of inexact values *)
Lemma data_quotient p q p' q' s h e : s <> 0 -> Rabs s = h -> Rabs (p - p') <= e -> Rabs (q - q') <= e -> Rabs ((p - q) / s - (p' - q') / s) <= 2 * (e / h).
Proof.
  intros Hs Eh H1 H2. assert (Ps : 0 < h) by (rewrite <- Eh; apply Rabs_pos_lt; exact Hs). replace ((p - q) / s - (p' - q') / s) with (((p - p') - (q - q')) / s) by (field; exact Hs).
  unfold Rdiv at 1. rewrite Rabs_mult, (Rabs_Rinv s Hs), Eh. replace (2 * (e / h)) with (2 * e * / h) by (field; lra). apply Rmult_le_compat_r; [left; apply Rinv_0_lt_compat; exact Ps|].
  eapply Rle_trans; [apply Rabs_triang|]. rewrite Rabs_Ropp. lra.
Qed.
Lemma between_on lo hi x s t : lo <= x <= hi -> lo <= x + s <= hi -> 0 <= t <= 1 -> lo <= x + s * t <= hi.
Proof.
  intros H1 H2 Ht. replace (x + s * t) with ((1 - t) * x + t * (x + s)) by ring.
  assert (A : (1 - t) * lo <= (1 - t) * x) by (apply Rmult_le_compat_l; lra). assert (B : t * lo <= t * (x + s)) by (apply Rmult_le_compat_l; lra).
  assert (C : (1 - t) * x <= (1 - t) * hi) by (apply Rmult_le_compat_l; lra). assert (E : t * (x + s) <= t * hi) by (apply Rmult_le_compat_l; lra). lra.
Qed.

Section Mixed.
Variables (D : nat -> nat -> R -> R -> R) (M : nat -> nat -> R) (xl xr yl yr : R).
Hypothesis SD : smooth2 D.
Hypothesis HM : bounded_on xl xr yl yr D M.
Notation okx x := (xl <= x <= xr).
Notation oky y := (yl <= y <= yr).
Let line_x i j y t : derivable_pt_lim (fun x => D i j x y) t (D (S i) j t y) := proj1 (SD i j t y).
Let line_y i j x t : derivable_pt_lim (fun y => D i j x y) t (D i (S j) x t) := proj2 (SD i j x t).
Lemma slope_along_x x y s : s <> 0 -> okx x -> okx (x + s) -> oky y ->
  Rabs ((D 0%nat 1%nat (x + s) y - D 0%nat 1%nat x y) / s - D 1%nat 1%nat x y - s / 2 * D 2%nat 1%nat x y) <= s ^ 2 / 6 * M 3%nat 1%nat.
Proof.
  intros Hs Hx Hx' Hy. apply (quotient (fun x => D 0%nat 1%nat x y) (fun x => D 1%nat 1%nat x y) (fun x => D 2%nat 1%nat x y) (fun x => D 3%nat 1%nat x y)); auto.
  intros t Ht. apply HM; try lia; [apply between_on; assumption|exact Hy].
Qed.
Lemma slope_along_y x y s : s <> 0 -> oky y -> oky (y + s) -> okx x ->
  Rabs ((D 1%nat 0%nat x (y + s) - D 1%nat 0%nat x y) / s - D 1%nat 1%nat x y - s / 2 * D 1%nat 2%nat x y) <= s ^ 2 / 6 * M 1%nat 3%nat.
Proof.
  intros Hs Hy Hy' Hx. apply (quotient (fun y => D 1%nat 0%nat x y) (fun y => D 1%nat 1%nat x y) (fun y => D 1%nat 2%nat x y) (fun y => D 1%nat 3%nat x y)); auto.
  intros t Ht. apply HM; try lia; [exact Hx|apply between_on; assumption].
Qed.
Lemma move_x x y s : okx x -> okx (x + s) -> oky y -> Rabs (D 1%nat 1%nat (x + s) y - D 1%nat 1%nat x y - s * D 2%nat 1%nat x y) <= s ^ 2 / 2 * M 3%nat 1%nat.
Proof.
  intros Hx Hx' Hy. pose proof (expand2 (fun x => D 1%nat 1%nat x y) (fun x => D 2%nat 1%nat x y) (fun x => D 3%nat 1%nat x y) (line_x 1 1 y) (line_x 2 1 y) x s (M 3%nat 1%nat)
    ltac:(intros t Ht; apply HM; try lia; [apply between_on; assumption|exact Hy]) 1 ltac:(lra)) as Q. cbv beta in Q. rewrite !Rmult_1_r in Q. rewrite pow1 in Q. lra.
Qed.
Lemma move_y x y s : oky y -> oky (y + s) -> okx x -> Rabs (D 1%nat 1%nat x (y + s) - D 1%nat 1%nat x y - s * D 1%nat 2%nat x y) <= s ^ 2 / 2 * M 1%nat 3%nat.
Proof.
  intros Hy Hy' Hx. pose proof (expand2 (fun y => D 1%nat 1%nat x y) (fun y => D 1%nat 2%nat x y) (fun y => D 1%nat 3%nat x y) (line_y 1 1 x) (line_y 1 2 x) y s (M 1%nat 3%nat)
    ltac:(intros t Ht; apply HM; try lia; [exact Hx|apply between_on; assumption]) 1 ltac:(lra)) as Q. cbv beta in Q. rewrite !Rmult_1_r in Q. rewrite pow1 in Q. lra.
Qed.
Lemma turn_x x y s : okx x -> okx (x + s) -> oky y -> Rabs (D 1%nat 2%nat (x + s) y - D 1%nat 2%nat x y) <= Rabs s * M 2%nat 2%nat.
Proof.
  intros Hx Hx' Hy. pose proof (expand1 (fun x => D 1%nat 2%nat x y) (fun x => D 2%nat 2%nat x y) (line_x 1 2 y) x s (M 2%nat 2%nat)
    ltac:(intros t Ht; apply HM; try lia; [apply between_on; assumption|exact Hy]) 1 ltac:(lra)) as Q. cbv beta in Q. rewrite !Rmult_1_r in Q. exact Q.
Qed.
Lemma turn_y x y s : oky y -> oky (y + s) -> okx x -> Rabs (D 2%nat 1%nat x (y + s) - D 2%nat 1%nat x y) <= Rabs s * M 2%nat 2%nat.
Proof.
  intros Hy Hy' Hx. pose proof (expand1 (fun y => D 2%nat 1%nat x y) (fun y => D 2%nat 2%nat x y) (line_y 2 1 x) y s (M 2%nat 2%nat)
    ltac:(intros t Ht; apply HM; try lia; [exact Hx|apply between_on; assumption]) 1 ltac:(lra)) as Q. cbv beta in Q. rewrite !Rmult_1_r in Q. exact Q.
Qed.
Variables (e h k : R).
Hypothesis Hh : 0 < h.
Hypothesis Hk : 0 < k.
(** central differences *)
Lemma central_x x y p q : okx (x - h) -> okx (x + h) -> oky y -> Rabs (p - D 0%nat 1%nat (x + h) y) <= e -> Rabs (q - D 0%nat 1%nat (x - h) y) <= e ->
  Rabs ((p - q) / (2 * h) - D 1%nat 1%nat x y) <= h ^ 2 / 6 * M 3%nat 1%nat + e / h.
Proof.
  intros H1 H2 Hy Hp Hq. assert (Hx : okx x) by lra. pose proof (slope_along_x x y h ltac:(lra) Hx H2 Hy) as A. pose proof (slope_along_x x y (- h) ltac:(lra) Hx H1 Hy) as B.
  pose proof (data_quotient p q _ _ h h e ltac:(lra) ltac:(apply Rabs_pos_eq; lra) Hp Hq) as C. change (x + - h) with (x - h) in B.
  set (P := D 0%nat 1%nat (x + h) y) in *. set (Q := D 0%nat 1%nat (x - h) y) in *. set (O := D 0%nat 1%nat x y) in *. set (a := D 1%nat 1%nat x y) in *. set (b := D 2%nat 1%nat x y) in *. clearbody P Q O a b.
  replace ((- h) ^ 2) with (h ^ 2) in B by ring.
  replace ((p - q) / (2 * h) - a) with ((((p - q) / h - (P - Q) / h) + ((P - O) / h - a - h / 2 * b) + ((Q - O) / - h - a - - h / 2 * b)) / 2) by (field; lra).
  unfold Rdiv at 1. rewrite Rabs_mult, (Rabs_pos_eq (/ 2)) by lra.
  assert (T : Rabs (((p - q) / h - (P - Q) / h) + ((P - O) / h - a - h / 2 * b) + ((Q - O) / - h - a - - h / 2 * b)) <= 2 * (h ^ 2 / 6 * M 3%nat 1%nat + e / h)); [|lra].
  eapply Rle_trans; [apply Rabs_triang|]. eapply Rle_trans; [apply Rplus_le_compat_r, Rabs_triang|]. lra.
Qed.
Lemma central_y x y p q : oky (y - k) -> oky (y + k) -> okx x -> Rabs (p - D 1%nat 0%nat x (y + k)) <= e -> Rabs (q - D 1%nat 0%nat x (y - k)) <= e ->
  Rabs ((p - q) / (2 * k) - D 1%nat 1%nat x y) <= k ^ 2 / 6 * M 1%nat 3%nat + e / k.
Proof.
  intros H1 H2 Hx Hp Hq. assert (Hy : oky y) by lra. pose proof (slope_along_y x y k ltac:(lra) Hy H2 Hx) as A. pose proof (slope_along_y x y (- k) ltac:(lra) Hy H1 Hx) as B.
  pose proof (data_quotient p q _ _ k k e ltac:(lra) ltac:(apply Rabs_pos_eq; lra) Hp Hq) as C. change (y + - k) with (y - k) in B.
  set (P := D 1%nat 0%nat x (y + k)) in *. set (Q := D 1%nat 0%nat x (y - k)) in *. set (O := D 1%nat 0%nat x y) in *. set (a := D 1%nat 1%nat x y) in *. set (b := D 1%nat 2%nat x y) in *. clearbody P Q O a b.
  replace ((- k) ^ 2) with (k ^ 2) in B by ring.
  replace ((p - q) / (2 * k) - a) with ((((p - q) / k - (P - Q) / k) + ((P - O) / k - a - k / 2 * b) + ((Q - O) / - k - a - - k / 2 * b)) / 2) by (field; lra).
  unfold Rdiv at 1. rewrite Rabs_mult, (Rabs_pos_eq (/ 2)) by lra.
  assert (T : Rabs (((p - q) / k - (P - Q) / k) + ((P - O) / k - a - k / 2 * b) + ((Q - O) / - k - a - - k / 2 * b)) <= 2 * (k ^ 2 / 6 * M 1%nat 3%nat + e / k)); [|lra].
  eapply Rle_trans; [apply Rabs_triang|]. eapply Rle_trans; [apply Rplus_le_compat_r, Rabs_triang|]. lra.
Qed.
(** a corner; s and t are the steps to its neighbours *)
Lemma corner x y s t Y0 Y1 Y2 Y3 X0 X1 X2 X3 : s <> 0 -> t <> 0 -> Rabs s = h -> Rabs t = k -> okx x -> okx (x + s) -> oky y -> oky (y + t) ->
  Rabs (Y0 - D 0%nat 1%nat x y) <= e -> Rabs (Y1 - D 0%nat 1%nat (x + s) y) <= e -> Rabs (Y2 - D 0%nat 1%nat x (y + t)) <= e -> Rabs (Y3 - D 0%nat 1%nat (x + s) (y + t)) <= e ->
  Rabs (X0 - D 1%nat 0%nat x y) <= e -> Rabs (X1 - D 1%nat 0%nat (x + s) y) <= e -> Rabs (X2 - D 1%nat 0%nat x (y + t)) <= e -> Rabs (X3 - D 1%nat 0%nat (x + s) (y + t)) <= e ->
  Rabs (3 / 4 * ((Y1 - Y0) / s + (X2 - X0) / t) - 1 / 4 * ((Y3 - Y2) / s + (X3 - X1) / t) - D 1%nat 1%nat x y) <=
    7 / 24 * (h ^ 2 * M 3%nat 1%nat + k ^ 2 * M 1%nat 3%nat) + h * k / 4 * M 2%nat 2%nat + 2 * (e / h + e / k).
Proof.
  intros Hs Ht Es Et Hx Hx' Hy Hy' y0 y1 y2 y3 x0 x1 x2 x3.
  pose proof (slope_along_x x y s Hs Hx Hx' Hy) as A1. pose proof (slope_along_y x y t Ht Hy Hy' Hx) as A2.
  pose proof (slope_along_x x (y + t) s Hs Hx Hx' Hy') as A3. pose proof (slope_along_y (x + s) y t Ht Hy Hy' Hx') as A4.
  pose proof (move_x x y s Hx Hx' Hy) as B1. pose proof (move_y x y t Hy Hy' Hx) as B2. pose proof (turn_x x y s Hx Hx' Hy) as C1. pose proof (turn_y x y t Hy Hy' Hx) as C2.
  pose proof (data_quotient _ _ _ _ s h e Hs Es y1 y0) as Q1. pose proof (data_quotient _ _ _ _ s h e Hs Es y3 y2) as Q2.
  pose proof (data_quotient _ _ _ _ t k e Ht Et x2 x0) as Q3. pose proof (data_quotient _ _ _ _ t k e Ht Et x3 x1) as Q4.
  assert (S2 : s ^ 2 = h ^ 2) by (rewrite <- (pow2_abs s), Es; reflexivity). assert (T2 : t ^ 2 = k ^ 2) by (rewrite <- (pow2_abs t), Et; reflexivity).
  rewrite S2 in A1, A3, B1. rewrite T2 in A2, A4, B2.
  assert (E1 : Rabs (t / 2 * (D 1%nat 2%nat (x + s) y - D 1%nat 2%nat x y)) <= h * k / 2 * M 2%nat 2%nat).
  { rewrite Rabs_mult. replace (Rabs (t / 2)) with (k / 2) by (unfold Rdiv; rewrite Rabs_mult, Et, (Rabs_pos_eq (/ 2)) by lra; reflexivity). rewrite Es in C1.
    replace (h * k / 2 * M 2%nat 2%nat) with (k / 2 * (h * M 2%nat 2%nat)) by field. apply Rmult_le_compat_l; [lra|exact C1]. }
  assert (E2 : Rabs (s / 2 * (D 2%nat 1%nat x (y + t) - D 2%nat 1%nat x y)) <= h * k / 2 * M 2%nat 2%nat).
  { rewrite Rabs_mult. replace (Rabs (s / 2)) with (h / 2) by (unfold Rdiv; rewrite Rabs_mult, Es, (Rabs_pos_eq (/ 2)) by lra; reflexivity). rewrite Et in C2.
    replace (h * k / 2 * M 2%nat 2%nat) with (h / 2 * (k * M 2%nat 2%nat)) by field. apply Rmult_le_compat_l; [lra|exact C2]. }
  clear C1 C2 y0 y1 y2 y3 x0 x1 x2 x3 S2 T2.
  set (a := D 1%nat 1%nat x y) in *. set (b := D 2%nat 1%nat x y) in *. set (c := D 1%nat 2%nat x y) in *. set (a1 := D 1%nat 1%nat (x + s) y) in *. set (a2 := D 1%nat 1%nat x (y + t)) in *.
  set (c1 := D 1%nat 2%nat (x + s) y) in *. set (b2 := D 2%nat 1%nat x (y + t)) in *.
  set (g1 := (D 0%nat 1%nat (x + s) y - D 0%nat 1%nat x y) / s) in *. set (g2 := (D 1%nat 0%nat x (y + t) - D 1%nat 0%nat x y) / t) in *.
  set (g3 := (D 0%nat 1%nat (x + s) (y + t) - D 0%nat 1%nat x (y + t)) / s) in *. set (g4 := (D 1%nat 0%nat (x + s) (y + t) - D 1%nat 0%nat (x + s) y) / t) in *.
  set (v1 := (Y1 - Y0) / s) in *. set (v2 := (X2 - X0) / t) in *. set (v3 := (Y3 - Y2) / s) in *. set (v4 := (X3 - X1) / t) in *.
  clearbody a b c a1 a2 c1 b2 g1 g2 g3 g4 v1 v2 v3 v4.
  assert (AB : forall z B, Rabs z <= B -> - B <= z <= B) by (intros z B H; unfold Rabs in H; destruct (Rcase_abs z); lra).
  apply AB in A1, A2, A3, A4, B1, B2, Q1, Q2, Q3, Q4, E1, E2. apply Rabs_le.
  assert (N1 : s / 2 * (b2 - b) = s / 2 * b2 - s * b / 2) by field. assert (N2 : t / 2 * (c1 - c) = t / 2 * c1 - t * c / 2) by field. rewrite N1 in E2. rewrite N2 in E1.
  assert (N3 : s / 2 * b = s * b / 2) by field. assert (N4 : t / 2 * c = t * c / 2) by field. rewrite N3 in A1. rewrite N4 in A2.
  set (sb := s * b) in *. set (tc := t * c) in *. set (sb2 := s / 2 * b2) in *. set (tc1 := t / 2 * c1) in *. set (eh := e / h) in *. set (ek := e / k) in *.
  set (m31 := M 3%nat 1%nat) in *. set (m13 := M 1%nat 3%nat) in *. set (m22 := M 2%nat 2%nat) in *.
  replace (h ^ 2 / 6 * m31) with (h ^ 2 * m31 / 6) in * by field. replace (k ^ 2 / 6 * m13) with (k ^ 2 * m13 / 6) in * by field.
  replace (h ^ 2 / 2 * m31) with (h ^ 2 * m31 / 2) in * by field. replace (k ^ 2 / 2 * m13) with (k ^ 2 * m13 / 2) in * by field.
  replace (h * k / 2 * m22) with (h * k * m22 / 2) in * by field. replace (h * k / 4 * m22) with (h * k * m22 / 4) in * by field.
  set (H := h ^ 2 * m31) in *. set (K := k ^ 2 * m13) in *. set (HK := h * k * m22) in *. clearbody sb tc sb2 tc1 eh ek H K HK. lra.
Qed.
End Mixed.

(** *** every node *)
Definition uses (nx ny k l k' l' : Z) : Prop := (Z.abs (k - k') <= 1 /\ Z.abs (l - l') <= 1 /\ 0 <= k' < ny /\ 0 <= l' < nx)%Z.
Lemma mixed_near nx ny x0 y0 dx dy D M e px py k l : (2 <= nx)%Z -> (2 <= ny)%Z -> (0 <= k < ny)%Z -> (0 <= l < nx)%Z -> 0 < dx -> 0 < dy ->
  let X := even_nodes x0 dx in let Y := even_nodes y0 dy in smooth2 D -> bounded_on (X 0%Z) (X (nx - 1)%Z) (Y 0%Z) (Y (ny - 1)%Z) D M ->
  (forall k' l', uses nx ny k l k' l' -> Rabs (px k' l' - D 1%nat 0%nat (X l') (Y k')) <= e /\ Rabs (py k' l' - D 0%nat 1%nat (X l') (Y k')) <= e) ->
  Rabs (mixed_val nx ny dx dy px py k l - D 1%nat 1%nat (X l) (Y k)) <= mixed_bound nx ny k l dx dy M e.
Proof.
  intros N1 N2 Hk Hl Dx Dy X Y SD HM Hp.
  assert (Xs : forall j, X (j + 1)%Z = X j + dx) by (intros; apply even_succ). assert (Xp : forall j, X (j - 1)%Z = X j - dx) by (intros; apply even_pred).
  assert (Ys : forall j, Y (j + 1)%Z = Y j + dy) by (intros; apply even_succ). assert (Yp : forall j, Y (j - 1)%Z = Y j - dy) by (intros; apply even_pred).
  assert (XX : forall i j, (i <= j)%Z -> X i <= X j).
  { intros i j Hij. unfold X, even_nodes. cbn [nadd nmul nofZ NumR]. apply Rplus_le_compat_l, Rmult_le_compat_l; [lra|apply IZR_le; exact Hij]. }
  assert (YY : forall i j, (i <= j)%Z -> Y i <= Y j).
  { intros i j Hij. unfold Y, even_nodes. cbn [nadd nmul nofZ NumR]. apply Rplus_le_compat_l, Rmult_le_compat_l; [lra|apply IZR_le; exact Hij]. }
  clearbody X Y.
  assert (OX : forall j, (0 <= j < nx)%Z -> X 0%Z <= X j <= X (nx - 1)%Z) by (intros j Hj; split; apply XX; lia).
  assert (OY : forall j, (0 <= j < ny)%Z -> Y 0%Z <= Y j <= Y (ny - 1)%Z) by (intros j Hj; split; apply YY; lia).
  assert (CX : (0 < l < nx - 1)%Z -> Rabs ((py k (l + 1)%Z - py k (l - 1)%Z) / (2 * dx) - D 1%nat 1%nat (X l) (Y k)) <= dx ^ 2 / 6 * M 3%nat 1%nat + e / dx).
  { intros Hl'. apply (central_x D M (X 0%Z) (X (nx - 1)%Z) (Y 0%Z) (Y (ny - 1)%Z) SD HM e dx Dx).
    - rewrite <- Xp. apply OX. lia.
    - rewrite <- Xs. apply OX. lia.
    - apply OY. lia.
    - rewrite <- Xs. apply (Hp k (l + 1)%Z). unfold uses. lia.
    - rewrite <- Xp. apply (Hp k (l - 1)%Z). unfold uses. lia. }
  assert (CY : (0 < k < ny - 1)%Z -> Rabs ((px (k + 1)%Z l - px (k - 1)%Z l) / (2 * dy) - D 1%nat 1%nat (X l) (Y k)) <= dy ^ 2 / 6 * M 1%nat 3%nat + e / dy).
  { intros Hk'. apply (central_y D M (X 0%Z) (X (nx - 1)%Z) (Y 0%Z) (Y (ny - 1)%Z) SD HM e dy Dy).
    - rewrite <- Yp. apply OY. lia.
    - rewrite <- Ys. apply OY. lia.
    - apply OX. lia.
    - rewrite <- Ys. apply (Hp (k + 1)%Z l). unfold uses. lia.
    - rewrite <- Yp. apply (Hp (k - 1)%Z l). unfold uses. lia. }
  assert (CC : forall l' k' s t, (0 <= l' < nx)%Z -> (0 <= k' < ny)%Z -> (Z.abs (l - l') <= 1)%Z -> (Z.abs (k - k') <= 1)%Z -> X l' = X l + s -> Y k' = Y k + t -> s <> 0 -> t <> 0 -> Rabs s = dx -> Rabs t = dy ->
    Rabs (3 / 4 * ((py k l' - py k l) / s + (px k' l - px k l) / t) - 1 / 4 * ((py k' l' - py k' l) / s + (px k' l' - px k l') / t) - D 1%nat 1%nat (X l) (Y k)) <=
    7 / 24 * (dx ^ 2 * M 3%nat 1%nat + dy ^ 2 * M 1%nat 3%nat) + dx * dy / 4 * M 2%nat 2%nat + 2 * (e / dx + e / dy)).
  { intros l' k' s t Hl' Hk' Nl Nk El Ek Hs Ht As At. apply (corner D M (X 0%Z) (X (nx - 1)%Z) (Y 0%Z) (Y (ny - 1)%Z) SD HM e dx dy Dx Dy); auto; rewrite <- ?El, <- ?Ek; try (apply OX; lia); try (apply OY; lia);
    apply Hp; unfold uses; lia. }
  assert (Ax : Rabs dx = dx) by (apply Rabs_pos_eq; lra). assert (Ax' : Rabs (- dx) = dx) by (rewrite Rabs_Ropp; exact Ax).
  assert (Ay : Rabs dy = dy) by (apply Rabs_pos_eq; lra). assert (Ay' : Rabs (- dy) = dy) by (rewrite Rabs_Ropp; exact Ay).
  unfold mixed_val, mixed_bound, sx, sy, comb. cbv zeta. cbn [nadd nmul nsub ndiv nofZ NumR].
  destruct (Z.eqb_spec k 0) as [K0|K0]; destruct (Z.eqb_spec k (ny - 1)) as [K1|K1]; destruct (Z.eqb_spec l 0) as [L0|L0]; destruct (Z.eqb_spec l (nx - 1)) as [L1|L1];
    cbn [orb andb negb]; try lia; try (apply CX; lia); try (apply CY; lia).
  - subst k l. eapply Rle_trans; [|apply (CC 1%Z 1%Z dx dy)]; try lia; try lra; try (rewrite <- Xs; reflexivity); try (rewrite <- Ys; reflexivity). right. f_equal. field. lra.
  - subst k. rewrite <- L1 in *. eapply Rle_trans; [|apply (CC (l - 1)%Z 1%Z (- dx) dy)]; try lia; try lra; try (rewrite Xp; ring); try (rewrite <- Ys; reflexivity). right. f_equal.
    replace (nx - 2)%Z with (l - 1)%Z by lia. field. lra.
  - subst l. rewrite <- K1 in *. eapply Rle_trans; [|apply (CC 1%Z (k - 1)%Z dx (- dy))]; try lia; try lra; try (rewrite Yp; ring); try (rewrite <- Xs; reflexivity). right. f_equal.
    replace (ny - 2)%Z with (k - 1)%Z by lia. field. lra.
  - rewrite <- K1, <- L1 in *. eapply Rle_trans; [|apply (CC (l - 1)%Z (k - 1)%Z (- dx) (- dy))]; try lia; try lra; try (rewrite Yp; ring); try (rewrite Xp; ring). right. f_equal.
    replace (ny - 2)%Z with (k - 1)%Z by lia. replace (nx - 2)%Z with (l - 1)%Z by lia. field. lra.
  - specialize (CX ltac:(lia)). specialize (CY ltac:(lia)). set (p := (py k (l + 1)%Z - py k (l - 1)%Z) / (2 * dx)) in *. set (q := (px (k + 1)%Z l - px (k - 1)%Z l) / (2 * dy)) in *.
    clearbody p q. replace ((p + q) / 2 - D 1%nat 1%nat (X l) (Y k)) with (((p - D 1%nat 1%nat (X l) (Y k)) + (q - D 1%nat 1%nat (X l) (Y k))) / 2) by field.
    unfold Rdiv at 1. rewrite Rabs_mult, (Rabs_pos_eq (/ 2)) by lra. unfold Rdiv at 5. apply Rmult_le_compat_r; [lra|]. eapply Rle_trans; [apply Rabs_triang|]. lra.
Qed.
Theorem mixed_accuracy : forall nx ny x0 y0 dx dy D M e px py m, (2 <= nx < 4294967296)%Z -> (2 <= ny < 4294967296)%Z -> 0 < dx -> 0 < dy ->
  let X := even_nodes x0 dx in let Y := even_nodes y0 dy in smooth2 D -> bounded_on (X 0%Z) (X (nx - 1)%Z) (Y 0%Z) (Y (ny - 1)%Z) D M ->
  holds Psix ny nx px m -> holds Psiy ny nx py m -> present Psixy ny nx m ->
  (forall k l, (0 <= k < ny)%Z -> (0 <= l < nx)%Z -> Rabs (px k l - D 1%nat 0%nat (X l) (Y k)) <= e /\ Rabs (py k l - D 0%nat 1%nat (X l) (Y k)) <= e) ->
  exists m', runs (update_mixed_derivatives nx ny dx dy 0 nx) (mixed_vars m) = Ok m' /\ only_changes [Psixy; Dxy1; Dxy2; D1; D2; D3; D4] m m' /\
    forall k l, (0 <= k < ny)%Z -> (0 <= l < nx)%Z -> exists v, m' (Psixy, k, l) = Some (ModelRefMem.D v) /\ Rabs (v - D 1%nat 1%nat (X l) (Y k)) <= mixed_bound nx ny k l dx dy M e.
Proof.
  intros nx ny x0 y0 dx dy D M e px py m N1 N2 Dx Dy X Y SD HM H1 H2 H3 Hp.
  destruct (mixed_loop nx ny dx dy _ _ 0 nx (mixed_vars m) N1 N2 ltac:(lia) ltac:(lia)
    (fun i j Hi Hj => eq_trans (mixed_vars_other Psix m i j eq_refl) (H1 i j Hi Hj))
    (fun i j Hi Hj => eq_trans (mixed_vars_other Psiy m i j eq_refl) (H2 i j Hi Hj))
    (fun i j Hi Hj => eq_ind_r (fun v => v <> None) (H3 i j Hi Hj) (mixed_vars_other Psixy m i j eq_refl))
    (fun a Ha => mixed_vars_var a m Ha)) as (m' & R' & Hm).
  exists m'. split; [exact R'|]. split.
  - intros a i j He. rewrite Hm by (destruct a; cbn in He |- *; congruence).
    rewrite mixed_vars_other by (destruct a; cbn in He |- *; congruence). destruct (in_rng ny 0 nx i j); destruct a; cbn in He; congruence.
  - intros k l Hk Hl. eexists. split; [rewrite Hm by reflexivity; rewrite in_rng_in by lia; reflexivity|].
    apply mixed_near; try assumption; try lia. intros k' l' (_ & _ & Q1 & Q2). apply Hp; assumption.
Qed.
