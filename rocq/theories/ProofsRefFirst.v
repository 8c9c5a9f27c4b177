(** The first time step from the circle of the reference programs. *)
From Coq Require Import ZArith List String Reals Lra Lia.
From Coquelicot Require Import Coquelicot.
From Verif Require Import Base Num NumB64 ModelVec SpecGradient ModelRefMath ModelRefMem ModelRef SpecRef SpecRefRun SpecRefOrder SpecRefStep SpecRefSolve SpecRefGrad SpecRefExist
  ProofsRefMath ProofsRefHermite ProofsRefTrace ProofsRefReal ProofsRefMain ProofsRefExact ProofsRefScale ProofsRefStepCases ProofsRefSolve ProofsRefSolveCases ProofsRefGradThird ProofsRefExist ProofsRefReverse.
Open Scope R_scope.

(** *** derivatives of exp (- z^2) *)
Fixpoint bells (n : nat) (z : R) : R * R :=
  match n with
  | O => (exp (- (z * z)), -2 * z * exp (- (z * z)))
  | S k => let p := bells k z in (snd p, -2 * z * snd p - 2 * INR (S k) * fst p)
  end.
Definition bell (n : nat) (z : R) : R := fst (bells n z).
Lemma bell_next n z : snd (bells n z) = bell (S n) z.
Proof. reflexivity. Qed.
Lemma bell_rec n z : bell (S (S n)) z = -2 * z * bell (S n) z - 2 * INR (S n) * bell n z.
Proof. unfold bell. cbn [bells fst snd]. reflexivity. Qed.
Lemma bell_1 z : bell 1 z = -2 * z * bell 0 z.
Proof. reflexivity. Qed.
Lemma bell_d n : forall z, derivable_pt_lim (bell n) z (bell (S n) z) /\ derivable_pt_lim (bell (S n)) z (bell (S (S n)) z).
Proof.
  induction n as [|n IH]; intros z.
  - assert (D0 : derivable_pt_lim (bell 0) z (bell 1 z)).
    { rewrite bell_1. unfold bell. cbn [bells fst]. apply is_derive_Reals. auto_derive; [exact I|]. ring. }
    split; [exact D0|]. apply is_derive_Reals. apply (is_derive_ext (fun z => -2 * z * bell 0 z)); [intros t; symmetry; apply bell_1|].
    apply is_derive_Reals in D0. rewrite (bell_rec 0 z). simpl INR.
    replace (-2 * z * bell 1 z - 2 * 1 * bell 0 z) with (plus (-2 * bell 0 z) (-2 * z * bell 1 z)) by (unfold plus; cbn; ring).
    apply (is_derive_mult (fun z => -2 * z) (bell 0) z (-2) (bell 1 z)); [|exact D0|intros; apply Rmult_comm].
    auto_derive; [exact I|ring].
  - destruct (IH z) as (D1 & D2). split; [exact D2|].
    apply is_derive_Reals. apply (is_derive_ext (fun z => -2 * z * bell (S n) z - 2 * INR (S n) * bell n z)); [intros t; symmetry; apply bell_rec|].
    apply is_derive_Reals in D1. apply is_derive_Reals in D2. rewrite (bell_rec (S n) z).
    replace (-2 * z * bell (S (S n)) z - 2 * INR (S (S n)) * bell (S n) z)
      with (minus (plus (-2 * bell (S n) z) (-2 * z * bell (S (S n)) z)) (2 * INR (S n) * bell (S n) z))
      by (unfold minus, plus, opp; cbn -[INR bell]; rewrite (S_INR (S n)); ring).
    apply (is_derive_minus (fun z => -2 * z * bell (S n) z) (fun z => 2 * INR (S n) * bell n z)).
    + apply (is_derive_mult (fun z => -2 * z) (bell (S n)) z (-2) (bell (S (S n)) z)); [|exact D2|intros; apply Rmult_comm]. auto_derive; [exact I|ring].
    + apply (is_derive_scal (bell n) z (2 * INR (S n)) (bell (S n) z)). exact D1.
Qed.
Definition bell_bound (n : nat) : R := match n with 0%nat => 1 | 1%nat => 1 | 2%nat => 2 | _ => 12 end.
Lemma bell_small n z : (n <= 4)%nat -> -1 <= z <= 1 -> Rabs (bell n z) <= bell_bound n.
Proof.
  intros Hn Hz. set (w := z * z). assert (Hw : 0 <= w <= 1) by (unfold w; split; [nra|nra]).
  assert (E : 0 < bell 0 z <= 1 /\ (1 + w) * bell 0 z <= 1).
  { unfold bell. cbn [bells fst]. fold w. pose proof (exp_pos (- w)) as P. pose proof (exp_ineq1_le w) as Q.
    assert (M : exp w * exp (- w) = 1) by (rewrite <- exp_plus, Rplus_opp_r; apply exp_0).
    assert (X : (1 + w) * exp (- w) <= 1) by (rewrite <- M; apply Rmult_le_compat_r; lra). split; [split; [lra|nra]|exact X]. }
  destruct E as ((P & Q) & X). pose proof (bell_1 z) as E1. pose proof (bell_rec 0 z) as E2. pose proof (bell_rec 1 z) as E3. pose proof (bell_rec 2 z) as E4. simpl INR in E2, E3, E4.
  set (g := bell 0 z) in *.
  assert (G : forall c b, - (b * (1 + w)) <= c <= b * (1 + w) -> Rabs (c * g) <= b).
  { intros c b Hc. assert (B0 : 0 <= b) by nra. rewrite Rabs_mult, (Rabs_pos_eq g) by lra. assert (C : Rabs c <= b * (1 + w)) by (apply Rabs_le; lra).
    apply Rle_trans with (b * (1 + w) * g); [apply Rmult_le_compat_r; lra|]. rewrite Rmult_assoc. rewrite <- (Rmult_1_r b) at 2. apply Rmult_le_compat_l; assumption. }
  assert (F2 : bell 2 z = (4 * w - 2) * g) by (rewrite E2, E1; unfold w; ring).
  assert (F3 : bell 3 z = (z * (12 - 8 * w)) * g) by (rewrite E3, F2, E1; unfold w; ring).
  assert (F4 : bell 4 z = (16 * w * w - 48 * w + 12) * g) by (rewrite E4, F3, F2; unfold w; ring).
  assert (HS : 0 <= (1 - z) * (1 - z) /\ 0 <= (1 + z) * (1 + z)) by (split; apply Rle_0_sqr). assert (WZ : w = z * z) by reflexivity.
  destruct n as [|[|[|[|[|n]]]]]; [| | | | |lia]; cbn [bell_bound].
  - rewrite Rabs_pos_eq; unfold g in *; lra.
  - rewrite E1. apply G. split; nra.
  - rewrite F2. apply G. split; lra.
  - rewrite F3. apply G. clear - Hz Hw. split; nra.
  - rewrite F4. apply G. clear - Hw. split; nra.
Qed.

(** *** the circle *)
Definition circle (i j : nat) (x y : R) : R := bell i (x - 1 / 2) * bell j (y - 3 / 4) - (if (i + j =? 0)%nat then exp (- (15 / 100 * (15 / 100))) else 0).
Lemma circle_smooth : smooth2 circle.
Proof.
  intros i j u v. unfold circle.
  assert (Sh : forall k c z, derivable_pt_lim (fun t => bell k (t - c)) z (bell (S k) (z - c))).
  { intros k c z. replace (bell (S k) (z - c)) with (bell (S k) (z - c) * (1 - 0)) by ring. apply (derivable_pt_lim_comp (fun t => t - c) (bell k)); [|apply bell_d].
    apply derivable_pt_lim_minus; [apply derivable_pt_lim_id|apply derivable_pt_lim_const]. }
  assert (Z1 : (S i + j =? 0)%nat = false) by reflexivity. assert (Z2 : (i + S j =? 0)%nat = false) by (apply Nat.eqb_neq; lia). rewrite Z1, Z2. split.
  - replace (bell (S i) (u - 1 / 2) * bell j (v - 3 / 4) - 0) with ((bell (S i) (u - 1 / 2) * bell j (v - 3 / 4) + bell i (u - 1 / 2) * 0) - 0) by ring.
    apply (derivable_pt_lim_minus (fun t => bell i (t - 1 / 2) * bell j (v - 3 / 4)) (fun _ => if (i + j =? 0)%nat then _ else 0)); [|apply derivable_pt_lim_const].
    apply (derivable_pt_lim_mult (fun t => bell i (t - 1 / 2)) (fun _ => bell j (v - 3 / 4))); [apply Sh|apply derivable_pt_lim_const].
  - replace (bell i (u - 1 / 2) * bell (S j) (v - 3 / 4) - 0) with ((0 * bell j (v - 3 / 4) + bell i (u - 1 / 2) * bell (S j) (v - 3 / 4)) - 0) by ring.
    apply (derivable_pt_lim_minus (fun t => bell i (u - 1 / 2) * bell j (t - 3 / 4)) (fun _ => if (i + j =? 0)%nat then _ else 0)); [|apply derivable_pt_lim_const].
    apply (derivable_pt_lim_mult (fun _ => bell i (u - 1 / 2)) (fun t => bell j (t - 3 / 4))); [apply derivable_pt_lim_const|apply Sh].
Qed.
Lemma circle_is x y : circle 0 0 x y = initialize x y /\ circle 1 0 x y = derivxinit x y /\ circle 0 1 x y = derivyinit x y /\ circle 1 1 x y = derivxyinit x y.
Proof.
  assert (B : bell 0 (x - 1 / 2) * bell 0 (y - 3 / 4) = exp (0 - ((x - 1 / 2) * (x - 1 / 2) + (y - 3 / 4) * (y - 3 / 4)))).
  { unfold bell. cbn [bells fst]. rewrite <- exp_plus. f_equal. ring. }
  unfold circle, initialize, derivxinit, derivyinit, derivxyinit, bump, init_xo, init_yo, rcircle, sqr. nr. cbn [Nat.add Nat.eqb]. rewrite !bell_1.
  replace (0 - 15 / 100 * (15 / 100)) with (- (15 / 100 * (15 / 100))) by ring.
  repeat split; rewrite <- B; ring.
Qed.
Lemma circle_near s : near_samples s circle (initial (node_x s) (node_y s)) 0 0 0.
Proof.
  intros i j _ _. destruct (circle_is (node_x s j) (node_y s i)) as (-> & -> & -> & ->). cbn [initial SpecRefRun.f_phi f_x f_y f_xy].
  repeat split; rewrite Rminus_diag_eq, Rabs_R0 by reflexivity; lra.
Qed.
Definition circle_bound (i j : nat) : R := bell_bound i * bell_bound j.
Lemma circle_in_box s : unit_square s -> bounded_in_box s circle circle_bound.
Proof.
  intros (E1 & E2 & E3 & E4) i j u v Hi Hj Hu Hv. rewrite E1, E2 in Hu. rewrite E3, E4 in Hv. unfold circle, circle_bound.
  pose proof (bell_small i (u - 1 / 2) Hi ltac:(lra)) as B1. pose proof (bell_small j (v - 3 / 4) Hj ltac:(lra)) as B2.
  destruct (i + j =? 0)%nat eqn:Z.
  - apply Nat.eqb_eq in Z. assert (i = 0%nat) by lia. assert (j = 0%nat) by lia. subst. cbn [bell_bound] in *.
    assert (P : forall z, 0 <= bell 0 z) by (intros z; unfold bell; cbn; left; apply exp_pos).
    pose proof (P (u - 1 / 2)) as P1. pose proof (P (v - 3 / 4)) as P2. rewrite Rabs_pos_eq in B1, B2 by assumption.
    pose proof (exp_pos (- (15 / 100 * (15 / 100)))) as Q1. assert (Q2 : exp (- (15 / 100 * (15 / 100))) <= 1) by (rewrite <- exp_0; left; apply exp_increasing; lra).
    assert (0 <= bell 0 (u - 1 / 2) * bell 0 (v - 3 / 4) <= 1) by (split; [apply Rmult_le_pos; assumption|apply Rle_trans with (1 * 1); [apply Rmult_le_compat; assumption|lra]]).
    apply Rabs_le. lra.
  - rewrite Rminus_0_r, Rabs_mult. apply Rmult_le_compat; try apply Rabs_pos; assumption.
Qed.

(** *** the first step *)
Lemma first_step whole s K : proper s -> unit_square s -> 0 <= s_dt s -> s_Tp s <> 0 -> 2 * PI <= K -> Rabs (PI / s_Tp s) <= K ->
  let E := if s_rk3 s then K ^ 3 * s_dt s ^ 4 * (25 + 3 * K * s_dt s) else K * s_dt s ^ 2 * (3 / 2) in let h := s_dx s in let k := s_dy s in
  E < h * (1 - K * s_dt s) -> E < k * (1 - K * s_dt s) ->
  exists u m0 m1, (forall lo hi, solves vortex (s_Tp s) lo hi u) /\ (forall x y, u x y 0 = initialize x y) /\
    setup s = Ok m0 /\ step whole vortex s 0 m0 = Ok m1 /\
    (forall i j, (0 <= i < s_ny s)%Z -> (0 <= j < s_nx s)%Z -> exists v, m1 (MPhi, i, j) = Some (ModelRefMem.D v) /\
      Rabs (v - u (node_x s j) (node_y s i) (s_dt s)) <= h ^ 4 / 32 + k ^ 4 / 32 + h * k ^ 4 / 128 + 2 * E) /\
    (s_psischeme s = "SuperConsistent"%string -> s_rk3 s = true -> K * s_dt s <= 1 / 4 ->
     forall i j, (0 < i < s_ny s - 1)%Z -> (0 < j < s_nx s - 1)%Z ->
      exists gx gy ux uy, m1 (MPsix, i, j) = Some (ModelRefMem.D gx) /\ m1 (MPsiy, i, j) = Some (ModelRefMem.D gy) /\
        differentiable_pt_lim (fun x y => u x y (s_dt s)) (node_x s j) (node_y s i) ux uy /\
        let b := 2 * (h ^ 3 / 2 + 3 * k ^ 4 / (32 * h) + k ^ 4 / 32 + h ^ 4 / 32 + k ^ 3 / 2 + h * k ^ 3 / 8) + 12 * E + 1080 * K ^ 4 * s_dt s ^ 4 in
        Rabs (gx - ux) <= b /\ Rabs (gy - uy) <= b).
Proof.
  intros P U Hdt HT HK HK' E h k G1 G2. destruct (vortex_solution (s_Tp s) initialize 0 HT initialize_differentiable) as (u & H1 & H2 & _).
  destruct (setup_ok s) as (m0 & S0 & S1 & S2 & _).
  assert (N0 : step_number 0) by (unfold step_number; lia).
  assert (H0 : forall x y, u x y (IZR 0 * s_dt s) = circle 0 0 x y) by (intros x y; rewrite Rmult_0_l, H2; symmetry; apply circle_is).
  assert (T1 : (IZR 0 + 1) * s_dt s = s_dt s) by ring.
  assert (Ph : 0 < h /\ 0 < k) by (split; [apply dx_pos, P|apply dy_pos, P]).
  destruct (step_vortex whole s 0 (initial (node_x s) (node_y s)) m0 circle circle_bound 0 0 0 K u P U N0 Hdt HK HK' circle_smooth (circle_in_box s U) S1 S2 (circle_near s) G1 G2 (H1 _ _) H0) as (m1 & Em & Hv).
  exists u, m0, m1. split; [exact H1|]. split; [exact H2|]. split; [exact S0|]. split; [exact Em|]. split.
  - intros i j Hi Hj. destruct (Hv i j Hi Hj) as (v & Ev & Bv). exists v. split; [exact Ev|]. rewrite T1 in Bv. eapply Rle_trans; [exact Bv|].
    unfold value_bound, circle_bound, bell_bound. fold h k E. right. field.
  - intros Sc Rk Hs i j Hi Hj. unfold E in *. rewrite Rk in *.
    destruct (step_third_vortex whole s 0 (initial (node_x s) (node_y s)) m0 circle circle_bound 0 0 0 K u P U Sc Rk N0 Hdt HK HK' Hs circle_smooth (circle_in_box s U) S1 S2 (circle_near s) G1 G2 (H1 _ _) H0) as (m1' & Em' & Hg).
    rewrite Em in Em'. injection Em' as <-. destruct (Hg i j Hi Hj) as (gx & gy & ux & uy & A1 & A2 & A3 & A4 & A5). exists gx, gy, ux, uy.
    rewrite T1 in A3. split; [exact A1|]. split; [exact A2|]. split; [exact A3|]. cbv zeta.
    assert (B : gradient_bound3 (s_dt s) 1 K circle_bound (slope_x_bound (s_dx s) (s_dy s) circle_bound 0 0 0) (slope_y_bound (s_dx s) (s_dy s) circle_bound 0 0 0) (K ^ 3 * s_dt s ^ 4 * (25 + 3 * K * s_dt s))
      = 2 * (h ^ 3 / 2 + 3 * k ^ 4 / (32 * h) + k ^ 4 / 32 + h ^ 4 / 32 + k ^ 3 / 2 + h * k ^ 3 / 8) + 12 * (K ^ 3 * s_dt s ^ 4 * (25 + 3 * K * s_dt s)) + 1080 * K ^ 4 * s_dt s ^ 4).
    { unfold gradient_bound3, slope_x_bound, slope_y_bound, circle_bound, bell_bound. fold h k. field. lra. }
    rewrite B in A4, A5. split; [exact A4|exact A5].
Qed.
Lemma first_case : proper gals_s /\ unit_square gals_s /\ 0 <= s_dt gals_s /\ s_Tp gals_s <> 0 /\ 2 * PI <= 8 /\ Rabs (PI / s_Tp gals_s) <= 8 /\
  s_psischeme gals_s = "SuperConsistent"%string /\ s_rk3 gals_s = true /\ 8 * s_dt gals_s <= 1 / 4 /\
  let E := 8 ^ 3 * s_dt gals_s ^ 4 * (25 + 3 * 8 * s_dt gals_s) in let h := s_dx gals_s in let k := s_dy gals_s in
  E < h * (1 - 8 * s_dt gals_s) /\ E < k * (1 - 8 * s_dt gals_s) /\
  h ^ 4 / 32 + k ^ 4 / 32 + h * k ^ 4 / 128 + 2 * E < 6 / 1000000 /\
  2 * (h ^ 3 / 2 + 3 * k ^ 4 / (32 * h) + k ^ 4 / 32 + h ^ 4 / 32 + k ^ 3 / 2 + h * k ^ 3 / 8) + 12 * E + 1080 * 8 ^ 4 * s_dt gals_s ^ 4 < 1 / 900.
Proof.
  destruct solve_case_vortex as (P & U & _ & Hdt & HK & HK' & _). split; [exact P|]. split; [exact U|]. split; [exact Hdt|]. split; [exact R1_neq_R0|]. split; [exact HK|]. split; [exact HK'|].
  split; [reflexivity|]. split; [reflexivity|]. split; [cbn [s_dt gals_s]; lra|].
  assert (ED : s_dx gals_s = 1 / 127 /\ s_dy gals_s = 1 / 127).
  { unfold s_dx, s_dy. cbn [s_xlim1 s_xlim2 s_ylim1 s_ylim2 s_nx s_ny gals_s]. nr. change (u32 (128 - 1)) with 127%Z. split; lra. }
  destruct ED as (-> & ->). cbv zeta. cbn [s_dt gals_s]. repeat split; lra.
Qed.
