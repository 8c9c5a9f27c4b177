(** The swirling flow: its solutions, their return to the start, and the error shown by Readfiles.m. *)
From Coq Require Import ZArith List String Reals Lra Lia.
From Coquelicot Require Import Coquelicot.
From Verif Require Import Base Num NumB64 ModelVec SpecGradient ModelRefMath ModelRefMem ModelRef ModelRefPrint SpecRef SpecRefRun SpecRefPrint SpecRefOrder SpecRefStep SpecRefSolve SpecRefExist
  ModelReadfiles SpecReadfiles ProofsRefMath ProofsRefHermite ProofsRefTrace ProofsRefScale ProofsRefSolve ProofsRefSolveCases ProofsReadfiles ProofsRefExist.
Open Scope R_scope.

Lemma initialize_differentiable : differentiable initialize.
Proof.
  intros x y. unfold initialize, bump, init_xo, init_yo, rcircle, sqr. nr.
  set (c := exp (0 - 15 / 100 * (15 / 100))). set (w := fun x y => 0 - ((x - 1 / 2) * (x - 1 / 2) + (y - 3 / 4) * (y - 3 / 4))).
  assert (Dw : differentiable_pt_lim w x y (- (2 * (x - 1 / 2))) (- (2 * (y - 3 / 4)))).
  { intros eps. pose proof (cond_pos eps) as He. assert (P : 0 < eps / 2) by lra. exists (mkposreal _ P). cbn [pos]. intros p q Hp Hq. unfold w.
    replace (_ - _ - _) with (- ((p - x) * (p - x) + (q - y) * (q - y))) by ring. rewrite Rabs_Ropp. eapply Rle_trans; [apply Rabs_triang|]. rewrite !Rabs_mult.
    pose proof (Rmax_l (Rabs (p - x)) (Rabs (q - y))). pose proof (Rmax_r (Rabs (p - x)) (Rabs (q - y))). set (m := Rmax _ _) in *.
    assert (Rabs (p - x) * Rabs (p - x) <= eps / 2 * m) by (apply Rmult_le_compat; try apply Rabs_pos; lra).
    assert (Rabs (q - y) * Rabs (q - y) <= eps / 2 * m) by (apply Rmult_le_compat; try apply Rabs_pos; lra). lra. }
  exists (exp (w x y) * (- (2 * (x - 1 / 2))) + 0 * 0), (exp (w x y) * (- (2 * (y - 3 / 4))) + 0 * 0).
  apply (differentiable_pt_lim_comp (fun a _ => exp a - c) w (fun _ _ => 0) x y); [|exact Dw|].
  - apply (differentiable_pt_lim_proj1_0 (fun a => exp a - c)). replace (exp (w x y)) with (exp (w x y) - 0) by ring. apply derivable_pt_lim_minus; [apply derivable_pt_lim_exp|apply derivable_pt_lim_const].
  - intros eps. exists (mkposreal 1 Rlt_0_1). intros p q _ _. replace (0 - 0 - (0 * (p - x) + 0 * (q - y))) with 0 by ring. rewrite Rabs_R0. apply Rmult_le_pos; [left; apply cond_pos|].
    eapply Rle_trans; [apply Rabs_pos|apply Rmax_l].
Qed.
Lemma vortex_some Tp : exists K, 0 <= K /\ graded_velocity 2 1 K vortex Tp.
Proof.
  exists (Rmax (2 * PI) (Rabs (PI / Tp))). pose proof PI_RGT_0. split; [eapply Rle_trans; [|apply Rmax_l]; lra|]. apply vortex_graded; [apply Rmax_l|apply Rmax_r].
Qed.
Lemma vortex_solution Tp D b : Tp <> 0 -> differentiable D ->
  exists u, (forall lo hi, solves vortex Tp lo hi u) /\ (forall x y, u x y b = D x y) /\
    forall lo hi u', lo <= b <= hi -> solves vortex Tp lo hi u' -> (forall x y, u' x y b = D x y) -> forall x y s, lo <= s <= hi -> u' x y s = u x y s.
Proof.
  intros _ HD. destruct (vortex_some Tp) as (K & HK & HV). destruct (one_solution vortex Tp 1 K D b HK HV (vortex_true Tp) HD) as (u & H1 & H2 & _ & H3). exists u. auto.
Qed.
Lemma vortex_returns Tp u x y s : Tp <> 0 -> s <= Tp / 2 -> solves vortex Tp s (Tp - s) u -> u x y (Tp - s) = u x y s.
Proof. intros HT Hs Hu. destruct (vortex_some Tp) as (K & HK & HV). apply (reversed vortex Tp 1 K); auto. intros p q r. apply vortex_reverses, HT. Qed.
(** the error that Readfiles.m shows *)
Lemma reported whole s n sh u d : 0 < s_Tp s -> shown_well whole vortex s n sh ->
  let q := (Z.to_nat (n / print_every s n) * Z.to_nat (print_every s n))%nat in INR q * s_dt s = s_Tp s ->
  solves vortex (s_Tp s) 0 (s_Tp s) u -> (forall x y, u x y 0 = initialize x y) ->
  (forall i j, (0 <= i < s_ny s)%Z -> (0 <= j < s_nx s)%Z -> Rabs (file_value whole vortex s FPhi q i j - u (node_x s j) (node_y s i) (INR q * s_dt s)) <= d) ->
  sh_e sh <= d + / 10 ^ 10.
Proof.
  intros HT Hw q Hq Hu H0 Hd. apply (e_lower whole vortex s n sh d Hw). intros i j Hi Hj. specialize (Hd i j Hi Hj). fold q. rewrite Hq in Hd.
  change (file_value whole vortex s FPhi 0 i j) with (initialize (node_x s j) (node_y s i)). rewrite <- H0.
  assert (Hu' : solves vortex (s_Tp s) 0 (s_Tp s - 0) u) by (rewrite Rminus_0_r; exact Hu).
  pose proof (vortex_returns (s_Tp s) u (node_x s j) (node_y s i) 0 ltac:(lra) ltac:(lra) Hu') as E. rewrite Rminus_0_r in E. rewrite <- E. exact Hd.
Qed.
Lemma reported_case : 0 < s_Tp gals_s /\ (IZR 256 <= s_Tfinal gals_s / s_dt gals_s < IZR 256 + 1) /\ print_every gals_s 256 = 16%Z /\ (2 * (256 mod 16) < 16)%Z /\
  INR (Z.to_nat (256 / print_every gals_s 256) * Z.to_nat (print_every gals_s 256)) * s_dt gals_s = s_Tp gals_s /\
  exists u, solves vortex (s_Tp gals_s) 0 (s_Tp gals_s) u /\ forall x y, u x y 0 = initialize x y.
Proof.
  cbn [s_Tp s_Tfinal s_dt gals_s]. split; [lra|]. split; [split; lra|]. split; [reflexivity|]. split; [reflexivity|]. split.
  - change (print_every gals_s 256) with 16%Z. rewrite mult_INR, !INR_IZR_INZ. change (Z.of_nat (Z.to_nat (256 / 16))) with 16%Z. change (Z.of_nat (Z.to_nat 16)) with 16%Z. lra.
  - destruct (vortex_solution 1 initialize 0 ltac:(lra) initialize_differentiable) as (u & H1 & H2 & _). exists u. split; [apply H1|exact H2].
Qed.
(** one step of the program and the one solution *)
Lemma step_one whole s t f m D M e0 e1 e2 K : proper s -> unit_square s -> step_number t -> 0 <= s_dt s -> s_Tp s <> 0 ->
  2 * PI <= K -> Rabs (PI / s_Tp s) <= K -> smooth2 D -> bounded_in_box s D M -> differentiable (D 0%nat 0%nat) ->
  nodes_at (s_nx s) (s_ny s) (node_x s) (node_y s) m -> contains (s_nx s) (s_ny s) f m -> near_samples s D f e0 e1 e2 ->
  let lo := IZR t * s_dt s in let hi := (IZR t + 1) * s_dt s in
  let E := if s_rk3 s then K ^ 3 * s_dt s ^ 4 * (25 + 3 * K * s_dt s) else K * s_dt s ^ 2 * (3 / 2) in
  E < s_dx s * (1 - K * s_dt s) -> E < s_dy s * (1 - K * s_dt s) ->
  exists u m', (forall lo hi, solves vortex (s_Tp s) lo hi u) /\ (forall x y, u x y lo = D 0%nat 0%nat x y) /\
    (forall u', solves vortex (s_Tp s) lo hi u' -> (forall x y, u' x y lo = D 0%nat 0%nat x y) -> forall x y, u' x y hi = u x y hi) /\
    step whole vortex s t m = Ok m' /\
    forall i j, (0 <= i < s_ny s)%Z -> (0 <= j < s_nx s)%Z ->
      exists v, m' (MPhi, i, j) = Some (ModelRefMem.D v) /\
        Rabs (v - u (node_x s j) (node_y s i) hi) <= value_bound (s_dx s) (s_dy s) M e0 e1 e2 + (M 1%nat 0%nat + M 0%nat 1%nat) * E.
Proof.
  intros P U Ht Hdt HT HK HK' S2 HM HD HN HC HS lo hi E G1 G2. destruct (vortex_solution (s_Tp s) (D 0%nat 0%nat) lo HT HD) as (u & H1 & H2 & H3).
  destruct (step_vortex whole s t f m D M e0 e1 e2 K u P U Ht Hdt HK HK' S2 HM HN HC HS G1 G2 (H1 _ _) H2) as (m' & E1 & E2). exists u, m'.
  assert (LH : lo <= hi) by (unfold lo, hi; lra).
  split; [exact H1|]. split; [exact H2|]. split; [|split; [exact E1|exact E2]]. intros u' Hu' E' x y. apply (H3 lo hi u' ltac:(lra) Hu' E'). lra.
Qed.
Lemma stream_differentiable : differentiable (stream 0 0).
Proof. intros x y. destruct (stream_solves 1 0 0) as (ux & uy & us & H & _). exists (ux x y 0), (uy x y 0). exact (diff3_plane _ _ _ _ x y 0 H). Qed.
