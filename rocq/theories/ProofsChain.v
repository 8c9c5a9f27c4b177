(** A function with continuous partial derivatives is differentiable along every differentiable curve. *)
From Coq Require Import Reals Lra.
From Verif Require Import Base ModelVec.
Open Scope R_scope.

Lemma vget_vset_same {A} (v : vec3 A) a x : vget (vset v a x) a = x.
Proof. destruct a; reflexivity. Qed.
Lemma vset_vset {A} (v : vec3 A) a x y : vset (vset v a x) a y = vset v a y.
Proof. destruct a; reflexivity. Qed.

Definition near (d : R) (x y : vec3 R) : Prop := forall a, Rabs (vget y a - vget x a) < d.

Section Chain.
Variables (phi : vec3 R -> R) (psi : vec3 R -> axis -> R) (x : vec3 R) (rho : R).
Hypothesis Hrho : 0 < rho.
Hypothesis Hder : forall y a, near rho x y -> derivable_pt_lim (fun t => phi (vset y a t)) (vget y a) (psi y a).
Hypothesis Hcont : forall eps, 0 < eps -> exists d, 0 < d /\ forall y, near d x y -> forall a, Rabs (psi y a - psi x a) < eps.

Lemma near_set d y a s : near d x y -> Rabs (s - vget x a) < d -> near d x (vset y a s).
Proof. intros H Hs b. specialize (H b). destruct a, b; cbn in *; auto. Qed.

Lemma between u v w d c : Rabs (v - u) < d -> Rabs (w - u) < d -> Rmin v w <= c <= Rmax v w -> Rabs (c - u) < d.
Proof.
  intros H1 H2 H. apply Rabs_def2 in H1. apply Rabs_def2 in H2. unfold Rmin, Rmax in H. destruct (Rle_dec v w); apply Rabs_def1; lra.
Qed.

Lemma axis_step d eps y a s : d <= rho -> (forall y, near d x y -> forall a, Rabs (psi y a - psi x a) < eps) ->
  near d x y -> Rabs (s - vget x a) < d ->
  Rabs (phi (vset y a s) - phi y - psi x a * (s - vget y a)) <= eps * Rabs (s - vget y a).
Proof.
  intros Hd HE Hy Hs.
  destruct (MVT_abs (fun t => phi (vset y a t) - psi x a * t) (fun t => psi (vset y a t) a - psi x a) (vget y a) s) as (c & E & Hc).
  { intros c Hc. pose proof (between _ _ _ _ c (Hy a) Hs Hc) as Hn.
    apply (derivable_pt_lim_minus (fun t => phi (vset y a t)) (fun t => psi x a * t)).
    - pose proof (Hder (vset y a c) a) as H. rewrite vget_vset_same in H.
      eapply derivable_pt_lim_ext in H; [exact H| |].
      + intros t. cbv beta. rewrite vset_vset. reflexivity.
      + intros b. pose proof (near_set d y a c Hy Hn b). lra.
    - pose proof (derivable_pt_lim_scal id (psi x a) c 1 (derivable_pt_lim_id c)) as K. rewrite Rmult_1_r in K. exact K. }
  pose proof (between _ _ _ _ c (Hy a) Hs Hc) as Hn.
  cbv beta in E. replace (vset y a (vget y a)) with y in E by (destruct y, a; reflexivity).
  replace (phi (vset y a s) - phi y - psi x a * (s - vget y a)) with (phi (vset y a s) - psi x a * s - (phi y - psi x a * vget y a)) by ring.
  rewrite E. apply Rmult_le_compat_r; [apply Rabs_pos|]. left. apply HE. apply near_set; auto.
Qed.

Lemma frechet eps : 0 < eps -> exists d, 0 < d /\ forall y, near d x y ->
  Rabs (phi y - phi x - (psi x AX * (vx y - vx x) + psi x AY * (vy y - vy x) + psi x AZ * (vz y - vz x)))
  <= eps * (Rabs (vx y - vx x) + Rabs (vy y - vy x) + Rabs (vz y - vz x)).
Proof.
  intros He. destruct (Hcont eps He) as (d0 & Hd0 & HE). exists (Rmin d0 rho). split; [apply Rmin_glb_lt; auto|].
  intros y Hy. set (d := Rmin d0 rho) in *.
  assert (Dr : d <= rho) by apply Rmin_r.
  assert (HE' : forall y, near d x y -> forall a, Rabs (psi y a - psi x a) < eps).
  { intros z Hz a. apply HE. intros b. eapply Rlt_le_trans; [apply Hz|apply Rmin_l]. }
  assert (Hd : 0 < d) by (unfold d; apply Rmin_glb_lt; auto).
  assert (Nx : near d x x) by (intros a; rewrite Rminus_eq_0, Rabs_R0; auto).
  set (z1 := vset x AX (vx y)). set (z2 := vset z1 AY (vy y)).
  assert (N1 : near d x z1) by (apply near_set; auto; apply (Hy AX)).
  assert (N2 : near d x z2) by (apply near_set; auto; apply (Hy AY)).
  pose proof (axis_step d eps x AX (vx y) Dr HE' Nx (Hy AX)) as S1. fold z1 in S1.
  pose proof (axis_step d eps z1 AY (vy y) Dr HE' N1 (Hy AY)) as S2. fold z2 in S2.
  pose proof (axis_step d eps z2 AZ (vz y) Dr HE' N2 (Hy AZ)) as S3.
  replace (vset z2 AZ (vz y)) with y in S3 by (destruct y; reflexivity).
  change (vget z1 AY) with (vy x) in S2. change (vget z2 AZ) with (vz x) in S3. cbn [vget] in S1.
  set (A := Rabs (vx y - vx x)) in *. set (B := Rabs (vy y - vy x)) in *. set (C := Rabs (vz y - vz x)) in *.
  set (r1 := phi z1 - phi x - psi x AX * (vx y - vx x)) in *.
  set (r2 := phi z2 - phi z1 - psi x AY * (vy y - vy x)) in *.
  set (r3 := phi y - phi z2 - psi x AZ * (vz y - vz x)) in *.
  replace (phi y - phi x - (psi x AX * (vx y - vx x) + psi x AY * (vy y - vy x) + psi x AZ * (vz y - vz x))) with (r1 + r2 + r3) by (unfold r1, r2, r3; ring).
  eapply Rle_trans; [apply Rabs_triang|]. eapply Rle_trans; [apply Rplus_le_compat_r; apply Rabs_triang|]. lra.
Qed.

Lemma chain (X : R -> vec3 R) (X' : axis -> R) t0 : X t0 = x ->
  (forall a, derivable_pt_lim (fun t => vget (X t) a) t0 (X' a)) ->
  derivable_pt_lim (fun t => phi (X t)) t0 (psi x AX * X' AX + psi x AY * X' AY + psi x AZ * X' AZ).
Proof.
  intros E0 HX eps Heps.
  set (S := 1 + Rabs (psi x AX) + Rabs (psi x AY) + Rabs (psi x AZ)).
  set (K := 3 + Rabs (X' AX) + Rabs (X' AY) + Rabs (X' AZ)).
  pose proof (Rabs_pos (psi x AX)) as P1. pose proof (Rabs_pos (psi x AY)) as P2. pose proof (Rabs_pos (psi x AZ)) as P3.
  pose proof (Rabs_pos (X' AX)) as Q1. pose proof (Rabs_pos (X' AY)) as Q2. pose proof (Rabs_pos (X' AZ)) as Q3.
  assert (HS : 0 < S) by (unfold S; lra). assert (HK : 0 < K) by (unfold K; lra).
  set (e2 := Rmin 1 (eps / (4 * S))). assert (He2 : 0 < e2) by (apply Rmin_glb_lt; [lra|apply Rdiv_lt_0_compat; lra]).
  destruct (frechet (eps / (4 * K))) as (d & Hd & HF); [apply Rdiv_lt_0_compat; lra|].
  destruct (HX AX e2 He2) as (d1 & H1). destruct (HX AY e2 He2) as (d2 & H2). destruct (HX AZ e2 He2) as (d3 & H3).
  assert (Hdl : 0 < Rmin (Rmin d1 d2) (Rmin d3 (d / K))).
  { repeat apply Rmin_glb_lt; try apply cond_pos. apply Rdiv_lt_0_compat; auto. }
  exists (mkposreal _ Hdl). intros h Hh Hlt. cbn [pos] in Hlt.
  assert (L1 : Rabs h < d1) by (eapply Rlt_le_trans; [exact Hlt|]; eapply Rle_trans; [apply Rmin_l|apply Rmin_l]).
  assert (L2 : Rabs h < d2) by (eapply Rlt_le_trans; [exact Hlt|]; eapply Rle_trans; [apply Rmin_l|apply Rmin_r]).
  assert (L3 : Rabs h < d3) by (eapply Rlt_le_trans; [exact Hlt|]; eapply Rle_trans; [apply Rmin_r|apply Rmin_l]).
  assert (L4 : Rabs h < d / K) by (eapply Rlt_le_trans; [exact Hlt|]; eapply Rle_trans; [apply Rmin_r|apply Rmin_r]).
  specialize (H1 h Hh L1). specialize (H2 h Hh L2). specialize (H3 h Hh L3). rewrite E0 in *.
  assert (Ha : 0 < Rabs h) by (apply Rabs_pos_lt; auto).
  set (y := X (t0 + h)) in *.
  set (qx := (vget y AX - vget x AX) / h) in *. set (qy := (vget y AY - vget x AY) / h) in *. set (qz := (vget y AZ - vget x AZ) / h) in *.
  assert (Ex : vx y - vx x = qx * h) by (unfold qx; cbn [vget]; field; auto).
  assert (Ey : vy y - vy x = qy * h) by (unfold qy; cbn [vget]; field; auto).
  assert (Ez : vz y - vz x = qz * h) by (unfold qz; cbn [vget]; field; auto).
  assert (E21 : e2 <= 1) by apply Rmin_l. assert (E2S : e2 <= eps / (4 * S)) by apply Rmin_r.
  assert (B : forall q q', Rabs (q - q') < e2 -> Rabs q <= Rabs q' + 1).
  { intros q q' Hq. replace q with ((q - q') + q') at 1 by ring. eapply Rle_trans; [apply Rabs_triang|]. lra. }
  pose proof (B _ _ H1) as B1. pose proof (B _ _ H2) as B2. pose proof (B _ _ H3) as B3.
  assert (KK : K * Rabs h < d).
  { apply Rmult_lt_reg_r with (/ K); [apply Rinv_0_lt_compat; auto|]. replace (K * Rabs h * / K) with (Rabs h) by (field; lra). exact L4. }
  assert (Ny : near d x y).
  { intros a. eapply Rle_lt_trans; [|exact KK]. destruct a; cbn [vget]; [rewrite Ex|rewrite Ey|rewrite Ez]; rewrite Rabs_mult; apply Rmult_le_compat_r; try lra; unfold K; lra. }
  specialize (HF y Ny). rewrite Ex, Ey, Ez in HF. rewrite !Rabs_mult in HF.
  set (r := phi y - phi x - _) in HF.
  replace ((phi y - phi x) / h - (psi x AX * X' AX + psi x AY * X' AY + psi x AZ * X' AZ))
    with (r / h + (psi x AX * (qx - X' AX) + psi x AY * (qy - X' AY) + psi x AZ * (qz - X' AZ))) by (unfold r; field; auto).
  assert (R1 : Rabs (r / h) <= eps / 4).
  { unfold Rdiv at 1. rewrite Rabs_mult, Rabs_inv. apply Rmult_le_reg_r with (Rabs h); auto.
    rewrite Rmult_assoc, Rinv_l, Rmult_1_r by lra. eapply Rle_trans; [exact HF|].
    replace (eps / (4 * K) * (Rabs qx * Rabs h + Rabs qy * Rabs h + Rabs qz * Rabs h)) with (eps / (4 * K) * (Rabs qx + Rabs qy + Rabs qz) * Rabs h) by ring.
    apply Rmult_le_compat_r; [lra|]. apply Rle_trans with (eps / (4 * K) * K); [|right; field; lra].
    apply Rmult_le_compat_l; [left; apply Rdiv_lt_0_compat; lra|]. unfold K. lra. }
  assert (R2 : Rabs (psi x AX * (qx - X' AX) + psi x AY * (qy - X' AY) + psi x AZ * (qz - X' AZ)) <= eps / 4).
  { apply Rle_trans with (S * e2).
    - eapply Rle_trans; [apply Rabs_triang|]. eapply Rle_trans; [apply Rplus_le_compat_r; apply Rabs_triang|]. rewrite !Rabs_mult.
      apply Rle_trans with (Rabs (psi x AX) * e2 + Rabs (psi x AY) * e2 + Rabs (psi x AZ) * e2).
      + repeat apply Rplus_le_compat; apply Rmult_le_compat_l; auto; lra.
      + unfold S. lra.
    - apply Rle_trans with (S * (eps / (4 * S))); [apply Rmult_le_compat_l; lra|]. right. field. lra. }
  eapply Rle_lt_trans; [apply Rabs_triang|]. lra.
Qed.
End Chain.
