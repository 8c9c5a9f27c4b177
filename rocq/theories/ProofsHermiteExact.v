From Coq Require Import ZArith List Lia Bool Reals Lra.
From Verif Require Import Base Num ModelVec ModelGrid ModelArray ModelInterp SpecGrid SpecInterp
  ProofsBase ProofsGrid ProofsArray ProofsGridProps ProofsHermite ProofsHermiteCell.
Open Scope R_scope.

(** *** Exactness on polynomials *)
Definition node_samples dim c (q : nodal R) (p : vec3 R) : Prop :=
  q_phi q = poly c p /\ (forall a, used dim a = true -> vget (q_psi q) a = dpoly a c p) /\
  ((2 <= dim)%nat -> q_m0 q = tricubic true true false c p) /\
  ((3 <= dim)%nat -> q_m1 q = tricubic false true true c p /\ q_m2 q = tricubic true false true c p /\
                q_m3 q = tricubic true true true c p).

Definition is_corner dim (b b' : cell) : Prop :=
  forall a, ccoord b' a = ccoord b a \/ (used dim a = true /\ ccoord b' a = (ccoord b a + 1)%Z).

Lemma corner_refl dim b : is_corner dim b b. Proof. intros a; auto. Qed.
Lemma corner_x dim b : is_corner dim b (cstep b AX).
Proof. destruct b as [[i j] k]. intros [| |]; cbn; auto. Qed.
Lemma corner_step dim b b' a : used dim a = true -> is_corner dim b b' -> ccoord b' a = ccoord b a ->
  is_corner dim b (cstep b' a).
Proof.
  intros Hu H E. destruct b as [[i j] k], b' as [[i' j'] k'].
  intros a'. specialize (H a'). destruct a, a'; cbn [cstep ccoord] in *; auto; right; split; auto; lia.
Qed.

Definition lpos (p0 h : vec3 R) (b b' : cell) : vec3 R :=
  V3 (vx p0 + IZR (ccoord b' AX - ccoord b AX) * vx h)
     (vy p0 + IZR (ccoord b' AY - ccoord b AY) * vy h)
     (vz p0 + IZR (ccoord b' AZ - ccoord b AZ) * vz h).

Lemma tri_z dx dy dz c p : tricubic dx dy dz c p =
  P1 dz (fun k => P1 dx (fun i => P1 dy (fun j => c i j k) (vy p)) (vx p)) (vz p).
Proof.
  unfold tricubic.
  transitivity (P1 dx (fun i => P1 dz (fun k => P1 dy (fun j => c i j k) (vy p)) (vz p)) (vx p)).
  - apply P1_ext. intros i. apply P1_swap.
  - apply (P1_swap dx dz (fun i k => P1 dy (fun j => c i j k) (vy p))).
Qed.
Lemma tri_y dx dy dz c p : tricubic dx dy dz c p =
  P1 dy (fun j => P1 dx (fun i => P1 dz (fun k => c i j k) (vz p)) (vx p)) (vy p).
Proof. unfold tricubic. apply (P1_swap dx dy (fun i j => P1 dz (c i j) (vz p))). Qed.
Lemma tri_x dx dy dz c p : tricubic dx dy dz c p =
  P1 dx (fun i => P1 dy (fun j => P1 dz (fun k => c i j k) (vz p)) (vy p)) (vx p).
Proof. reflexivity. Qed.

(** one direction at a time, the derivative flags in the other directions are arbitrary *)
Lemma Hw_exact_x s dy dz c x0 h e y z :
  Hw (wts s e) (tricubic false dy dz c (V3 x0 y z)) (tricubic true dy dz c (V3 x0 y z))
     (tricubic false dy dz c (V3 (x0 + h) y z)) (tricubic true dy dz c (V3 (x0 + h) y z)) h
  = (if s then h else 1) * tricubic s dy dz c (V3 (x0 + e * h) y z).
Proof. rewrite !tri_x. cbn [vx vy vz]. apply Hw_exact. Qed.
Lemma Hw_exact_y s dx dz c y0 h e x z :
  Hw (wts s e) (tricubic dx false dz c (V3 x y0 z)) (tricubic dx true dz c (V3 x y0 z))
     (tricubic dx false dz c (V3 x (y0 + h) z)) (tricubic dx true dz c (V3 x (y0 + h) z)) h
  = (if s then h else 1) * tricubic dx s dz c (V3 x (y0 + e * h) z).
Proof. rewrite !tri_y. cbn [vx vy vz]. apply Hw_exact. Qed.
Lemma Hw_exact_z s dx dy c z0 h e x y :
  Hw (wts s e) (tricubic dx dy false c (V3 x y z0)) (tricubic dx dy true c (V3 x y z0))
     (tricubic dx dy false c (V3 x y (z0 + h))) (tricubic dx dy true c (V3 x y (z0 + h))) h
  = (if s then h else 1) * tricubic dx dy s c (V3 x y (z0 + e * h)).
Proof. rewrite !tri_z. cbn [vx vy vz]. apply Hw_exact. Qed.
Lemma Hw_scal w k p0 s0 p1 s1 h : four w -> Hw w (k * p0) (k * s0) (k * p1) (k * s1) h = k * Hw w p0 s0 p1 s1 h.
Proof. intros (a & b & c & d & ->). unfold Hw. field. Qed.

Lemma HD_exact dim s c Q b p0 h e : (1 <= dim <= 3)%nat ->
  (forall a, s = Some a -> used dim a = true) ->
  (forall b', is_corner dim b b' -> node_samples dim c (Q b') (lpos p0 h b b')) ->
  HD dim (Wt s e) Q b h =
  (match s with Some a => vget h a | None => 1 end) *
  tricubic (flag s AX) (flag s AY) (flag s AZ) c
    (V3 (vx p0 + vx e * vx h) (if used dim AY then vy p0 + vy e * vy h else vy p0)
        (if used dim AZ then vz p0 + vz e * vz h else vz p0)).
Proof.
  intros Hd Hs HQ.
  destruct p0 as [x0 y0 z0], h as [hx hy hz], e as [ex ey ez], b as [[i j] k].
  assert (HX : forall b', is_corner dim (i, j, k) b' -> forall x y z,
     x = x0 + IZR (ccoord b' AX - i) * hx -> y = y0 + IZR (ccoord b' AY - j) * hy ->
     z = z0 + IZR (ccoord b' AZ - k) * hz -> node_samples dim c (Q b') (V3 x y z)).
  { intros b' Hb' x y z -> -> ->. apply (HQ b' Hb'). }
  clear HQ.
  assert (D0 : forall m t h, t = t + IZR (m - m) * h) by (intros; rewrite Z.sub_diag; ring).
  assert (D1 : forall m t h, t + h = t + IZR (m + 1 - m) * h)
    by (intros; replace (m + 1 - m)%Z with 1%Z by lia; ring).
  dim_cases Hd; unfold HD, corners3, H2w, H3w, Wt; cbn [cstep vget vx vy vz used Nat.leb] in *.
  - destruct (HX (i, j, k) (corner_refl _ _) x0 y0 z0) as (A0 & B0 & _); [apply D0..|].
    destruct (HX (i + 1, j, k)%Z (corner_x _ (i, j, k)) (x0 + hx) y0 z0) as (A1 & B1 & _); [apply D1|apply D0|apply D0|].
    specialize (B0 AX eq_refl). specialize (B1 AX eq_refl). cbn [vget] in *.
    rewrite A0, B0, A1, B1. unfold poly, dpoly. rewrite Hw_exact_x.
    destruct s as [[| |]|]; cbn [flag axis_eqb]; try reflexivity;
      (specialize (Hs _ eq_refl); cbn in Hs; discriminate Hs).
  - assert (C00 := corner_refl 2 (i, j, k)).
    assert (C10 : is_corner 2 (i, j, k) (i + 1, j, k)%Z) by (apply (corner_step _ _ (i, j, k) AX); auto).
    assert (C01 : is_corner 2 (i, j, k) (i, j + 1, k)%Z) by (apply (corner_step _ _ (i, j, k) AY); auto).
    assert (C11 : is_corner 2 (i, j, k) (i + 1, j + 1, k)%Z) by (apply (corner_step _ _ (i + 1, j, k)%Z AY); auto).
    destruct (HX _ C00 x0 y0 z0) as (A0 & B0 & M0 & _); [apply D0..|].
    destruct (HX _ C10 (x0 + hx) y0 z0) as (A1 & B1 & M1 & _); [apply D1|apply D0|apply D0|].
    destruct (HX _ C01 x0 (y0 + hy) z0) as (A2 & B2 & M2 & _); [apply D0|apply D1|apply D0|].
    destruct (HX _ C11 (x0 + hx) (y0 + hy) z0) as (A3 & B3 & M3 & _); [apply D1|apply D1|apply D0|].
    pose proof (B0 AX eq_refl) as B0x. pose proof (B1 AX eq_refl) as B1x. pose proof (B2 AX eq_refl) as B2x. pose proof (B3 AX eq_refl) as B3x.
    specialize (B0 AY eq_refl). specialize (B1 AY eq_refl). specialize (B2 AY eq_refl). specialize (B3 AY eq_refl).
    cbn [vget] in *.
    rewrite A0, B0, B0x, M0, A1, B1, B1x, M1, A2, B2, B2x, M2, A3, B3, B3x, M3 by lia.
    unfold poly, dpoly. rewrite !Hw_exact_y, Hw_scal, Hw_exact_x by apply four_wts.
    destruct s as [[| |]|]; cbn [flag axis_eqb vget vx vy vz]; [ring|ring|specialize (Hs _ eq_refl); cbn in Hs; discriminate Hs|ring].
  - set (b := (i, j, k)) in *.
    assert (C000 := corner_refl 3 b).
    assert (C100 : is_corner 3 b (i + 1, j, k)%Z) by (apply (corner_step _ _ (i, j, k) AX); auto).
    assert (C010 : is_corner 3 b (i, j + 1, k)%Z) by (apply (corner_step _ _ (i, j, k) AY); auto).
    assert (C001 : is_corner 3 b (i, j, k + 1)%Z) by (apply (corner_step _ _ (i, j, k) AZ); auto).
    assert (C110 : is_corner 3 b (i + 1, j + 1, k)%Z) by (apply (corner_step _ _ (i + 1, j, k)%Z AY); auto).
    assert (C011 : is_corner 3 b (i, j + 1, k + 1)%Z) by (apply (corner_step _ _ (i, j + 1, k)%Z AZ); auto).
    assert (C101 : is_corner 3 b (i + 1, j, k + 1)%Z) by (apply (corner_step _ _ (i + 1, j, k)%Z AZ); auto).
    assert (C111 : is_corner 3 b (i + 1, j + 1, k + 1)%Z) by (apply (corner_step _ _ (i + 1, j + 1, k)%Z AZ); auto).
    assert (K : forall b' x y z, node_samples 3 c (Q b') (V3 x y z) ->
      q_phi (Q b') = tricubic false false false c (V3 x y z) /\
      vx (q_psi (Q b')) = tricubic true false false c (V3 x y z) /\
      vy (q_psi (Q b')) = tricubic false true false c (V3 x y z) /\
      vz (q_psi (Q b')) = tricubic false false true c (V3 x y z) /\
      q_m0 (Q b') = tricubic true true false c (V3 x y z) /\
      q_m1 (Q b') = tricubic false true true c (V3 x y z) /\
      q_m2 (Q b') = tricubic true false true c (V3 x y z) /\
      q_m3 (Q b') = tricubic true true true c (V3 x y z)).
    { intros b' x y z (A & B & M & N). destruct N as (N1 & N2 & N3); [lia|].
      pose proof (B AX eq_refl). pose proof (B AY eq_refl). pose proof (B AZ eq_refl). cbn [vget dpoly] in *.
      repeat split; auto. }
    destruct (K _ _ _ _ (HX _ C000 x0 y0 z0 (D0 _ _ _) (D0 _ _ _) (D0 _ _ _))) as (-> & -> & -> & -> & -> & -> & -> & ->).
    destruct (K _ _ _ _ (HX _ C100 (x0+hx) y0 z0 (D1 _ _ _) (D0 _ _ _) (D0 _ _ _))) as (-> & -> & -> & -> & -> & -> & -> & ->).
    destruct (K _ _ _ _ (HX _ C010 x0 (y0+hy) z0 (D0 _ _ _) (D1 _ _ _) (D0 _ _ _))) as (-> & -> & -> & -> & -> & -> & -> & ->).
    destruct (K _ _ _ _ (HX _ C001 x0 y0 (z0+hz) (D0 _ _ _) (D0 _ _ _) (D1 _ _ _))) as (-> & -> & -> & -> & -> & -> & -> & ->).
    destruct (K _ _ _ _ (HX _ C110 (x0+hx) (y0+hy) z0 (D1 _ _ _) (D1 _ _ _) (D0 _ _ _))) as (-> & -> & -> & -> & -> & -> & -> & ->).
    destruct (K _ _ _ _ (HX _ C011 x0 (y0+hy) (z0+hz) (D0 _ _ _) (D1 _ _ _) (D1 _ _ _))) as (-> & -> & -> & -> & -> & -> & -> & ->).
    destruct (K _ _ _ _ (HX _ C101 (x0+hx) y0 (z0+hz) (D1 _ _ _) (D0 _ _ _) (D1 _ _ _))) as (-> & -> & -> & -> & -> & -> & -> & ->).
    destruct (K _ _ _ _ (HX _ C111 (x0+hx) (y0+hy) (z0+hz) (D1 _ _ _) (D1 _ _ _) (D1 _ _ _))) as (-> & -> & -> & -> & -> & -> & -> & ->).
    rewrite !Hw_exact_z, !Hw_scal, !Hw_exact_y, !Hw_scal, Hw_exact_x by apply four_wts.
    destruct s as [[| |]|]; cbn [flag axis_eqb vget vx vy vz]; ring.
Qed.
