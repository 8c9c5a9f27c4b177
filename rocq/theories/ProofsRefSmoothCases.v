(** Products of waves are smooth; the vortex; the examples. *)
From Coq Require Import ZArith List Reals Lra Lia.
From Coquelicot Require Import Coquelicot.
From Verif Require Import Base Num ModelVec ModelInterp SpecGradient ModelRefMath SpecRef SpecRefOrder ProofsHermite ProofsTaylor ProofsRefMath ProofsRefHermite ProofsRefTrace ProofsRefOrder ProofsRefSmooth.
Import ListNotations.
Open Scope R_scope.

(** *** total differentiability of products *)
Lemma diff3_ext w w' wx wy ws : (forall x y s, w x y s = w' x y s) -> diff3 w wx wy ws -> diff3 w' wx wy ws.
Proof. intros E D x y s eps He. destruct (D x y s eps He) as (d & Hd & H). exists d. split; [exact Hd|]. intros p q r. rewrite <- !E. apply H. Qed.
Lemma diff3_ext' w wx wy ws wx' wy' ws' : (forall x y s, wx x y s = wx' x y s) -> (forall x y s, wy x y s = wy' x y s) -> (forall x y s, ws x y s = ws' x y s) ->
  diff3 w wx wy ws -> diff3 w wx' wy' ws'.
Proof. intros E1 E2 E3 D x y s eps He. destruct (D x y s eps He) as (d & Hd & H). exists d. split; [exact Hd|]. intros p q r. rewrite <- E1, <- E2, <- E3. apply H. Qed.
Lemma smooth_ext n B : forall w w', (forall x y s, w x y s = w' x y s) -> smooth3 n B w -> smooth3 n B w'.
Proof.
  destruct n; intros w w' E (H & K); (split; [intros; rewrite <- E; apply H|]); [exact I|].
  destruct K as (wx & wy & ws & D & K). exists wx, wy, ws. split; [eapply diff3_ext; eassumption|exact K].
Qed.
Lemma one_diff a a' z eps : derivable_pt_lim a z a' -> 0 < eps -> exists d, 0 < d /\ forall p, Rabs (p - z) < d -> Rabs (a p - a z - a' * (p - z)) <= eps * Rabs (p - z).
Proof.
  intros D He. destruct (D eps He) as (d & H). exists d. split; [apply cond_pos|]. intros p Hp.
  destruct (Req_dec (p - z) 0) as [E|E].
  - replace p with z by lra. replace (a z - a z - a' * (z - z)) with 0 by ring. rewrite Rabs_R0. apply Rmult_le_pos; [lra|apply Rabs_pos].
  - specialize (H (p - z) E Hp). replace (z + (p - z)) with p in H by ring.
    replace (a p - a z - a' * (p - z)) with (((a p - a z) / (p - z) - a') * (p - z)) by (field; exact E). rewrite Rabs_mult.
    apply Rmult_le_compat_r; [apply Rabs_pos|lra].
Qed.
Lemma diff3_x a a' : (forall z, derivable_pt_lim a z (a' z)) -> diff3 (fun x _ _ => a x) (fun x _ _ => a' x) (fun _ _ _ => 0) (fun _ _ _ => 0).
Proof.
  intros D x y s eps He. destruct (one_diff a (a' x) x eps (D x) He) as (d & Hd & H). exists d. split; [exact Hd|]. intros p q r Hp Hq Hr.
  replace (a' x * (p - x) + 0 * (q - y) + 0 * (r - s)) with (a' x * (p - x)) by ring. eapply Rle_trans; [apply H; exact Hp|].
  apply Rmult_le_compat_l; [lra|]. pose proof (Rabs_pos (q - y)). pose proof (Rabs_pos (r - s)). lra.
Qed.
Lemma diff3_y a a' : (forall z, derivable_pt_lim a z (a' z)) -> diff3 (fun _ y _ => a y) (fun _ _ _ => 0) (fun _ y _ => a' y) (fun _ _ _ => 0).
Proof.
  intros D x y s eps He. destruct (one_diff a (a' y) y eps (D y) He) as (d & Hd & H). exists d. split; [exact Hd|]. intros p q r Hp Hq Hr.
  replace (0 * (p - x) + a' y * (q - y) + 0 * (r - s)) with (a' y * (q - y)) by ring. eapply Rle_trans; [apply H; exact Hq|].
  apply Rmult_le_compat_l; [lra|]. pose proof (Rabs_pos (p - x)). pose proof (Rabs_pos (r - s)). lra.
Qed.
Lemma diff3_s a a' : (forall z, derivable_pt_lim a z (a' z)) -> diff3 (fun _ _ s => a s) (fun _ _ _ => 0) (fun _ _ _ => 0) (fun _ _ s => a' s).
Proof.
  intros D x y s eps He. destruct (one_diff a (a' s) s eps (D s) He) as (d & Hd & H). exists d. split; [exact Hd|]. intros p q r Hp Hq Hr.
  replace (0 * (p - x) + 0 * (q - y) + a' s * (r - s)) with (a' s * (r - s)) by ring. eapply Rle_trans; [apply H; exact Hr|].
  apply Rmult_le_compat_l; [lra|]. pose proof (Rabs_pos (p - x)). pose proof (Rabs_pos (q - y)). lra.
Qed.
Lemma diff3_lip f fx fy fs x y s : diff3 f fx fy fs -> exists C d, 0 < d /\ 0 < C /\ forall p q r, Rabs (p - x) < d -> Rabs (q - y) < d -> Rabs (r - s) < d ->
  Rabs (f p q r - f x y s) <= C * (Rabs (p - x) + Rabs (q - y) + Rabs (r - s)).
Proof.
  intros D. destruct (D x y s 1 ltac:(lra)) as (d & Hd & H). exists (1 + (Rabs (fx x y s) + Rabs (fy x y s) + Rabs (fs x y s))), d.
  split; [exact Hd|]. pose proof (Rabs_pos (fx x y s)). pose proof (Rabs_pos (fy x y s)). pose proof (Rabs_pos (fs x y s)). split; [lra|].
  intros p q r Hp Hq Hr. specialize (H p q r Hp Hq Hr). set (a := fx x y s) in *. set (b := fy x y s) in *. set (c := fs x y s) in *.
  set (e := f p q r - f x y s - _) in H. replace (f p q r - f x y s) with (e + (a * (p - x) + b * (q - y) + c * (r - s))) by (unfold e; ring). clearbody e a b c.
  eapply Rle_trans; [apply Rabs_triang|]. eapply Rle_trans; [apply Rplus_le_compat_l, Rabs_triang|]. eapply Rle_trans; [apply Rplus_le_compat_l, Rplus_le_compat_r, Rabs_triang|]. rewrite !Rabs_mult.
  set (P := Rabs (p - x)) in *. set (Q := Rabs (q - y)) in *. set (U := Rabs (r - s)) in *. assert (0 <= P) by apply Rabs_pos. assert (0 <= Q) by apply Rabs_pos. assert (0 <= U) by apply Rabs_pos.
  clearbody P Q U. set (A := Rabs a) in *. set (B := Rabs b) in *. set (C := Rabs c) in *. clearbody A B C.
  assert (0 <= A * Q + A * U) by (apply Rplus_le_le_0_compat; apply Rmult_le_pos; assumption). assert (0 <= B * P + B * U) by (apply Rplus_le_le_0_compat; apply Rmult_le_pos; assumption).
  assert (0 <= C * P + C * Q) by (apply Rplus_le_le_0_compat; apply Rmult_le_pos; assumption).
  replace ((1 + (A + B + C)) * (P + Q + U)) with (1 * (P + Q + U) + (A * P + B * Q + C * U) + (A * Q + A * U) + (B * P + B * U) + (C * P + C * Q)) by ring. lra.
Qed.
Lemma diff3_mul f fx fy fs g gx gy gs : diff3 f fx fy fs -> diff3 g gx gy gs ->
  diff3 (fun x y s => f x y s * g x y s) (fun x y s => fx x y s * g x y s + f x y s * gx x y s) (fun x y s => fy x y s * g x y s + f x y s * gy x y s)
    (fun x y s => fs x y s * g x y s + f x y s * gs x y s).
Proof.
  intros Df Dg x y s eps He. set (A := Rabs (f x y s) + 1). set (B := Rabs (g x y s) + 1).
  assert (HA : 1 <= A) by (unfold A; pose proof (Rabs_pos (f x y s)); lra). assert (HB : 1 <= B) by (unfold B; pose proof (Rabs_pos (g x y s)); lra).
  destruct (Df x y s (eps / (3 * B)) ltac:(apply Rdiv_lt_0_compat; lra)) as (d1 & Hd1 & H1).
  destruct (Dg x y s (eps / (3 * A)) ltac:(apply Rdiv_lt_0_compat; lra)) as (d2 & Hd2 & H2).
  destruct (diff3_lip _ _ _ _ x y s Df) as (C & d3 & Hd3 & HC & H3). destruct (diff3_lip _ _ _ _ x y s Dg) as (C' & d4 & Hd4 & HC' & H4).
  assert (HCC : 0 < 3 * C * C') by (apply Rmult_lt_0_compat; lra).
  set (d5 := eps / (3 * (3 * C * C'))). assert (Hd5 : 0 < d5) by (apply Rdiv_lt_0_compat; lra).
  set (d := Rmin (Rmin d1 d2) (Rmin d3 (Rmin d4 d5))). exists d.
  assert (L : d <= d1 /\ d <= d2 /\ d <= d3 /\ d <= d4 /\ d <= d5).
  { unfold d. pose proof (Rmin_l (Rmin d1 d2) (Rmin d3 (Rmin d4 d5))). pose proof (Rmin_r (Rmin d1 d2) (Rmin d3 (Rmin d4 d5))). pose proof (Rmin_l d1 d2). pose proof (Rmin_r d1 d2).
    pose proof (Rmin_l d3 (Rmin d4 d5)). pose proof (Rmin_r d3 (Rmin d4 d5)). pose proof (Rmin_l d4 d5). pose proof (Rmin_r d4 d5). repeat split; lra. }
  split; [unfold d; repeat apply Rmin_glb_lt; assumption|]. clearbody d. destruct L as (L1 & L2 & L3 & L4 & L5). intros p q r Hp Hq Hr.
  specialize (H1 p q r ltac:(lra) ltac:(lra) ltac:(lra)). specialize (H2 p q r ltac:(lra) ltac:(lra) ltac:(lra)).
  specialize (H3 p q r ltac:(lra) ltac:(lra) ltac:(lra)). specialize (H4 p q r ltac:(lra) ltac:(lra) ltac:(lra)).
  set (D := Rabs (p - x) + Rabs (q - y) + Rabs (r - s)) in *. assert (HD : 0 <= D) by (unfold D; pose proof (Rabs_pos (p - x)); pose proof (Rabs_pos (q - y)); pose proof (Rabs_pos (r - s)); lra).
  assert (HD' : D <= 3 * d5) by (unfold D; lra). clearbody D.
  set (e1 := f p q r - f x y s - _) in H1. set (e2 := g p q r - g x y s - _) in H2.
  set (lhs := _ - _ - _). assert (E : lhs = g x y s * e1 + f x y s * e2 + (f p q r - f x y s) * (g p q r - g x y s)) by (unfold lhs, e1, e2; ring). rewrite E. clear E lhs.
  clearbody e1 e2. eapply Rle_trans; [apply Rabs_triang|]. eapply Rle_trans; [apply Rplus_le_compat_r, Rabs_triang|]. rewrite !Rabs_mult.
  assert (E1 : Rabs (g x y s) * Rabs e1 <= B * (eps / (3 * B) * D)) by (apply Rmult_le_compat; try apply Rabs_pos; [unfold B; lra|exact H1]).
  assert (E2 : Rabs (f x y s) * Rabs e2 <= A * (eps / (3 * A) * D)) by (apply Rmult_le_compat; try apply Rabs_pos; [unfold A; lra|exact H2]).
  assert (E3 : Rabs (f p q r - f x y s) * Rabs (g p q r - g x y s) <= (C * D) * (C' * D)) by (apply Rmult_le_compat; try apply Rabs_pos; assumption).
  replace (B * (eps / (3 * B) * D)) with (eps / 3 * D) in E1 by (field; lra). replace (A * (eps / (3 * A) * D)) with (eps / 3 * D) in E2 by (field; lra).
  assert (E4 : (C * D) * (C' * D) <= eps / 3 * D).
  { replace (C * D * (C' * D)) with (C * C' * D * D) by ring. apply Rmult_le_compat_r; [exact HD|]. apply Rle_trans with (C * C' * (3 * d5)).
    - apply Rmult_le_compat_l; [apply Rmult_le_pos; lra|exact HD'].
    - right. unfold d5. field. split; lra. }
  lra.
Qed.

(** *** waves *)
Definition waves (K : R) (a : nat -> R -> R) : Prop := forall i x, derivable_pt_lim (a i) x (a (S i) x) /\ Rabs (a i x) <= K ^ i.
Lemma waves_smooth K a b c : 1 <= K -> waves K a -> waves K b -> waves K c -> forall n i j k, smooth3 n (K ^ (n + i + j + k)) (fun x y s => a i x * b j y * c k s).
Proof.
  intros HK Ha Hb Hc. induction n as [|n IH]; intros i j k; (split; [intros x y s; apply Rle_trans with (K ^ (i + j + k));
    [rewrite !pow_add, !Rabs_mult; apply Rmult_le_compat; [apply Rmult_le_pos; apply Rabs_pos|apply Rabs_pos|apply Rmult_le_compat; try apply Rabs_pos; [apply Ha|apply Hb]|apply Hc]
    |apply Rle_pow; [exact HK|lia]]|]); [exact I|].
  exists (fun x y s => a (S i) x * b j y * c k s), (fun x y s => a i x * b (S j) y * c k s), (fun x y s => a i x * b j y * c (S k) s). split.
  - eapply diff3_ext'; [| | |apply (diff3_mul (fun x y _ => a i x * b j y) (fun x y _ => a (S i) x * b j y) (fun x y _ => a i x * b (S j) y) (fun _ _ _ => 0) (fun _ _ s => c k s) (fun _ _ _ => 0) (fun _ _ _ => 0) (fun _ _ s => c (S k) s))].
    + intros; cbv beta; ring.
    + intros; cbv beta; ring.
    + intros; cbv beta; ring.
    + eapply diff3_ext'; [| | |apply (diff3_mul _ _ _ _ _ _ _ _ (diff3_x (a i) (a (S i)) (fun z => proj1 (Ha i z))) (diff3_y (b j) (b (S j)) (fun z => proj1 (Hb j z))))]; intros; cbv beta; ring.
    + apply diff3_s. intros z. apply Hc.
  - replace (S n + i + j + k)%nat with (n + S i + j + k)%nat by lia. split; [apply IH|].
    replace (n + S i + j + k)%nat with (n + i + S j + k)%nat by lia. split; [apply IH|]. replace (n + i + S j + k)%nat with (n + i + j + S k)%nat by lia. apply IH.
Qed.
Definition wave (m k ph : R) (i : nat) (x : R) : R := m * k ^ i * sin (k * x + ph + INR i * (PI / 2)).
Lemma wave_derive m k ph i x : derivable_pt_lim (wave m k ph i) x (wave m k ph (S i) x).
Proof.
  unfold wave. rewrite S_INR. replace (k * x + ph + (INR i + 1) * (PI / 2)) with (PI / 2 + (k * x + ph + INR i * (PI / 2))) by ring. rewrite <- cos_sin.
  apply is_derive_Reals. auto_derive; [auto|]. simpl. ring.
Qed.
Lemma wave_bound m k ph i x K : Rabs m <= 1 -> Rabs k <= K -> Rabs (wave m k ph i x) <= K ^ i.
Proof.
  intros Hm Hk. unfold wave. rewrite !Rabs_mult. pose proof (Rabs_pos m).
  assert (Rabs (sin (k * x + ph + INR i * (PI / 2))) <= 1) by (apply Rabs_le, SIN_bound). rewrite <- RPow_abs.
  assert (0 <= Rabs k ^ i) by (apply pow_le, Rabs_pos). assert (Rabs k ^ i <= K ^ i) by (apply pow_incr; split; [apply Rabs_pos|exact Hk]).
  apply Rle_trans with (1 * K ^ i * 1); [|lra]. apply Rmult_le_compat; [apply Rmult_le_pos; lra|apply Rabs_pos| |lra]. apply Rmult_le_compat; lra.
Qed.
Lemma wave_waves m k ph K : Rabs m <= 1 -> Rabs k <= K -> waves K (wave m k ph).
Proof. intros Hm Hk i x. split; [apply wave_derive|apply wave_bound; assumption]. Qed.
(** a constant plus a wave *)
Definition lifted (m k ph c : R) (i : nat) (x : R) : R := (match i with O => c | _ => 0 end) + wave m k ph i x.
Lemma lifted_waves m k ph c K : Rabs m <= 1 / 2 -> Rabs c <= 1 / 2 -> Rabs k <= K -> waves K (lifted m k ph c).
Proof.
  intros Hm Hc Hk i x. unfold lifted. split.
  - destruct i; (eapply ProofsTaylor.d_eq; [apply (derivable_pt_lim_plus (fun _ => _) (wave m k ph _)); [apply derivable_pt_lim_const|apply wave_derive]|]); cbv beta iota; ring.
  - destruct i; [|rewrite Rplus_0_l; apply wave_bound; [lra|assumption]].
    eapply Rle_trans; [apply Rabs_triang|]. unfold wave. simpl (_ ^ 0). rewrite !Rabs_mult, Rabs_R1, Rmult_1_r.
    assert (Rabs (sin (k * x + ph + INR 0 * (PI / 2))) <= 1) by (apply Rabs_le, SIN_bound). pose proof (Rabs_pos m).
    assert (Rabs m * Rabs (sin (k * x + ph + INR 0 * (PI / 2))) <= 1 / 2 * 1) by (apply Rmult_le_compat; try lra; apply Rabs_pos). lra.
Qed.
Lemma wave0 m k x : wave m k 0 0 x = m * sin (k * x).
Proof. unfold wave. simpl. rewrite Rmult_0_l, !Rplus_0_r. ring. Qed.
Lemma wave1 m k x : wave m k (PI / 2) 0 x = m * cos (k * x).
Proof. unfold wave. simpl. rewrite Rmult_0_l, Rplus_0_r, cos_sin, (Rplus_comm (PI / 2)). ring. Qed.

Lemma k_one K : 2 * PI <= K -> 1 <= K.
Proof. intros H. pose proof PI2_1. lra. Qed.
Lemma vortex_smooth Tp K : 2 * PI <= K -> Rabs (PI / Tp) <= K -> smooth_velocity 3 (K ^ 3) vortex Tp.
Proof.
  intros HK HT. pose proof (k_one K HK) as HK1. pose proof PI_RGT_0 as HP.
  assert (H2 : Rabs (2 * PI) <= K) by (rewrite Rabs_pos_eq; lra).
  assert (SQ : forall z, sin (PI * z) * sin (PI * z) = 1 / 2 - 1 / 2 * cos (2 * PI * z)).
  { intros z. replace (2 * PI * z) with (2 * (PI * z)) by ring. rewrite cos_2a_sin. field. }
  assert (h1 : Rabs (-1 / 2) <= 1 / 2) by (apply Rabs_le; lra). assert (h2 : Rabs (1 / 2) <= 1 / 2) by (apply Rabs_le; lra). assert (h3 : Rabs 1 <= 1) by (rewrite Rabs_R1; lra).
  assert (h4 : Rabs (-1 / 2) <= 1) by (apply Rabs_le; lra).
  split; cbn [vortex Velx Vely]; unfold sqr; nr.
  - apply (smooth_ext 3 (K ^ 3) (fun x y s => lifted (-1 / 2) (2 * PI) (PI / 2) (1 / 2) 0 x * wave 1 (2 * PI) 0 0 y * wave 1 (PI / Tp) (PI / 2) 0 s)).
    + intros x y s. unfold lifted. rewrite !wave1, wave0, SQ. replace (PI / Tp * s) with (PI * s / Tp) by (unfold Rdiv; ring). field.
    + apply (waves_smooth K (lifted (-1 / 2) (2 * PI) (PI / 2) (1 / 2)) (wave 1 (2 * PI) 0) (wave 1 (PI / Tp) (PI / 2)) HK1
        ltac:(apply lifted_waves; assumption) ltac:(apply wave_waves; assumption) ltac:(apply wave_waves; assumption) 3%nat 0%nat 0%nat 0%nat).
  - apply (smooth_ext 3 (K ^ 3) (fun x y s => wave 1 (2 * PI) 0 0 x * lifted (1 / 2) (2 * PI) (PI / 2) (-1 / 2) 0 y * wave 1 (PI / Tp) (PI / 2) 0 s)).
    + intros x y s. unfold lifted. rewrite !wave1, wave0, SQ. replace (PI / Tp * s) with (PI * s / Tp) by (unfold Rdiv; ring). field.
    + apply (waves_smooth K (wave 1 (2 * PI) 0) (lifted (1 / 2) (2 * PI) (PI / 2) (-1 / 2)) (wave 1 (PI / Tp) (PI / 2)) HK1
        ltac:(apply wave_waves; assumption) ltac:(apply lifted_waves; assumption) ltac:(apply wave_waves; assumption) 3%nat 0%nat 0%nat 0%nat).
Qed.
Lemma vortex_order Tp K t dt X Y : 2 * PI <= K -> Rabs (PI / Tp) <= K -> step_number t -> 0 <= dt ->
  let lo := IZR t * dt in let hi := (IZR t + 1) * dt in
  follows vortex Tp lo hi X Y ->
  let p := back_trace vortex true (X hi) (Y hi) t dt Tp in
  Rabs (X lo - fst p) <= smooth_bound dt (K ^ 3) /\ Rabs (Y lo - snd p) <= smooth_bound dt (K ^ 3).
Proof. intros HK HT Ht Hdt lo hi HX. apply smooth_order; auto using vortex_true, vortex_smooth. Qed.

(** *** examples *)
Lemma shear_true Tp : true_gradients shear Tp.
Proof.
  intros x y s. cbn [shear Velx Vely gradUx gradUy gradVx gradVy]. split; [|apply d_const].
  eapply d_eq; [apply (d_ext (fun u v => (fun _ => cos s) u * sin v)); [intros; ring|apply (d_prod (fun _ => cos s) sin x y 0 (cos y)); [apply derivable_pt_lim_const|apply derivable_pt_lim_sin]]| |]; cbv beta; ring.
Qed.
Lemma shear_smooth Tp : smooth_velocity 3 1 shear Tp.
Proof.
  assert (one : Rabs 1 <= 1) by (rewrite Rabs_R1; lra). assert (zero : Rabs 0 <= 1) by (rewrite Rabs_R0; lra).
  assert (W : forall m k ph, Rabs m <= 1 -> Rabs k <= 1 -> waves 1 (wave m k ph)) by (intros; apply wave_waves; assumption).
  split; cbn [shear Velx Vely].
  - apply (smooth_ext 3 1 (fun x y s => wave 1 0 (PI / 2) 0 x * wave 1 1 0 0 y * wave 1 1 (PI / 2) 0 s)).
    + intros x y s. rewrite !wave1, wave0, Rmult_0_l, cos_0, !Rmult_1_l. reflexivity.
    + pose proof (waves_smooth 1 _ _ _ (Rle_refl 1) (W 1 0 (PI / 2) one zero) (W 1 1 0 one one) (W 1 1 (PI / 2) one one) 3%nat 0%nat 0%nat 0%nat) as H. rewrite pow1 in H. exact H.
  - apply (smooth_ext 3 1 (fun x y s => wave 0 0 0 0 x * wave 0 0 0 0 y * wave 0 0 0 0 s)).
    + intros x y s. rewrite !wave0. ring.
    + pose proof (waves_smooth 1 _ _ _ (Rle_refl 1) (W 0 0 0 zero zero) (W 0 0 0 zero zero) (W 0 0 0 zero zero) 3%nat 0%nat 0%nat 0%nat) as H. rewrite pow1 in H. exact H.
Qed.
Lemma shear_follows Tp a b lo hi : follows shear Tp lo hi (fun s => a + sin b * sin s) (fun _ => b).
Proof. intros s _. cbn [shear Velx Vely]. split; [|apply derivable_pt_lim_const]. apply is_derive_Reals. auto_derive; [auto|ring]. Qed.
Lemma shear_case : step_number 7 /\ true_gradients shear 1 /\ smooth_velocity 3 1 shear 1 /\
  follows shear 1 (IZR 7 * (1 / 10)) ((IZR 7 + 1) * (1 / 10)) (fun s => 3 + sin 2 * sin s) (fun _ => 2).
Proof. split; [unfold step_number; lia|]. split; [apply shear_true|]. split; [apply shear_smooth|apply shear_follows]. Qed.

Lemma swirl_true Tp : true_gradients swirl Tp.
Proof.
  intros x y s. cbn [swirl Velx Vely gradUx gradUy gradVx gradVy]. split.
  - eapply d_eq; [apply (d_ext (fun u v => (fun _ => 1) u * (cos s + sin (v - cos s)))); [intros; ring|apply (d_prod (fun _ => 1) (fun v => cos s + sin (v - cos s)) x y 0 (cos (y - cos s)));
      [apply derivable_pt_lim_const|apply is_derive_Reals; auto_derive; [auto|unfold Rminus; ring]]]| |]; cbv beta; ring.
  - eapply d_eq; [apply (d_ext (fun u v => (sin (u - sin s) - sin s) * (fun _ => 1) v)); [intros; ring|apply (d_prod (fun u => sin (u - sin s) - sin s) (fun _ => 1) x y (cos (x - sin s)) 0);
      [apply is_derive_Reals; auto_derive; [auto|unfold Rminus; ring]|apply derivable_pt_lim_const]]| |]; cbv beta; ring.
Qed.
Lemma lip1 f f' a b : (forall z, derivable_pt_lim f z (f' z)) -> (forall z, Rabs (f' z) <= 1) -> Rabs (f a - f b) <= Rabs (a - b).
Proof.
  intros D B. destruct (MVT_gen f b a f' (fun z _ => proj2 (is_derive_Reals f z (f' z)) (D z))) as (c & _ & E);
    [intros z _; apply derivable_continuous_pt; exists (f' z); apply D|].
  rewrite E, Rabs_mult. pose proof (B c). pose proof (Rabs_pos (a - b)). replace (Rabs (a - b)) with (1 * Rabs (a - b)) at 2 by ring. apply Rmult_le_compat_r; assumption.
Qed.
Lemma s1 z : Rabs (sin z) <= 1. Proof. apply Rabs_le, SIN_bound. Qed.
Lemma c1 z : Rabs (cos z) <= 1. Proof. apply Rabs_le, COS_bound. Qed.
Lemma cos_lip a b : Rabs (cos a - cos b) <= Rabs (a - b).
Proof. apply (lip1 cos (fun z => - sin z)); [apply derivable_pt_lim_cos|intros; rewrite Rabs_Ropp; apply s1]. Qed.
Lemma sin_lip a b : Rabs (sin a - sin b) <= Rabs (a - b).
Proof. apply (lip1 sin cos); [apply derivable_pt_lim_sin|apply c1]. Qed.
Lemma swirl_calm Tp x y lo hi r : calm swirl Tp x y lo hi r 2 1 1.
Proof.
  intros p q s _ _ _. cbn [swirl Velx Vely gradUx gradUy gradVx gradVy]. cbv zeta. pose proof (Rabs_pos (p - x)). pose proof (Rabs_pos (q - y)). pose proof (Rabs_pos (s - hi)).
  split; [eapply Rle_trans; [apply Rabs_triang|]; pose proof (c1 s); pose proof (s1 (q - cos s)); lra|].
  split; [eapply Rle_trans; [apply Rabs_triang|]; rewrite Rabs_Ropp; pose proof (s1 s); pose proof (s1 (p - sin s)); lra|].
  replace (0 - 0) with 0 by ring. rewrite Rabs_R0. split; [pose proof (c1 (q - cos s)); lra|]. split; [pose proof (c1 (p - sin s)); lra|]. split; [lra|]. split; [|split; [|lra]].
  - eapply Rle_trans; [apply cos_lip|]. replace (q - cos s - (y - cos hi)) with ((q - y) - (cos s - cos hi)) by ring. eapply Rle_trans; [apply Rabs_triang|]. rewrite Rabs_Ropp. pose proof (cos_lip s hi). lra.
  - eapply Rle_trans; [apply cos_lip|]. replace (p - sin s - (x - sin hi)) with ((p - x) - (sin s - sin hi)) by ring. eapply Rle_trans; [apply Rabs_triang|]. rewrite Rabs_Ropp. pose proof (sin_lip s hi). lra.
Qed.
Lemma swirl_follows Tp lo hi : follows swirl Tp lo hi sin cos.
Proof.
  intros s _. cbn [swirl Velx Vely]. replace (cos s - cos s) with 0 by ring. replace (sin s - sin s) with 0 by ring. rewrite sin_0, Rplus_0_r. split; [apply derivable_pt_lim_sin|].
  eapply ProofsTaylor.d_eq; [apply derivable_pt_lim_cos|ring].
Qed.
Lemma dns z : derivable_pt_lim (fun z => - sin z) z (- cos z). Proof. apply (derivable_pt_lim_opp sin), derivable_pt_lim_sin. Qed.
Lemma dnc z : derivable_pt_lim (fun z => - cos z) z (sin z). Proof. eapply ProofsTaylor.d_eq; [apply (derivable_pt_lim_opp cos), derivable_pt_lim_cos|ring]. Qed.
Lemma swirl_bounded lo hi : bounded4 lo hi sin 2 1 1 1 /\ bounded4 lo hi cos 2 1 1 1.
Proof.
  split.
  - exists cos, (fun z => - sin z), (fun z => - cos z), sin. split; [repeat split; intros; auto using derivable_pt_lim_sin, derivable_pt_lim_cos, dns, dnc|].
    intros s _. rewrite !Rabs_Ropp. pose proof (s1 s). pose proof (c1 s). repeat split; lra.
  - exists (fun z => - sin z), (fun z => - cos z), sin, cos. split; [repeat split; intros; auto using derivable_pt_lim_sin, derivable_pt_lim_cos, dns, dnc|].
    intros s _. rewrite !Rabs_Ropp. pose proof (s1 s). pose proof (c1 s). repeat split; lra.
Qed.
Lemma swirl_case : step_number 7 /\ true_gradients swirl 1 /\
  let lo := IZR 7 * (1 / 10) in let hi := (IZR 7 + 1) * (1 / 10) in
  follows swirl 1 lo hi sin cos /\ bounded4 lo hi sin 2 1 1 1 /\ bounded4 lo hi cos 2 1 1 1 /\ bounded2 lo hi sin 1 /\ bounded2 lo hi cos 1 /\
  calm swirl 1 (sin hi) (cos hi) lo hi (2 * (1 / 10)) 2 1 1.
Proof.
  split; [unfold step_number; lia|]. split; [apply swirl_true|]. intros lo hi. split; [apply swirl_follows|]. split; [apply swirl_bounded|]. split; [apply swirl_bounded|].
  split; [exists cos, (fun z => - sin z); split; [repeat split; intros; auto using derivable_pt_lim_sin, derivable_pt_lim_cos|intros; rewrite Rabs_Ropp; apply s1]|].
  split; [exists (fun z => - sin z), (fun z => - cos z); split; [repeat split; intros; auto using dns, derivable_pt_lim_cos|intros; rewrite Rabs_Ropp; apply c1]|].
  apply swirl_calm.
Qed.
