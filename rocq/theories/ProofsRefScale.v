(** Units: the error of the back-trace when every derivative of the velocity brings another factor K. *)
From Coq Require Import ZArith List String Reals Lra Lia.
From Coquelicot Require Import Coquelicot.
From Verif Require Import Base Num ModelVec SpecGradient ModelRefMath ModelRefMem ModelRef SpecRef SpecRefRun SpecRefOrder
  ProofsTaylor ProofsRefHermite ProofsRefTrace ProofsRefOrder ProofsRefSmooth ProofsRefSmoothCases.
Import ListNotations.
Open Scope R_scope.

Lemma graded_bounded n V K w : graded3 n V K w -> forall x y s, Rabs (w x y s) <= V.
Proof. destruct n; intros (H & _); exact H. Qed.
Lemma graded_less n : forall V K w, graded3 (S n) V K w -> graded3 n V K w.
Proof.
  induction n as [|n IH]; intros V K w (H & wx & wy & ws & D & Hx & Hy & Hs); split; try exact H; [exact I|].
  exists wx, wy, ws. split; [exact D|]. repeat split; apply IH; assumption.
Qed.
(** the function in units K times smaller *)
Definition zoom (K : R) (w : R -> R -> R -> R) : R -> R -> R -> R := fun x y s => w (x / K) (y / K) (s / K).
Lemma zoom_diff K c w wx wy ws : 0 < K -> diff3 w wx wy ws ->
  diff3 (fun x y s => c * zoom K w x y s) (fun x y s => c / K * zoom K wx x y s) (fun x y s => c / K * zoom K wy x y s) (fun x y s => c / K * zoom K ws x y s).
Proof.
  intros HK D x y s eps He. set (C := Rabs c + 1). assert (HC : 0 < C) by (unfold C; pose proof (Rabs_pos c); lra).
  destruct (D (x / K) (y / K) (s / K) (eps * K / C)) as (d & Hd & H); [apply Rdiv_lt_0_compat; [apply Rmult_lt_0_compat; assumption|exact HC]|].
  exists (d * K). split; [apply Rmult_lt_0_compat; assumption|]. intros p q r Hp Hq Hr. unfold zoom.
  assert (A : forall a b, Rabs (a / K - b / K) = Rabs (a - b) / K).
  { intros a b. replace (a / K - b / K) with ((a - b) / K) by (field; lra). unfold Rdiv. rewrite Rabs_mult, (Rabs_pos_eq (/ K)); [reflexivity|left; apply Rinv_0_lt_compat; exact HK]. }
  assert (L : forall a b, Rabs (a - b) < d * K -> Rabs (a / K - b / K) < d).
  { intros a b Hab. rewrite A. apply (Rmult_lt_reg_r K); [exact HK|]. unfold Rdiv. rewrite Rmult_assoc, Rinv_l by lra. lra. }
  specialize (H (p / K) (q / K) (r / K) (L _ _ Hp) (L _ _ Hq) (L _ _ Hr)). rewrite !A in H.
  set (w1 := w (p / K) (q / K) (r / K)) in *. set (w0 := w (x / K) (y / K) (s / K)) in *. set (a := wx (x / K) (y / K) (s / K)) in *. set (b := wy (x / K) (y / K) (s / K)) in *. set (e := ws (x / K) (y / K) (s / K)) in *.
  replace (c * w1 - c * w0 - (c / K * a * (p - x) + c / K * b * (q - y) + c / K * e * (r - s)))
    with (c * (w1 - w0 - (a * (p / K - x / K) + b * (q / K - y / K) + e * (r / K - s / K)))) by (field; lra).
  rewrite Rabs_mult. set (S := Rabs (p - x) + Rabs (q - y) + Rabs (r - s)).
  assert (HS : 0 <= S) by (unfold S; pose proof (Rabs_pos (p - x)); pose proof (Rabs_pos (q - y)); pose proof (Rabs_pos (r - s)); lra).
  apply Rle_trans with (C * (eps * K / C * (S / K))).
  - apply Rmult_le_compat; try apply Rabs_pos; [unfold C; lra|]. eapply Rle_trans; [exact H|]. right. unfold S. field. split; lra.
  - right. field. split; lra.
Qed.
Lemma diff3_scaled_ext w w' wx wy ws : (forall x y s, w x y s = w' x y s) -> diff3 w wx wy ws -> diff3 w' wx wy ws.
Proof. apply diff3_ext. Qed.
Lemma zoom_smooth n : forall V' V K c w, 0 < K -> Rabs c * V' <= V -> graded3 n V' K w -> smooth3 n V (fun x y s => c * zoom K w x y s).
Proof.
  induction n as [|n IH]; intros V' V K c w HK Hc (H & HR).
  - split; [|exact I]. intros x y s. rewrite Rabs_mult. eapply Rle_trans; [|exact Hc]. apply Rmult_le_compat_l; [apply Rabs_pos|apply H].
  - destruct HR as (wx & wy & ws & D & Hx & Hy & Hs). split.
    + intros x y s. rewrite Rabs_mult. eapply Rle_trans; [|exact Hc]. apply Rmult_le_compat_l; [apply Rabs_pos|apply H].
    + exists (fun x y s => c / K * zoom K wx x y s), (fun x y s => c / K * zoom K wy x y s), (fun x y s => c / K * zoom K ws x y s). split; [apply zoom_diff; assumption|].
      assert (Hc' : Rabs (c / K) * (V' * K) <= V).
      { unfold Rdiv. rewrite Rabs_mult, (Rabs_pos_eq (/ K)) by (left; apply Rinv_0_lt_compat; exact HK). replace (Rabs c * / K * (V' * K)) with (Rabs c * V') by (field; lra). exact Hc. }
      repeat split; eapply IH; eassumption.
Qed.
Lemma zoom_smooth1 n V K w : 0 < K -> graded3 n V K w -> smooth3 n V (zoom K w).
Proof.
  intros HK H. apply (smooth_ext n V (fun x y s => 1 * zoom K w x y s)); [intros; ring|]. eapply zoom_smooth; [exact HK| |exact H]. rewrite Rabs_R1. lra.
Qed.
Lemma smooth_graded n : forall B w, graded3 n B 1 w -> smooth3 n B w.
Proof. intros B w H. apply (smooth_ext n B (zoom 1 w)); [intros; unfold zoom; rewrite !Rdiv_1; reflexivity|]. apply zoom_smooth1; [lra|exact H]. Qed.

(** a totally differentiable function has total derivatives at each time *)
Lemma diff3_plane w wx wy ws x y s : diff3 w wx wy ws -> differentiable_pt_lim (fun x y => w x y s) x y (wx x y s) (wy x y s).
Proof.
  intros D eps. destruct (D x y s (eps / 2)) as (d & Hd & H); [pose proof (cond_pos eps); lra|].
  exists (mkposreal d Hd). intros u v Hu Hv. cbn in Hu, Hv. specialize (H u v s Hu Hv). replace (s - s) with 0 in H by ring. rewrite Rabs_R0 in H. specialize (H Hd).
  rewrite Rmult_0_r, !Rplus_0_r in H. eapply Rle_trans; [exact H|]. pose proof (Rmax_l (Rabs (u - x)) (Rabs (v - y))). pose proof (Rmax_r (Rabs (u - x)) (Rabs (v - y))).
  pose proof (cond_pos eps). replace (eps * Rmax (Rabs (u - x)) (Rabs (v - y))) with (eps / 2 * (Rmax (Rabs (u - x)) (Rabs (v - y)) + Rmax (Rabs (u - x)) (Rabs (v - y)))) by field.
  apply Rmult_le_compat_l; lra.
Qed.

(** the flow in the smaller units *)
Definition remap (K : R) (F : flow R) (g1 g2 g3 g4 : R -> R -> R -> R) : flow R :=
  mkFlow (fun x y s Tp => Velx F (x / K) (y / K) (s / K) Tp) (fun x y s Tp => Vely F (x / K) (y / K) (s / K) Tp)
    (fun x y s _ => g1 x y s) (fun x y s _ => g2 x y s) (fun x y s _ => g3 x y s) (fun x y s _ => g4 x y s).
Lemma trace_remap K F g1 g2 g3 g4 rk3 x y t dt Tp : 0 < K -> step_number t ->
  back_trace (remap K F g1 g2 g3 g4) rk3 (K * x) (K * y) t (K * dt) Tp = (K * fst (back_trace F rk3 x y t dt Tp), K * snd (back_trace F rk3 x y t dt Tp)).
Proof.
  intros HK Ht.
  assert (T1 : time_at (t + 1) (K * dt) = K * time_at (t + 1) dt) by (rewrite !time_at_R1 by assumption; ring).
  assert (T0 : time_at t (K * dt) = K * time_at t dt) by (rewrite !time_at_R by assumption; ring).
  assert (Tm : time_mid t (K * dt) = K * time_mid t dt) by (unfold time_mid; rewrite T0; nr; field).
  assert (Z : forall a, K * a / K = a) by (intros; field; lra).
  assert (E1 : euler_back (remap K F g1 g2 g3 g4) (K * x) (K * y) t (K * dt) Tp = (K * fst (euler_back F x y t dt Tp), K * snd (euler_back F x y t dt Tp))).
  { unfold euler_back. cbn [remap Velx Vely fst snd]. rewrite T1, !Z. nr. f_equal; ring. }
  unfold back_trace. rewrite E1. cbn [fst snd]. destruct rk3; [|reflexivity]. set (e := euler_back F x y t dt Tp).
  assert (E2 : second_back (remap K F g1 g2 g3 g4) (K * x) (K * y) (K * fst e) (K * snd e) t (K * dt) Tp = (K * fst (second_back F x y (fst e) (snd e) t dt Tp), K * snd (second_back F x y (fst e) (snd e) t dt Tp))).
  { unfold second_back. cbn [remap Velx Vely fst snd]. rewrite T1, T0, !Z. nr. f_equal; field. }
  rewrite E2. cbn [fst snd]. set (b := second_back F x y (fst e) (snd e) t dt Tp).
  unfold third_back. cbn [remap Velx Vely fst snd]. rewrite T1, T0, Tm, !Z. nr. f_equal; field.
Qed.
Lemma follows_remap K F g1 g2 g3 g4 Tp lo hi X Y : 0 < K -> follows F Tp lo hi X Y ->
  follows (remap K F g1 g2 g3 g4) Tp (K * lo) (K * hi) (fun s => K * X (s / K)) (fun s => K * Y (s / K)).
Proof.
  intros HK H s Hs. assert (Hs' : lo <= s / K <= hi).
  { split; apply (Rmult_le_reg_r K); try exact HK; unfold Rdiv; rewrite Rmult_assoc, Rinv_l by lra; lra. }
  destruct (H (s / K) Hs') as (D1 & D2). cbn [remap Velx Vely]. assert (Z : forall a, K * a / K = a) by (intros; field; lra). rewrite !Z.
  assert (DI : derivable_pt_lim (fun s => s / K) s (/ K)).
  { apply is_derive_Reals. auto_derive; [auto|]. ring. }
  assert (C : forall (f : R -> R) l, derivable_pt_lim f (s / K) l -> derivable_pt_lim (fun s => K * f (s / K)) s l).
  { intros f l D. eapply ProofsTaylor.d_eq; [apply (derivable_pt_lim_scal (fun s => f (s / K)) K); apply (derivable_pt_lim_comp (fun s => s / K) f s (/ K) l DI D)|]. field. lra. }
  split; apply C; assumption.
Qed.
Lemma less3 n B F Tp : smooth_velocity (S n) B F Tp -> smooth_velocity n B F Tp.
Proof. intros (Hu & Hv). split; apply smooth_less; assumption. Qed.
(** the place of origin, with either scheme *)
Lemma origin_smooth F Tp t dt X Y B (rk3 : bool) : step_number t -> 0 <= dt -> true_gradients F Tp -> smooth_velocity 3 B F Tp ->
  let lo := IZR t * dt in let hi := (IZR t + 1) * dt in follows F Tp lo hi X Y ->
  let E := if rk3 then smooth_bound dt B else B * (1 + 2 * B) / 2 * dt ^ 2 in
  let p := back_trace F rk3 (X hi) (Y hi) t dt Tp in Rabs (X lo - fst p) <= E /\ Rabs (Y lo - snd p) <= E.
Proof.
  intros Ht Hdt HG HS lo hi HX. destruct rk3; [apply smooth_order; assumption|].
  pose proof (less3 1 B F Tp (less3 2 B F Tp HS)) as (Hu & Hv).
  pose proof (smooth_bounded _ _ _ Hu) as Bu. pose proof (smooth_bounded _ _ _ Hv) as Bv.
  destruct (smooth_path1 (fun x y s => Velx F x y s Tp) (fun x y s => Vely F x y s Tp) B lo hi X Y (fun s Hs => proj1 (HX s Hs)) (fun s Hs => proj2 (HX s Hs)) _ Bu Bv Hu) as (U1 & (DU & _) & BU).
  destruct (smooth_path1 (fun x y s => Velx F x y s Tp) (fun x y s => Vely F x y s Tp) B lo hi X Y (fun s Hs => proj1 (HX s Hs)) (fun s Hs => proj2 (HX s Hs)) _ Bu Bv Hv) as (V1 & (DV & _) & BV).
  apply (euler_order F Tp t dt X Y (B * (1 + 2 * B))); try assumption.
  - exists (fun s => Velx F (X s) (Y s) s Tp), U1. split; [|intros; apply BU; assumption]. repeat split; auto. intros s Hs. apply HX; exact Hs.
  - exists (fun s => Vely F (X s) (Y s) s Tp), V1. split; [|intros; apply BV; assumption]. repeat split; auto. intros s Hs. apply HX; exact Hs.
Qed.
Lemma origin F Tp t dt X Y V K rk3 : 0 < K -> step_number t -> 0 <= dt -> graded_velocity 3 V K F Tp ->
  let lo := IZR t * dt in let hi := (IZR t + 1) * dt in follows F Tp lo hi X Y ->
  let p := back_trace F rk3 (X hi) (Y hi) t dt Tp in Rabs (X lo - fst p) <= origin_bound rk3 dt V K /\ Rabs (Y lo - snd p) <= origin_bound rk3 dt V K.
Proof.
  intros HK Ht Hdt (Hu & Hv) lo hi HX. apply zoom_smooth1 in Hu; [|exact HK]. apply zoom_smooth1 in Hv; [|exact HK].
  pose proof Hu as (_ & ux & uy & us & Du & _). pose proof Hv as (_ & vx & vy & vs & Dv & _).
  set (F' := remap K F ux uy vx vy).
  assert (HG : true_gradients F' Tp) by (intros x y s; split; [exact (diff3_plane _ _ _ _ x y s Du)|exact (diff3_plane _ _ _ _ x y s Dv)]).
  pose proof (follows_remap K F ux uy vx vy Tp lo hi X Y HK HX) as HX'. fold F' in HX'.
  replace (K * lo) with (IZR t * (K * dt)) in HX' by (unfold lo; ring). replace (K * hi) with ((IZR t + 1) * (K * dt)) in HX' by (unfold hi; ring).
  pose proof (origin_smooth F' Tp t (K * dt) _ _ V rk3 Ht ltac:(apply Rmult_le_pos; lra) HG (conj Hu Hv) HX') as O. cbv beta zeta in O.
  replace ((IZR t + 1) * (K * dt) / K) with hi in O by (unfold hi; field; lra). replace (IZR t * (K * dt) / K) with lo in O by (unfold lo; field; lra).
  unfold F' in O. rewrite trace_remap in O by assumption. cbn [fst snd] in O. cbv zeta.
  set (p := back_trace F rk3 (X hi) (Y hi) t dt Tp) in *. 
  assert (EB : (if rk3 then smooth_bound (K * dt) V else V * (1 + 2 * V) / 2 * (K * dt) ^ 2) = K * origin_bound rk3 dt V K).
  { unfold origin_bound. destruct rk3; unfold smooth_bound; cbv zeta; field. }
  rewrite EB in O.
  assert (C : forall a b, Rabs (K * a - K * b) <= K * origin_bound rk3 dt V K -> Rabs (a - b) <= origin_bound rk3 dt V K).
  { intros a b H. replace (K * a - K * b) with (K * (a - b)) in H by ring. rewrite Rabs_mult, (Rabs_pos_eq K) in H by lra. apply (Rmult_le_reg_l K); assumption. }
  destruct O as (O1 & O2). split; apply C; assumption.
Qed.

(** *** the swirling flow *)
Lemma waves_graded K a b c : 0 <= K -> waves K a -> waves K b -> waves K c -> forall n i j k, graded3 n (K ^ (i + j + k)) K (fun x y s => a i x * b j y * c k s).
Proof.
  intros HK Ha Hb Hc. induction n as [|n IH]; intros i j k; (split; [intros x y s; rewrite !pow_add, !Rabs_mult; apply Rmult_le_compat; [apply Rmult_le_pos; apply Rabs_pos|apply Rabs_pos|apply Rmult_le_compat; try apply Rabs_pos; [apply Ha|apply Hb]|apply Hc]|]); [exact I|].
  exists (fun x y s => a (S i) x * b j y * c k s), (fun x y s => a i x * b (S j) y * c k s), (fun x y s => a i x * b j y * c (S k) s). split.
  - eapply diff3_ext'; [| | |apply (diff3_mul (fun x y _ => a i x * b j y) (fun x y _ => a (S i) x * b j y) (fun x y _ => a i x * b (S j) y) (fun _ _ _ => 0) (fun _ _ s => c k s) (fun _ _ _ => 0) (fun _ _ _ => 0) (fun _ _ s => c (S k) s))].
    + intros; cbv beta; ring.
    + intros; cbv beta; ring.
    + intros; cbv beta; ring.
    + eapply diff3_ext'; [| | |apply (diff3_mul _ _ _ _ _ _ _ _ (diff3_x (a i) (a (S i)) (fun z => proj1 (Ha i z))) (diff3_y (b j) (b (S j)) (fun z => proj1 (Hb j z))))]; intros; cbv beta; ring.
    + apply diff3_s. intros z. apply Hc.
  - replace (K ^ (i + j + k) * K) with (K ^ S (i + j + k)) by (cbn [pow]; ring).
    replace (S (i + j + k)) with (S i + j + k)%nat by lia. split; [apply IH|].
    replace (S i + j + k)%nat with (i + S j + k)%nat by lia. split; [apply IH|]. replace (i + S j + k)%nat with (i + j + S k)%nat by lia. apply IH.
Qed.
Lemma graded_ext n V K w w' : (forall x y s, w x y s = w' x y s) -> graded3 n V K w -> graded3 n V K w'.
Proof.
  intros E. destruct n; intros (H & HR); (split; [intros; rewrite <- E; apply H|]); [exact I|]. destruct HR as (wx & wy & ws & D & HR). exists wx, wy, ws. split; [|exact HR]. eapply diff3_ext; eassumption.
Qed.
Lemma vortex_graded n Tp K : 2 * PI <= K -> Rabs (PI / Tp) <= K -> graded_velocity n 1 K vortex Tp.
Proof.
  intros HK HT. pose proof PI_RGT_0 as HP. assert (HK1 : 0 <= K) by lra.
  assert (H2 : Rabs (2 * PI) <= K) by (rewrite Rabs_pos_eq; lra).
  assert (SQ : forall z, sin (PI * z) * sin (PI * z) = 1 / 2 - 1 / 2 * cos (2 * PI * z)).
  { intros z. replace (2 * PI * z) with (2 * (PI * z)) by ring. rewrite cos_2a_sin. field. }
  assert (h1 : Rabs (-1 / 2) <= 1 / 2) by (apply Rabs_le; lra). assert (h2 : Rabs (1 / 2) <= 1 / 2) by (apply Rabs_le; lra). assert (h3 : Rabs 1 <= 1) by (rewrite Rabs_R1; lra).
  split; cbn [vortex Velx Vely]; unfold sqr; nr.
  - apply (graded_ext n 1 K (fun x y s => lifted (-1 / 2) (2 * PI) (PI / 2) (1 / 2) 0 x * wave 1 (2 * PI) 0 0 y * wave 1 (PI / Tp) (PI / 2) 0 s)).
    + intros x y s. unfold lifted. rewrite !wave1, wave0, SQ. replace (PI / Tp * s) with (PI * s / Tp) by (unfold Rdiv; ring). field.
    + apply (waves_graded K (lifted (-1 / 2) (2 * PI) (PI / 2) (1 / 2)) (wave 1 (2 * PI) 0) (wave 1 (PI / Tp) (PI / 2)) HK1
        ltac:(apply lifted_waves; assumption) ltac:(apply wave_waves; assumption) ltac:(apply wave_waves; assumption) n 0%nat 0%nat 0%nat).
  - apply (graded_ext n 1 K (fun x y s => wave 1 (2 * PI) 0 0 x * lifted (1 / 2) (2 * PI) (PI / 2) (-1 / 2) 0 y * wave 1 (PI / Tp) (PI / 2) 0 s)).
    + intros x y s. unfold lifted. rewrite !wave1, wave0, SQ. replace (PI / Tp * s) with (PI * s / Tp) by (unfold Rdiv; ring). field.
    + apply (waves_graded K (wave 1 (2 * PI) 0) (lifted (1 / 2) (2 * PI) (PI / 2) (-1 / 2)) (wave 1 (PI / Tp) (PI / 2)) HK1
        ltac:(apply wave_waves; assumption) ltac:(apply lifted_waves; assumption) ltac:(apply wave_waves; assumption) n 0%nat 0%nat 0%nat).
Qed.
Lemma origin_vortex Tp K t dt X Y (rk3 : bool) : 2 * PI <= K -> Rabs (PI / Tp) <= K -> step_number t -> 0 <= dt ->
  let lo := IZR t * dt in let hi := (IZR t + 1) * dt in follows vortex Tp lo hi X Y ->
  let E := if rk3 then K ^ 3 * dt ^ 4 * (25 + 3 * K * dt) else K * dt ^ 2 * (3 / 2) in
  let p := back_trace vortex rk3 (X hi) (Y hi) t dt Tp in Rabs (X lo - fst p) <= E /\ Rabs (Y lo - snd p) <= E.
Proof.
  intros HK HT Ht Hdt lo hi HX. pose proof PI_RGT_0 as HP. pose proof (origin vortex Tp t dt X Y 1 K rk3 ltac:(lra) Ht Hdt (vortex_graded 3 Tp K HK HT) HX) as O.
  cbv zeta in *. replace (if rk3 then _ else _) with (origin_bound rk3 dt 1 K); [exact O|]. unfold origin_bound. destruct rk3; field.
Qed.
