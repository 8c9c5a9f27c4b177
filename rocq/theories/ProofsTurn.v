(** One step of the library in the circular velocity field. *)
From Coq Require Import ZArith List String Reals Lra Lia.
From Coquelicot Require Import Rcomplements Rbar Hierarchy Continuity Derive Derive_2d AutoDerive.
From Verif Require Import Base Num ModelVec ModelGrid ModelArray ModelInterp ModelTemporal ModelAnalytic ModelApp SpecGrid SpecInterp SpecGradient SpecTemporal SpecAccuracy SpecAnalytic SpecTurn SpecRefExist
  ProofsBase ProofsGrid ProofsArray ProofsGridProps ProofsTaylor ProofsInterp ProofsInterpProps ProofsInterpApi ProofsTemporal ProofsTemporalCases
  ProofsAccuracy ProofsAccuracyStep ProofsRunStep ProofsAnalytic ProofsAnalyticR ProofsApp.
Open Scope R_scope.

(** *** the exact solution *)
Lemma affine_differentiable (a b c x y : R) : differentiable_pt_lim (fun x y => c + a * x + b * y) x y a b.
Proof.
  intros eps. exists (mkposreal 1 Rlt_0_1). intros u v _ _. replace (_ - _) with 0 by ring. rewrite Rabs_R0.
  apply Rmult_le_pos; [apply Rlt_le, cond_pos|]. eapply Rle_trans; [apply Rabs_pos|apply Rmax_l].
Qed.
Lemma cos_move w t : derivable_pt_lim (fun t => cos (w * t)) t (- (w * sin (w * t))).
Proof.
  eapply d_eq; [apply (derivable_pt_lim_comp (fun t => w * t) cos); [apply d_lin|apply derivable_pt_lim_cos]|]. ring.
Qed.
Lemma sin_move w t : derivable_pt_lim (fun t => sin (w * t)) t (w * cos (w * t)).
Proof.
  eapply d_eq; [apply (derivable_pt_lim_comp (fun t => w * t) sin); [apply d_lin|apply derivable_pt_lim_sin]|]. ring.
Qed.
Lemma combine c p q w t : derivable_pt_lim (fun t => c + cos (w * t) * p + sin (w * t) * q) t (w * (cos (w * t) * q - sin (w * t) * p)).
Proof.
  apply derivable_pt_lim_ext with (f := fun t => c + (p * cos (w * t) + q * sin (w * t))); [intros; ring|].
  eapply d_eq; [apply (derivable_pt_lim_plus (fun _ => c) (fun t => p * cos (w * t) + q * sin (w * t))); [apply d_const|]|].
  - apply (derivable_pt_lim_plus (fun t => p * cos (w * t)) (fun t => q * sin (w * t))).
    + apply (derivable_pt_lim_scal (fun t => cos (w * t))), cos_move.
    + apply (derivable_pt_lim_scal (fun t => sin (w * t))), sin_move.
  - ring.
Qed.
Lemma turned_slopes f w cx cy t x y a b :
  differentiable_pt_lim f (cx + cos (w * t) * (x - cx) + sin (w * t) * (y - cy)) (cy - sin (w * t) * (x - cx) + cos (w * t) * (y - cy)) a b ->
  differentiable_pt_lim (fun x y => turned f w cx cy t x y) x y (a * cos (w * t) + b * - sin (w * t)) (a * sin (w * t) + b * cos (w * t)) /\
  derivable_pt_lim (fun t => turned f w cx cy t x y) t
    (a * (w * (cos (w * t) * (y - cy) - sin (w * t) * (x - cx))) + b * (w * (cos (w * t) * - (x - cx) - sin (w * t) * (y - cy)))).
Proof.
  intros D. set (c := cos (w * t)) in *. set (s := sin (w * t)) in *.
  assert (E1 : forall x y, cx + c * (x - cx) + s * (y - cy) = (cx - c * cx - s * cy) + c * x + s * y) by (intros; ring).
  assert (E2 : forall x y, cy - s * (x - cx) + c * (y - cy) = (cy + s * cx - c * cy) + - s * x + c * y) by (intros; ring).
  split.
  - unfold turned. fold c s.
    apply (differentiable_pt_lim_ext (fun x y => f ((cx - c * cx - s * cy) + c * x + s * y) ((cy + s * cx - c * cy) + - s * x + c * y))).
    { apply locally_2d_forall. intros. rewrite <- E1, <- E2. reflexivity. }
    apply (differentiable_pt_lim_comp f (fun x y => (cx - c * cx - s * cy) + c * x + s * y) (fun x y => (cy + s * cx - c * cy) + - s * x + c * y));
      [rewrite <- E1, <- E2; exact D|apply affine_differentiable|apply affine_differentiable].
  - unfold turned.
    apply (derivable_pt_lim_comp_2d f (fun t => cx + cos (w * t) * (x - cx) + sin (w * t) * (y - cy)) (fun t => cy - sin (w * t) * (x - cx) + cos (w * t) * (y - cy)) t); [exact D|apply combine|].
    apply derivable_pt_lim_ext with (f := fun t => cy + cos (w * t) * (y - cy) + sin (w * t) * - (x - cx)); [intros; ring|]. apply combine.
Qed.
Lemma turned_solves f w cx cy : differentiable f ->
  (forall x y, turned f w cx cy 0 x y = f x y) /\
  forall t x y z, exists ux uy us, differentiable_pt_lim (fun x y => turned f w cx cy t x y) x y ux uy /\ derivable_pt_lim (fun t => turned f w cx cy t x y) t us /\
    let v := rotation w cx cy (V3 x y z) in us + vx v * ux + vy v * uy = 0.
Proof.
  intros D. split.
  - intros x y. unfold turned. rewrite Rmult_0_r, cos_0, sin_0. f_equal; ring.
  - intros t x y z. destruct (D (cx + cos (w * t) * (x - cx) + sin (w * t) * (y - cy)) (cy - sin (w * t) * (x - cx) + cos (w * t) * (y - cy))) as (a & b & H).
    destruct (turned_slopes f w cx cy t x y a b H) as (H1 & H2). eexists _, _, _. split; [exact H1|]. split; [exact H2|]. cbn [rotation vx vy]. ring.
Qed.

(** *** the path of a particle *)
Lemma chord th : 0 <= th -> 2 * (1 - cos th) <= th ^ 2.
Proof.
  intros H. assert (E : cos th = 1 - 2 * sin (th / 2) * sin (th / 2)) by (rewrite <- cos_2a_sin; f_equal; field).
  assert (B : Rabs (sin (th / 2)) <= th / 2).
  { destruct (Req_dec th 0) as [->|N]; [replace (0 / 2) with 0 by field; rewrite sin_0, Rabs_R0; lra|].
    apply Rabs_le. pose proof (sin_lt_x (th / 2) ltac:(lra)). split; [|lra].
    destruct (Rle_dec (th / 2) PI) as [L|L].
    - pose proof (sin_ge_0 (th / 2) ltac:(lra) L). lra.
    - pose proof (SIN_bound (th / 2)). pose proof PI2_3_2. lra. }
  assert (Q : sin (th / 2) * sin (th / 2) <= (th / 2) * (th / 2)).
  { rewrite <- (Rabs_pos_eq (sin (th / 2) * sin (th / 2))) by (apply Rle_0_sqr). rewrite Rabs_mult. apply Rmult_le_compat; auto using Rabs_pos. }
  rewrite E. lra.
Qed.
Lemma part_le u v r : 0 <= r -> u ^ 2 + v ^ 2 <= r ^ 2 -> Rabs u <= r /\ Rabs v <= r.
Proof.
  intros Hr H. assert (T : forall z, z ^ 2 <= r ^ 2 -> Rabs z <= r).
  { intros z Hz. rewrite <- (Rabs_pos_eq r Hr). apply Rsqr_le_abs_0. unfold Rsqr. lra. }
  pose proof (pow2_ge_0 u). pose proof (pow2_ge_0 v). split; apply T; lra.
Qed.
Lemma turn_keeps c s p q : s * s + c * c = 1 -> (c * p + s * q) ^ 2 + (c * q - s * p) ^ 2 = p ^ 2 + q ^ 2.
Proof. intros H. replace ((c * p + s * q) ^ 2 + (c * q - s * p) ^ 2) with ((s * s + c * c) * (p ^ 2 + q ^ 2)) by ring. rewrite H. ring. Qed.

Lemma depth_x b e m (c : Z) : b < e -> (0 <= c < m)%Z -> forall d, Rabs d < spacing b e m -> b - spacing b e m / 2 < centre b e m c - d < e + spacing b e m / 2.
Proof.
  intros Hbe Hc d Hd. assert (E1 : spacing b e m * IZR m = e - b) by (unfold spacing; field; apply not_0_IZR; lia).
  assert (SP : 0 < spacing b e m) by (apply spacing_pos; [exact Hbe|lia]).
  assert (C0 : 0 <= IZR c) by (apply IZR_le; lia). assert (C1 : IZR c + 1 <= IZR m) by (rewrite <- plus_IZR; apply IZR_le; lia).
  pose proof (Rmult_le_compat_l _ _ _ (Rlt_le _ _ SP) C0). pose proof (Rmult_le_compat_l _ _ _ (Rlt_le _ _ SP) C1).
  unfold centre. apply Rabs_def2 in Hd. lra.
Qed.

(** the particle that is at p at time dt *)
Definition orbit (w cx cy dt : R) (p : vec3 R) (a : axis) (t : R) : R :=
  match a with
  | AX => cx + cos (w * (dt - t)) * (vx p - cx) + sin (w * (dt - t)) * (vy p - cy)
  | AY => cy + cos (w * (dt - t)) * (vy p - cy) + sin (w * (dt - t)) * - (vx p - cx)
  | AZ => 0
  end.
Lemma orbit_moves w cx cy dt p t : derivable_pt_lim (orbit w cx cy dt p AX) t (w * (cy - orbit w cx cy dt p AY t)) /\
  derivable_pt_lim (orbit w cx cy dt p AY) t (w * (orbit w cx cy dt p AX t - cx)).
Proof.
  assert (R : forall (f : R -> R) f', derivable_pt_lim f (dt - t) f' -> derivable_pt_lim (fun t => f (dt - t)) t (- f')).
  { intros f f' D. eapply d_eq; [apply (derivable_pt_lim_comp (fun s => dt - s) f)|].
    - apply (derivable_pt_lim_minus (fun _ => dt) id); [apply d_const|apply derivable_pt_lim_id].
    - exact D.
    - ring. }
  split.
  - eapply d_eq; [apply (R (fun t => cx + cos (w * t) * (vx p - cx) + sin (w * t) * (vy p - cy))), combine|]. cbn [orbit]. ring.
  - eapply d_eq; [apply (R (fun t => cy + cos (w * t) * (vy p - cy) + sin (w * t) * - (vx p - cx))), combine|]. cbn [orbit]. ring.
Qed.
Lemma orbit_near w cx cy dt p t r : 0 <= r -> (vx p - cx) ^ 2 + (vy p - cy) ^ 2 <= r ^ 2 -> Rabs (orbit w cx cy dt p AX t - cx) <= r /\ Rabs (orbit w cx cy dt p AY t - cy) <= r.
Proof.
  intros Hr H. apply part_le; [exact Hr|]. cbn [orbit]. set (c := cos _). set (s := sin _).
  replace (cx + c * (vx p - cx) + s * (vy p - cy) - cx) with (c * (vx p - cx) + s * (vy p - cy)) by ring.
  replace (cy + c * (vy p - cy) + s * - (vx p - cx) - cy) with (c * (vy p - cy) - s * (vx p - cx)) by ring.
  rewrite turn_keeps; [exact H|]. exact (sin2_cos2 (w * (dt - t))).
Qed.
Lemma orbit_start w cx cy dt p r : 0 <= w -> 0 <= dt -> 0 <= r -> (vx p - cx) ^ 2 + (vy p - cy) ^ 2 <= r ^ 2 ->
  Rabs (vx p - orbit w cx cy dt p AX 0) <= w * r * dt /\ Rabs (vy p - orbit w cx cy dt p AY 0) <= w * r * dt.
Proof.
  intros Hw Hdt Hr H. assert (P : 0 <= w * dt) by (apply Rmult_le_pos; assumption). apply part_le; [apply Rmult_le_pos; [apply Rmult_le_pos|]; assumption|].
  cbn [orbit]. rewrite Rminus_0_r. pose proof (chord (w * dt) P) as C. pose proof (sin2_cos2 (w * dt)) as SC. unfold Rsqr in SC. set (c := cos _) in *. set (s := sin _) in *.
  set (u := vx p - cx) in *. set (v := vy p - cy) in *.
  replace ((vx p - (cx + c * u + s * v)) ^ 2 + (vy p - (cy + c * v + s * - u)) ^ 2) with ((1 - 2 * c + (s * s + c * c)) * (u ^ 2 + v ^ 2)) by (unfold u, v; ring).
  rewrite SC. replace (1 - 2 * c + 1) with (2 * (1 - c)) by ring. replace ((w * r * dt) ^ 2) with ((w * dt) ^ 2 * r ^ 2) by ring.
  apply Rmult_le_compat; [|apply Rplus_le_le_0_compat; apply pow2_ge_0|exact C|exact H]. pose proof (COS_bound (w * dt)). unfold c. lra.
Qed.

Section Turn.
Variables (ov : ovmode) (n : vec3 Z) (bmin bmax : vec3 R) (g : grid R) (dt r : R) (pos : array (vec3 R)) (l : levelset R).
Variables (hist : list string) (inp : vel_inputs R) (time c0 c1 : R) (rest : list R).
Hypothesis Hb : built ov 2 n 1 bmin bmax g.
Hypothesis Hl : levelset_on g l.
Hypothesis Hpos : app_positions ov g = Ok pos.
Hypothesis Hbox : proper_box 2 bmin bmax.
Hypothesis Hdef : interp_defined ov 2.
Hypothesis Hdt : 0 <= dt.
Hypothesis Hr : 0 <= r.
Hypothesis Hname : vi_name inp = "CIRCULAR"%string.
Hypothesis Hcentre : vi_center inp = c0 :: c1 :: rest.
Hypothesis Hnear : forall i j k p, interior_cell n (i, j, k) -> node ov g i j k = Ok p -> (vx p - c1) ^ 2 + (vy p - c0) ^ 2 <= r ^ 2.
Hypothesis CX : omega * r * dt < spacing (vx bmin) (vx bmax) (vx n).
Hypothesis CY : omega * r * dt < spacing (vy bmin) (vy bmax) (vy n).
Variables (D : nat -> nat -> nat -> R -> R -> R -> R) (M : nat -> nat -> nat -> R).
Hypothesis SD : smooth D.
Hypothesis HM : forall i j k p, (i <= 4)%nat -> (j <= 4)%nat -> (k <= 4)%nat -> centre_box 2 n bmin bmax p ->
  Rabs (D i j k (vx p) (vy p) (vz p)) <= M i j k.
Hypothesis HS : stores ov 2 n 1 g l (fun c => jet D (centre_pos 2 n bmin bmax c)).

Lemma turn_step : exists lv m l', av_compute ov true g (after_lookups VEL_NOT_DEFINED vel_map0 hist) inp pos time (ls_velocity_ctor g) = Ok (lv, m) /\
  sl_compute ov g dt lv l = Ok l' /\ only_interior ov 2 n 1 g l l' /\
  forall i j k, interior_cell n (i, j, k) -> exists p phi psi, node ov g i j k = Ok p /\ aget ov g (ls_phi l') i j k = Ok phi /\ aget ov g (ls_psi l') i j k = Ok psi /\
    Rabs (phi - turned (fun x y => D 0%nat 0%nat 0%nat x y 0) omega c1 c0 dt (vx p) (vy p)) <=
      error_bound 2 None (spacings n bmin bmax) M + omega ^ 2 * r / 2 * dt ^ 2 * (M 1%nat 0%nat 0%nat + M 0%nat 1%nat 0%nat) /\
    let q := foot dt (rotation omega c1 c0 p) p in
    Rabs (vx psi - D 1%nat 0%nat 0%nat (vx q) (vy q) 0) <= error_bound 2 (Some AX) (spacings n bmin bmax) M /\
    Rabs (vy psi - D 0%nat 1%nat 0%nat (vx q) (vy q) 0) <= error_bound 2 (Some AY) (spacings n bmin bmax) M.
Proof.
  destruct (positions_ok ov n bmin bmax g Hb) as (pos' & EP & HP & NP). rewrite Hpos in EP. injection EP as <-.
  destruct (analytical_gradient_zero ov 2 n 1 bmin bmax g hist inp pos time c0 c1 rest Hb ltac:(lia) ltac:(lia) HP Hname Hcentre) as (lv & m & Ea & Ha).
  assert (Hv0 : velocity_on g (ls_velocity_ctor g)).
  { pose proof (built_ok _ _ _ _ _ _ _ Hb) as F. pose proof (bf_ok _ _ _ _ _ _ _ F) as Hg. pose proof (fun A a => array_on_shaped (A := A) _ _ _ _ _ _ _ a Hb) as K.
    split; apply K; apply (array_ctor_shaped ov); [exact Hg|apply (bf_len _ _ _ _ _ _ _ F)|exact Hg|apply (bf_len _ _ _ _ _ _ _ F)]. }
  destruct (circular_rotates ov 2 n 1 bmin bmax g hist inp pos time _ c0 c1 rest Hb ltac:(lia) ltac:(lia) Hv0 HP Hname Hcentre) as (lv2 & m2 & E2 & (O1 & O2 & _) & _).
  rewrite Ea in E2. injection E2 as <- <-. pose proof omega_pos as W.
  assert (Hvel : forall i j k p, interior_cell n (i, j, k) -> node ov g i j k = Ok p -> aget ov g (lv_vel lv) i j k = Ok (rotation omega c1 c0 p) /\ aget ov g (lv_grad lv) i j k = Ok mzero).
  { intros i j k p Hi Np. destruct (Ha i j k Hi) as (p' & Ep & V1 & V2 & _). destruct (NP i j k (interior_padded _ _ _ _ (proj1 Hb) Hi)) as (p'' & N2 & Ep2).
    rewrite Np in N2. injection N2 as <-. rewrite Ep in Ep2. injection Ep2 as ->. auto. }
  set (P := fun (c : cell) => centre_pos 2 n bmin bmax c).
  assert (Hcen : forall i j k p, interior_cell n (i, j, k) -> node ov g i j k = Ok p -> P (i, j, k) = p).
  { intros i j k p Hi Np. symmetry. apply (node_centre ov 2 n bmin bmax g Hb); [exact (interior_padded _ _ _ _ (proj1 Hb) Hi)|exact Np]. }
  assert (Deep : forall i j k p, interior_cell n (i, j, k) -> node ov g i j k = Ok p ->
    (forall d, Rabs d <= omega * r * dt -> let h := spacing (vx bmin) (vx bmax) (vx n) in vx bmin - h / 2 < vx p - d < vx bmax + h / 2) /\
    (forall d, Rabs d <= omega * r * dt -> let h := spacing (vy bmin) (vy bmax) (vy n) in vy bmin - h / 2 < vy p - d < vy bmax + h / 2)).
  { intros i j k p Hi Np. rewrite <- (Hcen i j k p Hi Np). split; intros d Hd h; unfold P, centre_pos; cbn [used Nat.leb vx vy ccoord vget].
    - apply depth_x; [apply (Hbox AX eq_refl)|apply (Hi AX)|lra].
    - apply depth_x; [apply (Hbox AY eq_refl)|apply (Hi AY)|lra]. }
  assert (Speed : forall i j k p, interior_cell n (i, j, k) -> node ov g i j k = Ok p -> Rabs (dt * vx (rotation omega c1 c0 p)) <= omega * r * dt /\ Rabs (dt * vy (rotation omega c1 c0 p)) <= omega * r * dt).
  { intros i j k p Hi Np. destruct (part_le _ _ r Hr (Hnear i j k p Hi Np)) as (B1 & B2). cbn [rotation vx vy].
    rewrite !Rabs_mult, (Rabs_pos_eq dt Hdt), (Rabs_pos_eq omega) by lra. rewrite (Rabs_minus_sym c0).
    pose proof (Rmult_le_compat_l (dt * omega) _ _ ltac:(apply Rmult_le_pos; lra) B1). pose proof (Rmult_le_compat_l (dt * omega) _ _ ltac:(apply Rmult_le_pos; lra) B2). lra. }
  destruct (step_error ov 2 n bmin bmax g dt (omega ^ 2 * r) lv l Hb Hl (conj O1 O2) Hbox Hdef Hdt D M SD HM HS
    (fun c => orbit omega c1 c0 dt (P c))
    (fun c a t => match a with AX => omega * (c0 - orbit omega c1 c0 dt (P c) AY t) | AY => omega * (orbit omega c1 c0 dt (P c) AX t - c1) | AZ => 0 end)
    (fun c a t => match a with AX => - (omega ^ 2 * (orbit omega c1 c0 dt (P c) AX t - c1)) | AY => - (omega ^ 2 * (orbit omega c1 c0 dt (P c) AY t - c0)) | AZ => 0 end)) as (l' & E & O & H).
  { intros i j k p v Hi Np Ev. destruct (Hvel i j k p Hi Np) as (V1 & _). rewrite Ev in V1. injection V1 as ->.
    destruct (Deep i j k p Hi Np) as (DX & DY). destruct (Speed i j k p Hi Np) as (S1 & S2). pose proof (Hnear i j k p Hi Np) as NR. rewrite (Hcen i j k p Hi Np). split; [|split].
    - intros a Ua. destruct a; cbn [used Nat.leb] in Ua; try discriminate; cbn [foot vget vx vy vz].
      + destruct (DX _ S1). cbn [rotation vx vy] in *. lra.
      + destruct (DY _ S2). cbn [rotation vx vy] in *. lra.
    - assert (W2 : 0 <= omega ^ 2) by apply pow2_ge_0.
      intros a Ua. destruct a; cbn [used Nat.leb] in Ua; try discriminate; (split; [intros t Ht|]).
      + destruct (orbit_moves omega c1 c0 dt p t) as (M1 & M2). destruct (orbit_near omega c1 c0 dt p t r Hr NR) as (N1 & N2). split; [exact M1|]. split.
        * eapply d_eq; [apply (derivable_pt_lim_scal (fun t => c0 - orbit omega c1 c0 dt p AY t)); apply (derivable_pt_lim_minus (fun _ => c0)); [apply d_const|exact M2]|]. ring.
        * rewrite Rabs_Ropp, Rabs_mult, (Rabs_pos_eq _ W2). apply Rmult_le_compat_l; assumption.
      + cbn [orbit vget rotation vx vy]. rewrite Rminus_diag_eq, Rmult_0_r, cos_0, sin_0 by reflexivity. split; ring.
      + destruct (orbit_moves omega c1 c0 dt p t) as (M1 & M2). destruct (orbit_near omega c1 c0 dt p t r Hr NR) as (N1 & N2). split; [exact M2|]. split.
        * eapply d_eq; [apply (derivable_pt_lim_scal (fun t => orbit omega c1 c0 dt p AX t - c1)); apply (derivable_pt_lim_minus _ (fun _ => c1)); [exact M1|apply d_const]|]. ring.
        * rewrite Rabs_Ropp, Rabs_mult, (Rabs_pos_eq _ W2). apply Rmult_le_compat_l; assumption.
      + cbn [orbit vget rotation vx vy]. rewrite Rminus_diag_eq, Rmult_0_r, cos_0, sin_0 by reflexivity. split; ring.
    - destruct (orbit_start omega c1 c0 dt p r ltac:(lra) Hdt Hr NR) as (S3 & S4). pose proof (DX _ S3) as D3. pose proof (DY _ S4) as D4. cbv zeta in D3, D4.
      intros a. destruct a; unfold start; cbn [used Nat.leb vget vx vy vz]; [..|reflexivity]; cbv zeta; lra. }
  exists lv, m, l'. split; [exact Ea|]. split; [exact E|]. split; [exact O|]. intros i j k Hi.
  destruct (H i j k Hi) as (p & v & mm & phi & psi & Np & Ev & Em & E1 & E2 & B1 & B2). clear H.
  exists p, phi, psi. repeat (split; [assumption|]). destruct (Hvel i j k p Hi Np) as (V1 & V2). rewrite Ev in V1. injection V1 as ->. rewrite Em in V2. injection V2 as ->.
  rewrite (Hcen i j k p Hi Np) in B1. cbv zeta in B1, B2. split.
  - unfold start in B1. cbn [used Nat.leb vx vy vz orbit] in B1. unfold over_axes in B1. cbn [used Nat.leb slope_bound] in B1. rewrite Rminus_0_r, Rplus_0_r in B1.
    unfold turned. set (q1 := c1 + _ + _) in *. replace (c0 - sin (omega * dt) * (vx p - c1) + cos (omega * dt) * (vy p - c0)) with (c0 + cos (omega * dt) * (vy p - c0) + sin (omega * dt) * - (vx p - c1)) by ring. exact B1.
  - pose proof (B2 AX) as BX. pose proof (B2 AY) as BY. unfold over_axes in BX, BY. cbn [used Nat.leb axis_eqb first_order vget flat vx vy vz] in BX, BY.
    cbv zeta. split.
    + eapply Rle_trans; [|eapply Rle_trans; [exact BX|]].
      * right. f_equal. cbn. ring.
      * cbn. rewrite Rmult_0_r, Rminus_0_r, Rminus_0_r, Rabs_R1, Rabs_R0. lra.
    + eapply Rle_trans; [|eapply Rle_trans; [exact BY|]].
      * right. f_equal. cbn. ring.
      * cbn. rewrite Rmult_0_r, Rminus_0_r, Rminus_0_r, Rabs_R1, Rabs_R0. lra.
Qed.
End Turn.

(** *** planes *)
Lemma plane_smooth a b c : smooth (plane a b c).
Proof.
  intros i j k x y z.
  assert (L : forall u v w, derivable_pt_lim (fun t => u * t + v + w) x u) by (intros; apply is_derive_Reals; auto_derive; [auto|ring]).
  assert (L2 : forall u v w, derivable_pt_lim (fun t => v + u * t + w) y u) by (intros; apply is_derive_Reals; auto_derive; [auto|ring]).
  destruct i as [|[|i]], j as [|[|j]], k as [|k]; cbn [plane]; repeat split; try apply d_const; try apply L; try apply L2.
Qed.
Definition plane_bound (n : vec3 Z) (bmin bmax : vec3 R) (a b c : R) (i j k : nat) : R :=
  let far lo hi m := Rabs lo + Rabs hi + Rabs (spacing lo hi m) in
  match i, j, k with
  | O, O, O => Rabs a * far (vx bmin) (vx bmax) (vx n) + Rabs b * far (vy bmin) (vy bmax) (vy n) + Rabs c
  | S O, O, O => Rabs a | O, S O, O => Rabs b | _, _, _ => 0 end.
Lemma plane_bounded n bmin bmax a b c i j k p : centre_box 2 n bmin bmax p -> Rabs (plane a b c i j k (vx p) (vy p) (vz p)) <= plane_bound n bmin bmax a b c i j k.
Proof.
  intros H. assert (F : forall lo hi m z, lo - spacing lo hi m / 2 <= z <= hi + spacing lo hi m / 2 -> Rabs z <= Rabs lo + Rabs hi + Rabs (spacing lo hi m)).
  { intros lo hi m z Hz. set (h := spacing lo hi m) in *. pose proof (Rle_abs lo). pose proof (Rle_abs hi). pose proof (Rle_abs h). pose proof (Rle_abs (- lo)). pose proof (Rle_abs (- hi)). pose proof (Rle_abs (- h)).
    rewrite !Rabs_Ropp in *. pose proof (Rabs_pos lo). pose proof (Rabs_pos hi). pose proof (Rabs_pos h). apply Rabs_le. lra. }
  pose proof (H AX) as HX. pose proof (H AY) as HY. cbn [used Nat.leb vget] in HX, HY. cbv zeta in HX, HY. apply F in HX, HY.
  destruct i as [|[|i]], j as [|[|j]], k as [|k]; cbn [plane plane_bound]; rewrite ?Rabs_R0; try lra.
  eapply Rle_trans; [apply Rabs_triang|]. apply Rplus_le_compat_r. eapply Rle_trans; [apply Rabs_triang|]. rewrite !Rabs_mult.
  apply Rplus_le_compat; apply Rmult_le_compat_l; auto using Rabs_pos.
Qed.
Lemma plane_kept ov n bmin bmax (g : grid R) dt r pos l hist inp time c0 c1 rest a b c : built ov 2 n 1 bmin bmax g -> levelset_on g l -> app_positions ov g = Ok pos ->
  proper_box 2 bmin bmax -> interp_defined ov 2 -> 0 <= dt -> 0 <= r -> vi_name inp = "CIRCULAR"%string -> vi_center inp = c0 :: c1 :: rest ->
  (forall i j k p, interior_cell n (i, j, k) -> node ov g i j k = Ok p -> (vx p - c1) ^ 2 + (vy p - c0) ^ 2 <= r ^ 2) ->
  omega * r * dt < spacing (vx bmin) (vx bmax) (vx n) -> omega * r * dt < spacing (vy bmin) (vy bmax) (vy n) ->
  stores ov 2 n 1 g l (fun q => jet (plane a b c) (centre_pos 2 n bmin bmax q)) ->
  exists lv m l', av_compute ov true g (after_lookups VEL_NOT_DEFINED vel_map0 hist) inp pos time (ls_velocity_ctor g) = Ok (lv, m) /\ sl_compute ov g dt lv l = Ok l' /\
  forall i j k, interior_cell n (i, j, k) -> exists p psi ux uy, node ov g i j k = Ok p /\ aget ov g (ls_psi l') i j k = Ok psi /\ vx psi = a /\ vy psi = b /\
    differentiable_pt_lim (fun x y => turned (fun x y => a * x + b * y + c) omega c1 c0 dt x y) (vx p) (vy p) ux uy /\
    (vx psi - ux) ^ 2 + (vy psi - uy) ^ 2 = 2 * (1 - cos (omega * dt)) * (a ^ 2 + b ^ 2).
Proof.
  intros Hb Hl Hpos Hbox Hdef Hdt Hr Hn Hc Hnear CX CY HS.
  destruct (turn_step ov n bmin bmax g dt r pos l hist inp time c0 c1 rest Hb Hl Hpos Hbox Hdef Hdt Hr Hn Hc Hnear CX CY (plane a b c) (plane_bound n bmin bmax a b c) (plane_smooth a b c)
    (fun i j k p _ _ _ H => plane_bounded n bmin bmax a b c i j k p H) HS) as (lv & m & l' & E1 & E2 & _ & H).
  exists lv, m, l'. split; [exact E1|]. split; [exact E2|]. intros i j k Hi. destruct (H i j k Hi) as (p & phi & psi & Np & _ & Ep & _ & B1 & B2).
  assert (Z : forall d h, own d h 0 = 0) by (intros [] h; unfold own; ring). assert (A : forall d h, amp d h 0 0 = 0) by (intros [] h; unfold amp; ring).
  assert (E : forall s, error_bound 2 (Some s) (spacings n bmin bmax) (plane_bound n bmin bmax a b c) = 0).
  { intros s. unfold error_bound. cbv zeta. destruct s; cbn [axis_eqb ord plane_bound]; rewrite !Z, A; ring. }
  rewrite E in B1, B2. cbn [plane] in B1, B2.
  assert (P1 : vx psi = a) by (pose proof (Rabs_pos (vx psi - a)); destruct (Req_dec (vx psi - a) 0) as [X|X]; [lra|apply Rabs_pos_lt in X; lra]).
  assert (P2 : vy psi = b) by (pose proof (Rabs_pos (vy psi - b)); destruct (Req_dec (vy psi - b) 0) as [X|X]; [lra|apply Rabs_pos_lt in X; lra]).
  eexists p, psi, _, _. split; [exact Np|]. split; [exact Ep|]. split; [exact P1|]. split; [exact P2|]. split.
  - apply (turned_slopes (fun x y => a * x + b * y + c) omega c1 c0 dt (vx p) (vy p) a b).
    apply (differentiable_pt_lim_ext (fun x y => c + a * x + b * y)); [apply locally_2d_forall; intros; ring|apply affine_differentiable].
  - rewrite P1, P2. pose proof (sin2_cos2 (omega * dt)) as SC. unfold Rsqr in SC. set (co := cos _) in *. set (s := sin _) in *.
    replace ((a - (a * co + b * - s)) ^ 2 + (b - (a * s + b * co)) ^ 2) with ((1 - 2 * co + (s * s + co * co)) * (a ^ 2 + b ^ 2)) by ring. rewrite SC. ring.
Qed.

(** *** a case *)
Lemma turn_case : exists g pos l, built Wrap 2 (V3 4 3 1)%Z 1 lo1 hi1 g /\ levelset_on g l /\ app_positions Wrap g = Ok pos /\ proper_box 2 lo1 hi1 /\ interp_defined Wrap 2 /\
  vi_name (vin "CIRCULAR" [0; 0; 0] "ANALYTICAL") = "CIRCULAR"%string /\
  (forall i j k p, interior_cell (V3 4 3 1)%Z (i, j, k) -> node Wrap g i j k = Ok p -> (vx p - 0) ^ 2 + (vy p - 0) ^ 2 <= (3 / 2) ^ 2) /\
  omega * (3 / 2) * (1 / 10) < spacing (vx lo1) (vx hi1) 4 /\ omega * (3 / 2) * (1 / 10) < spacing (vy lo1) (vy hi1) 3 /\
  smooth (plane 1 2 0) /\ stores Wrap 2 (V3 4 3 1)%Z 1 g l (fun c => jet (plane 1 2 0) (centre_pos 2 (V3 4 3 1)%Z lo1 hi1 c)) /\ 0 < 2 * (1 - cos (omega * (1 / 10))) * (1 ^ 2 + 2 ^ 2).
Proof.
  destruct (built_2d (T := R) Wrap lo1 hi1) as (g & Hb).
  destruct (positions_ok Wrap _ _ _ g Hb) as (pos & EP & _).
  destruct (stores_exists _ _ _ _ _ _ g (fun c => jet (plane 1 2 0) (centre_pos 2 (V3 4 3 1)%Z lo1 hi1 c)) Hb) as (l & Hl & HS).
  assert (W : 0 < omega < 4 / 3) by (split; [apply omega_pos|unfold omega; replace (PI / (315 / 100)) with (PI * (20 / 63)) by field; pose proof PI_4; lra]).
  exists g, pos, l. split; [exact Hb|]. split; [exact Hl|]. split; [exact EP|]. split; [apply unit_box|]. split; [left; reflexivity|]. split; [reflexivity|].
  split; [|split; [|split; [|split; [apply plane_smooth|split; [exact HS|]]]]].
  - intros i j k p Hi Np. pose proof (interior_in_box _ _ _ _ _ _ _ _ _ _ Hb (unit_box 2) Hi Np) as B.
    pose proof (B AX eq_refl) as BX. pose proof (B AY eq_refl) as BY. cbn [vget lo1 hi1 vx vy vz] in BX, BY.
    assert (Q : forall z, -1 < z < 1 -> z ^ 2 <= 1) by (intros z Hz; replace 1 with (1 ^ 2) by ring; apply pow_maj_Rabs; apply Rabs_le; lra).
    rewrite !Rminus_0_r. pose proof (Q _ BX). pose proof (Q _ BY). lra.
  - unfold spacing, lo1, hi1. cbn [vx vy]. lra.
  - unfold spacing, lo1, hi1. cbn [vx vy]. lra.
  - assert (cos (omega * (1 / 10)) < 1); [|lra]. assert (omega < PI) by (unfold omega; replace (PI / (315 / 100)) with (PI * (20 / 63)) by field; pose proof PI_RGT_0; lra).
    pose proof (cos_decreasing_1 0 (omega * (1 / 10)) ltac:(lra) ltac:(lra) ltac:(lra) ltac:(lra) ltac:(lra)) as C. rewrite cos_0 in C. exact C.
Qed.
